(** Merging vectors of the members into one of the chain and giving it back *)
From Coq Require Import List Arith ZArith Bool Lia.
From Verif Require Import Dict GmModel GmSpec GmProofs GmChain.
Import ListNotations.

Lemma list_choice {A} (P : nat -> A -> Prop) n : (forall k, k < n -> exists a, P k a) ->
  exists l, length l = n /\ forall k a, nth_error l k = Some a -> P k a.
Proof.
  induction n as [|n IH]; intros H.
  - exists []. split; auto. intros [|k] a; discriminate.
  - destruct IH as (l & Hl & Hp); [intros; apply H; lia|]. destruct (H n) as [a Ha]; [lia|].
    exists (l ++ [a]). rewrite app_length. simpl. split; [lia|]. intros k b. destruct (lt_dec k (length l)) as [Hk|Hk].
    + rewrite nth_error_app1 by auto. apply Hp.
    + rewrite nth_error_app2 by lia. destruct (k - length l) as [|j] eqn:E; [|destruct j; discriminate].
      intros [= <-]. replace k with n by lia. auto.
Qed.
Lemma nth_error_ext_len {A} (l l' : list A) : length l = length l' -> (forall k, k < length l -> nth_error l k = nth_error l' k) -> l = l'.
Proof.
  revert l'. induction l as [|a l IH]; intros [|b l'] Hl H; try discriminate; auto. f_equal.
  - specialize (H 0). simpl in H. assert (Some a = Some b) as E by (apply H; lia). congruence.
  - apply IH; [simpl in Hl; lia|]. intros k Hk. apply (H (S k)). simpl; lia.
Qed.

Lemma nth_Forall2 {A B} (P : A -> B -> Prop) l : forall l', length l = length l' ->
  (forall i a b, nth_error l i = Some a -> nth_error l' i = Some b -> P a b) -> Forall2 P l l'.
Proof.
  induction l as [|a l IH]; intros [|b l'] Hl H; try discriminate; constructor; [apply (H 0); auto|].
  apply IH; [simpl in Hl; lia|]. intros i x y Hx Hy. apply (H (S i)); auto.
Qed.

Section Data.
  Context {A : Type} (zero : A).
  Notation edata := (list (dict nat (list A))).

  Lemma vals_fun (V : list A) row a b : vals V row a -> vals V row b -> a = b.
  Proof. intros H. revert b. induction H; intros b' Hb; inversion Hb; subst; auto. f_equal; [congruence|auto]. Qed.
  Lemma vals_obind (V : list A) row vs : obind row (nth_error V) = Some vs <-> vals V row vs.
  Proof. apply obind_forall2. Qed.
  Lemma vals_ok (V : list A) row : (forall d, In d row -> d < length V) -> exists vs, vals V row vs.
  Proof.
    intros H. destruct (obind_ok (nth_error V) row) as [vs Hvs].
    - intros d Hd. destruct (nth_error V d) eqn:E; eauto. apply nth_error_None in E. apply H in Hd. lia.
    - exists vs. now apply vals_obind.
  Qed.

  (** ** assemble *)
  Lemma setnth_spec n (v : A) : forall l, n < length l ->
    exists l', setnth n v l = Some l' /\ length l' = length l /\ forall d, nth_error l' d = if d =? n then Some v else nth_error l d.
  Proof.
    induction n as [|n IH]; intros [|a l] Hn; simpl in *; try lia.
    - exists (v :: l). repeat split; auto. now intros [|d].
    - destruct (IH l) as (l' & E & Hl & Hd); [lia|]. rewrite E. exists (a :: l'). simpl. repeat split; auto. intros [|d]; auto. simpl. apply Hd.
  Qed.
  Lemma set_all_spec (W : list A) ix : forall vs l, vals W ix vs -> length l = length W ->
    exists l', set_all ix vs l = Some l' /\ length l' = length W /\
      forall d, (In d ix -> nth_error l' d = nth_error W d) /\ (~ In d ix -> nth_error l' d = nth_error l d).
  Proof.
    induction ix as [|i ix IH]; intros vs l H Hl; inversion H as [|? v ? vs' Hv Hvs]; subst; simpl.
    - exists l. repeat split; auto. tauto.
    - destruct (setnth_spec i v l) as (l1 & E1 & L1 & D1). { rewrite Hl. apply nth_error_Some. congruence. }
      rewrite E1. destruct (IH vs' l1 Hvs) as (l2 & E2 & L2 & D2); [congruence|]. exists l2. repeat split; auto.
      + intros [->|Hin]; [|now apply D2]. destruct (in_dec Nat.eq_dec d ix) as [Hi|Hi]; [now apply D2|].
        rewrite (proj2 (D2 d) Hi), D1, Nat.eqb_refl. congruence.
      + intros Hn. rewrite (proj2 (D2 d)) by tauto. rewrite D1. destruct (Nat.eqb_spec d i); auto. subst. tauto.
  Qed.
  (** the data of one rank are the values of [W] *)
  Definition shared_rank (W : list A) (r : rgm) (dr : dict nat (list A)) : Prop :=
    forall e nums, In (e, nums) r -> exists dt, nget dr e = Some dt /\ vals W nums dt.
  Lemma assemble_rank_spec (W : list A) r : forall dr l, shared_rank W r dr -> length l = length W ->
    exists l', assemble_rank r dr l = Some l' /\ length l' = length W /\
      forall d, (In d (concat (map snd r)) -> nth_error l' d = nth_error W d) /\ (~ In d (concat (map snd r)) -> nth_error l' d = nth_error l d).
  Proof.
    induction r as [|[e nums] r IH]; intros dr l H Hl; simpl.
    - exists l. repeat split; auto. tauto.
    - destruct (H e nums) as (dt & E & Hv); [simpl; auto|]. rewrite E.
      destruct (set_all_spec W nums dt l Hv Hl) as (l1 & E1 & L1 & D1). rewrite E1.
      destruct (IH dr l1) as (l2 & E2 & L2 & D2); auto. { intros e' n' Hin. apply H. simpl; auto. }
      exists l2. repeat split; auto; rewrite in_app_iff.
      + intros Hin. destruct (in_dec Nat.eq_dec d (concat (map snd r))) as [Hi|Hi]; [now apply D2|].
        rewrite (proj2 (D2 d) Hi). apply D1. tauto.
      + intros Hn. rewrite (proj2 (D2 d)) by tauto. apply D1. tauto.
  Qed.
  Lemma assemble_ranks_spec (W : list A) g : forall data l, Forall2 (shared_rank W) g data -> length l = length W ->
    exists l', assemble_ranks g data l = Some l' /\ length l' = length W /\
      forall d, (In d (concat (map snd (concat g))) -> nth_error l' d = nth_error W d).
  Proof.
    assert (forall g data l, Forall2 (shared_rank W) g data -> length l = length W ->
      exists l', assemble_ranks g data l = Some l' /\ length l' = length W /\
      forall d, (In d (concat (map snd (concat g))) -> nth_error l' d = nth_error W d) /\ (~ In d (concat (map snd (concat g))) -> nth_error l' d = nth_error l d)) as HH.
    { induction g0 as [|r g0 IH]; intros data l H Hl; inversion H as [|? dr ? data' Hr Hg]; subst; simpl.
      - exists l. repeat split; auto. tauto.
      - destruct (assemble_rank_spec W r dr l Hr Hl) as (l1 & E1 & L1 & D1). rewrite E1.
        destruct (IH data' l1 Hg L1) as (l2 & E2 & L2 & D2). exists l2. rewrite map_app, concat_app. repeat split; auto; rewrite in_app_iff.
        + intros Hin. destruct (in_dec Nat.eq_dec d (concat (map snd (concat g0)))) as [Hi|Hi]; [now apply D2|].
          rewrite (proj2 (D2 d) Hi). apply D1. tauto.
        + intros Hn. rewrite (proj2 (D2 d)) by tauto. apply D1. tauto. }
    intros data l H Hl. destruct (HH g data l H Hl) as (l' & H1 & H2 & H3). exists l'. repeat split; auto. apply H3.
  Qed.
  Lemma used_in g d : used g d <-> In d (concat (map snd (concat g))).
  Proof.
    split.
    - intros (e & row & (r & Hr & He) & Hd). apply in_concat. exists row. split; auto. apply in_map_iff. exists (e, row). split; auto.
      apply in_concat. eauto.
    - intros H. apply in_concat in H as (row & H1 & H2). apply in_map_iff in H1 as ([e row'] & <- & H3).
      apply in_concat in H3 as (r & H3 & H4). exists e, row'. split; auto. exists r. auto.
  Qed.
  Lemma assemble_spec (W : list A) g data : Forall2 (shared_rank W) g data -> exactly g (length W) -> assemble zero g data = Some W.
  Proof.
    intros H He. unfold assemble. rewrite (num_dofs_exactly g _ He).
    destruct (assemble_ranks_spec W g data (repeat zero (length W)) H) as (l & E & Hl & Hd); [apply repeat_length|].
    rewrite E. f_equal. apply nth_error_ext_len; auto. intros k Hk. apply Hd, used_in, He. lia.
  Qed.

  (** ** share *)
  Lemma get_obind {V} (f : nat -> option (nat * V)) es d : (forall e p, f e = Some p -> fst p = e) -> obind es f = Some d ->
    forall e, In e es -> option_map (pair e) (nget d e) = f e.
  Proof.
    intros Hf. revert d. induction es as [|x es IH]; intros d; simpl; [tauto|].
    destruct (f x) as [[k v]|] eqn:Ex; [|discriminate]. destruct (obind es f) as [s|]; [|discriminate]. intros [= <-] e Hin.
    assert (k = x) as -> by (apply (Hf _ _ Ex)). simpl. destruct (Nat.eqb_spec e x) as [->|Hn]; [simpl; congruence|].
    destruct Hin as [->|Hin]; [tauto|auto].
  Qed.
  Lemma share_spec es (r : rgm) (V : list A) : (forall e, In e es -> exists nums, nget r e = Some nums /\ forall d, In d nums -> d < length V) ->
    exists d, share es r V = Some d /\ forall e, In e es -> exists nums dt, nget r e = Some nums /\ nget d e = Some dt /\ vals V nums dt.
  Proof.
    intros H. unfold share. set (f := fun e => match nget r e with Some nums => option_map (pair e) (obind nums (nth_error V)) | None => None end). destruct (obind_ok f es) as [d Hd].
    - intros e He. destruct (H e He) as (nums & E & Hl). unfold f. rewrite E. destruct (vals_ok V nums Hl) as [vs Hvs].
      apply vals_obind in Hvs. rewrite Hvs. simpl. eauto.
    - exists d. split; auto. intros e He. destruct (H e He) as (nums & E & Hl). destruct (vals_ok V nums Hl) as [vs Hvs]. exists nums, vs. repeat split; auto.
      assert (f e = Some (e, vs)) as Ef. { unfold f. rewrite E. apply vals_obind in Hvs. now rewrite Hvs. }
      pose proof (get_obind f es d) as G. rewrite <- (G ltac:(clear; intros e p; unfold f; destruct (nget r e); [destruct (obind _ _); simpl; intros [= <-]; auto|discriminate]) Hd e He) in Ef.
      destruct (nget d e); simpl in Ef; congruence.
  Qed.
  Lemma rank_get (r : rgm) e nums : NoDup (keys r) -> (In (e, nums) r <-> nget r e = Some nums).
  Proof. intros Hn. split; [now apply (in_get _ Nat_eqb_spec)|apply (get_in _ Nat_eqb_spec)]. Qed.
  Lemma wf_rank (g : dgm) r : wf_numbering g -> In r g -> NoDup (keys r).
  Proof.
    unfold wf_numbering. induction g as [|a g IH]; simpl; [tauto|]. intros H. apply NoDup_app_elim in H as (H1 & H2 & _). intros [->|Hin]; auto.
  Qed.
  Lemma share_ranks_spec g (V : list A) : wf_numbering g -> exactly g (length V) ->
    exists data, share_ranks g V = Some data /\ Forall2 (shared_rank V) g data.
  Proof.
    intros Hw He. unfold share_ranks.
    assert (forall r, In r g -> exists d, share (keys r) r V = Some d /\ shared_rank V r d) as H.
    { intros r Hr. destruct (share_spec (keys r) r V) as (d & E & Hd).
      - intros e Hin. apply (get_keys _ Nat_eqb_spec) in Hin as [nums E]. exists nums. split; auto. intros d Hd. apply He. exists e, nums. split; auto.
        exists r. split; auto. now apply (get_in _ Nat_eqb_spec).
      - exists d. split; auto. intros e nums Hin. pose proof (wf_rank g r Hw Hr) as Hn.
        destruct (Hd e) as (nums' & dt & E1 & E2 & E3); [apply (in_map fst) in Hin; auto|].
        apply rank_get in Hin; auto. rewrite E1 in Hin. injection Hin as ->. eauto. }
    clear - H. induction g as [|r g IH]; simpl; [exists []; split; auto|].
    destruct (H r) as (d & E & Hd); [simpl; auto|]. rewrite E. destruct IH as (data & E2 & H2); [intros; apply H; simpl; auto|].
    rewrite E2. exists (d :: data). split; auto.
  Qed.
  Lemma share_assemble g (V : list A) : wf_numbering g -> exactly g (length V) ->
    exists data, share_ranks g V = Some data /\ assemble zero g data = Some V.
  Proof. intros Hw He. destruct (share_ranks_spec g V Hw He) as (data & H1 & H2). exists data. split; auto. now apply assemble_spec. Qed.

  (** ** the numbering of the chain and the values *)
  Definition linked (phi : nat -> nat -> nat) (k : nat) (gms : list dgm) (Vs : list (list A)) (V : list A) : Prop :=
    forall i g Vi d, nth_error gms i = Some g -> nth_error Vs i = Some Vi -> used g d ->
      exists v, nth_error Vi d = Some v /\ nth_error V (phi (k + i) d) = Some v.
  Lemma vals_map (V : list A) (f : nat -> nat) row vs : vals V (map f row) vs <-> Forall2 (fun d v => nth_error V (f d) = Some v) row vs.
  Proof.
    revert vs. induction row as [|d row IH]; intros vs; simpl.
    - split; intros H; inversion H; constructor.
    - split; intros H; inversion H; subst; constructor; auto; now apply IH.
  Qed.
  Lemma vals_transfer (V Vi : list A) (f : nat -> nat) row vs : vals V (map f row) vs ->
    (forall d, In d row -> exists v, nth_error Vi d = Some v /\ nth_error V (f d) = Some v) -> vals Vi row vs.
  Proof.
    intros H. apply (proj1 (vals_map V f row vs)) in H. induction H as [|d v row vs Hd H IH]; intros Hu; constructor.
    - destruct (Hu d) as (w & W1 & W2); [simpl; auto|]. congruence.
    - apply IH. intros; apply Hu; simpl; auto.
  Qed.
  Lemma vals_app (V : list A) a b va vb : vals V a va -> vals V b vb -> vals V (a ++ b) (va ++ vb).
  Proof. intros; now apply Forall2_app. Qed.
  Lemma vals_app_inv (V : list A) a b va vb : length a = length va -> vals V (a ++ b) (va ++ vb) -> vals V a va /\ vals V b vb.
  Proof.
    revert va. induction a as [|x a IH]; intros [|v va] Hl H; try discriminate; simpl in *; [split; [constructor|auto]|].
    inversion H; subst. destruct (IH va) as [H1 H2]; [lia|auto|]. split; auto. constructor; auto.
  Qed.
  Lemma linked_vals phi e gms : forall k (Vs : list (list A)) rows ls (V : list A), Forall2 (fun g r => row_at g e r) gms rows -> length Vs = length gms ->
    Forall2 (fun Vr l => vals (fst Vr) (snd Vr) l) (combine Vs rows) ls -> linked phi k gms Vs V ->
    vals V (chain_row phi k (length gms) rows) (concat ls).
  Proof.
    induction gms as [|g gms IH]; intros k Vs rows ls V Hr Hl Hls HP; inversion Hr as [|? r ? rows' Hg Hr']; subst; destruct Vs as [|Vi Vs]; try discriminate.
    - inversion Hls; subst. constructor.
    - simpl in Hls. inversion Hls as [|? l ? ls' Hv Hls']; subst. unfold chain_row. cbn [length seq combine map concat fst snd] in *. apply vals_app.
      + apply vals_map. clear - Hv HP Hg.
        assert (forall d, In d r -> used g d) as Hu by (intros d Hd; exists e, r; auto). clear Hg.
        induction Hv as [|d v r l Hd Hv IH]; constructor; [|apply IH; intros; apply Hu; simpl; auto].
        destruct (HP 0 g Vi d eq_refl eq_refl) as (w & H1 & H2); [apply Hu; simpl; auto|]. rewrite Nat.add_0_r in H2. congruence.
      + apply (IH (S k) Vs rows' ls' V Hr'); auto.
        intros i g' Vi' d H1 H2 H3. destruct (HP (S i) g' Vi' d H1 H2 H3) as (v & H4 & H5). exists v. split; auto. now rewrite Nat.add_succ_r in H5.
  Qed.
  Lemma vals_linked phi e (gms : list dgm) : forall k (Vs : list (list A)) rows ls (V : list A), Forall2 (fun g r => row_at g e r) gms rows -> length Vs = length gms ->
    Forall2 (fun Vr l => vals (fst Vr) (snd Vr) l) (combine Vs rows) ls -> vals V (chain_row phi k (length gms) rows) (concat ls) ->
    forall i g Vi r d, nth_error gms i = Some g -> nth_error Vs i = Some Vi -> nth_error rows i = Some r -> In d r ->
      exists v, nth_error Vi d = Some v /\ nth_error V (phi (k + i) d) = Some v.
  Proof.
    induction gms as [|g0 gms IH]; intros k Vs rows ls V Hr Hl Hls HV i g Vi r d Hg HVi Hri Hd; inversion Hr as [|? r0 ? rows' Hg0 Hr']; subst; destruct Vs as [|V0 Vs]; try discriminate.
    - destruct i; discriminate.
    - simpl in Hls. inversion Hls as [|? l ? ls' Hv Hls']; subst. unfold chain_row in HV. cbn [length seq combine map concat fst snd] in *.
      apply vals_app_inv in HV as [HV1 HV2]; [|rewrite map_length; eapply Forall2_len; eauto].
      destruct i as [|i]; simpl in *.
      + injection Hg as <-. injection HVi as <-. injection Hri as <-. rewrite Nat.add_0_r. apply vals_map in HV1. clear - Hv HV1 Hd.
        revert l Hv HV1. induction r0 as [|x r0 IH]; intros l Hv H1; simpl in *; [tauto|]. inversion Hv; subst. inversion H1; subst.
        destruct Hd as [->|Hd]; [eauto|]. eapply IH; eauto.
      + rewrite Nat.add_succ_r. eapply (IH (S k)); eauto.
  Qed.

  Lemma ranks_all k (cg : rgm) (l : list dgm) : (forall g, In g l -> exists r, nth_error g k = Some r /\ In r g /\ forall e, In e (keys cg) <-> In e (keys r)) ->
    exists gs, obind l (fun g => nth_error g k) = Some gs /\ Forall2 (fun g r => In r g /\ nth_error g k = Some r /\ forall e, In e (keys cg) <-> In e (keys r)) l gs.
  Proof.
    intros H. induction l as [|g l IH]; simpl; [exists []; split; auto|].
    destruct (H g) as (r & E & Hr); [simpl; auto|]. rewrite E. destruct IH as (gs & E2 & H2); [intros; apply H; simpl; auto|].
    rewrite E2. exists (r :: gs). split; auto. constructor; tauto.
  Qed.

  Lemma hd_in {X} (l : list X) a : hd_error l = Some a -> In a l.
  Proof. destruct l; simpl; [discriminate|]. intros [= ->]. auto. Qed.

  Section Merge.
    Context (gms : list dgm) (cgm : dgm) (Hw : Forall wf_numbering gms) (Hc : chaining gms = Some cgm).
    Context (Hex : Forall (fun g => exactly g (num_dofs g)) gms).
    Let M := total_dofs gms.

    Lemma m_agree g : In g gms -> agree g cgm.
    Proof.
      intros Hg. destruct (chaining_correct gms cgm Hw Hc) as (_ & _ & g0 & H0 & Ek).
      pose proof Hc as (g0' & H0' & _ & _ & Hk)%chaining_inv. rewrite H0 in H0'. injection H0' as <-.
      apply (check_iff gms g0 H0) in Hk. apply (agree_trans _ g0); [|apply agree_sym, agree_keys; auto].
      apply Hk; auto. now apply hd_in.
    Qed.
    Lemma m_chained : chained gms cgm M.
    Proof. now apply chaining_correct. Qed.
    Lemma m_wf : wf_numbering cgm.
    Proof. now apply (chaining_correct gms). Qed.
    Lemma m_exactly : exactly cgm M.
    Proof. apply (chained_exactly gms); auto; [apply m_chained|]. intros g Hg e. exact (proj1 (agree_in _ _ (m_agree g Hg) e)). Qed.
    Lemma agree_nth (a b : dgm) k y : agree a b -> nth_error b k = Some y -> exists x, nth_error a k = Some x /\ forall e, In e (keys x) <-> In e (keys y).
    Proof. intros H. exact (Forall2_nth_r _ _ _ _ _ H). Qed.
    Lemma m_ranks k cg : nth_error cgm k = Some cg ->
      exists gs, by_rank k gms = Some gs /\ Forall2 (fun g r => In r g /\ nth_error g k = Some r /\ forall e, In e (keys cg) <-> In e (keys r)) gms gs.
    Proof.
      intros Hk. unfold by_rank.
      assert (forall g, In g gms -> exists r, nth_error g k = Some r /\ In r g /\ forall e, In e (keys cg) <-> In e (keys r)) as H.
      { intros g Hg. destruct (agree_nth g cgm k cg (m_agree g Hg) Hk) as (r & H1 & H2). exists r. repeat split; auto; try (apply H2).
        eapply nth_error_In; eauto. }
      exact (ranks_all k cg gms H).
    Qed.
    Lemma m_rows k cg gs e : nth_error cgm k = Some cg -> by_rank k gms = Some gs -> In e (keys cg) ->
      exists rows, obind gs (fun r => nget r e) = Some rows /\ Forall2 (fun g r => row_at g e r) gms rows.
    Proof.
      intros Hk Hb He. destruct (m_ranks k cg Hk) as (gs' & Hb' & HF). rewrite Hb in Hb'. injection Hb' as <-. clear - HF He.
      induction HF as [|g r l gs (H1 & H2 & H3) HF IH]; simpl; [exists []; split; auto|].
      apply H3, (get_keys _ Nat_eqb_spec) in He as [row E]. rewrite E. destruct IH as (rows & E2 & HR). rewrite E2.
      exists (row :: rows). split; auto. constructor; auto. exists r. split; auto. now apply (get_in _ Nat_eqb_spec).
    Qed.

    (** merge *)
    Lemma merge_rank_spec k cg gs (Vs : list (list A)) : nth_error cgm k = Some cg -> by_rank k gms = Some gs ->
      Forall2 (fun g V => length V = num_dofs g) gms Vs ->
      exists dr, merge_rank gs cg Vs = Some dr /\
        forall e, In e (keys cg) -> exists rows ls, Forall2 (fun g r => row_at g e r) gms rows /\
          Forall2 (fun Vr l => vals (fst Vr) (snd Vr) l) (combine Vs rows) ls /\ nget dr e = Some (concat ls).
    Proof.
      intros Hk Hb HV. unfold merge_rank.
      destruct (m_ranks k cg Hk) as (gs' & Hb' & HF). rewrite Hb in Hb'. injection Hb' as <-.
      assert (exists ds, obind (combine gs Vs) (fun gV => share (keys cg) (fst gV) (snd gV)) = Some ds /\
        Forall2 (fun gV d => forall e, In e (keys cg) -> exists nums dt, nget (fst gV) e = Some nums /\ nget d e = Some dt /\ vals (snd gV) nums dt) (combine gs Vs) ds) as (ds & Eds & Hds).
      { clear Hc Hb Hk. revert Vs HV. induction HF as [|g r l gs (H1 & H2 & H3) HF IH]; intros Vs HV; inversion HV as [|? V ? Vs' HVl HV']; subst; simpl; [exists []; split; auto|].
        inversion Hw; subst. inversion Hex as [|? ? Hg Hex']; subst.
        destruct (share_spec (keys cg) r V) as (d & E & Hd).
        - intros e He. apply H3, (get_keys _ Nat_eqb_spec) in He as [nums E]. exists nums. split; auto. intros d Hd. rewrite HVl. apply Hg.
          exists e, nums. split; auto. exists r. split; auto. now apply (get_in _ Nat_eqb_spec).
        - rewrite E. destruct (IH ltac:(auto) ltac:(auto) Vs' HV') as (ds & E2 & Hq). rewrite E2. exists (d :: ds). split; auto. }
      rewrite Eds. set (f := fun e => option_map (fun parts => (e, concat parts)) (obind ds (fun d => nget d e))).
      assert (forall e, In e (keys cg) -> exists rows ls, Forall2 (fun g r => row_at g e r) gms rows /\
          Forall2 (fun Vr l => vals (fst Vr) (snd Vr) l) (combine Vs rows) ls /\ obind ds (fun d => nget d e) = Some ls) as Hall.
      { intros e He. destruct (m_rows k cg gs e Hk Hb He) as (rows & E & HR). exists rows.
        assert (exists ls, Forall2 (fun Vr l => vals (fst Vr) (snd Vr) l) (combine Vs rows) ls /\ obind ds (fun d => nget d e) = Some ls) as (ls & H1 & H2); [|eauto].
        clear - E HR Hds He HV HF. revert gs Vs ds HV HF E Hds. induction HR as [|g r l rows Hr HR IH]; intros gs Vs ds HV HF E Hds; inversion HV as [|? V ? Vs' HVl HV']; subst; inversion HF as [|? r' ? gs' Hr' HF']; subst.
        - simpl in Hds. inversion Hds; subst. exists []. split; auto; constructor.
        - simpl in E. destruct (nget r' e) as [nums|] eqn:En; [|discriminate]. destruct (obind gs' (fun r => nget r e)) as [rs|] eqn:Er; [|discriminate].
          injection E as -> ->. simpl in Hds. inversion Hds as [|? d ? ds' Hd Hds']; subst.
          destruct (IH gs' Vs' ds' HV' HF' Er Hds') as (ls & H1 & H2).
          destruct (Hd e He) as (nums' & dt & E1 & E2 & E3). simpl in *. rewrite En in E1. injection E1 as <-.
          exists (dt :: ls). rewrite E2, H2. split; auto. }
      destruct (obind_ok f (keys cg)) as [dr Hdr].
      - intros e He. destruct (Hall e He) as (rows & ls & _ & _ & E). unfold f. rewrite E. simpl. eauto.
      - exists dr. split; auto. intros e He. destruct (Hall e He) as (rows & ls & H1 & H2 & E). exists rows, ls. repeat split; auto.
        pose proof (get_obind f (keys cg) dr) as G.
        assert (f e = Some (e, concat ls)) as Ef by (unfold f; now rewrite E).
        rewrite <- (G ltac:(clear; intros e p; unfold f; destruct (obind _ _); simpl; [intros [= <-]; auto|discriminate]) Hdr e He) in Ef.
        destruct (nget dr e); simpl in Ef; congruence.
    Qed.

    Lemma linked_exists phi (Vs : list (list A)) : (forall i j g h d d', nth_error gms i = Some g -> nth_error gms j = Some h -> used g d -> used h d' ->
         phi i d = phi j d' -> i = j /\ d = d') ->
      (forall k, k < M <-> exists i g d, nth_error gms i = Some g /\ used g d /\ phi i d = k) ->
      Forall2 (fun g V => length V = num_dofs g) gms Vs -> exists V, length V = M /\ linked phi 0 gms Vs V.
    Proof.
      intros C2 C3 HV.
      destruct (list_choice (fun k v => forall i g Vi d, nth_error gms i = Some g -> nth_error Vs i = Some Vi -> used g d -> phi i d = k -> nth_error Vi d = Some v) M) as (V & Hl & HP).
      - intros k Hk. apply C3 in Hk as (i & g & d & Hg & Hd & E). destruct (Forall2_nth_l _ _ _ _ _ HV Hg) as (Vi & HVi & Hlen).
        assert (exists v, nth_error Vi d = Some v) as [v Hv].
        { destruct (nth_error Vi d) eqn:En; eauto. apply nth_error_None in En. rewrite Forall_forall in Hex. apply (Hex g) in Hd; [lia|]. eapply nth_error_In; eauto. }
        exists v. intros i' g' Vi' d' Hg' HVi' Hd' E'. destruct (C2 i i' g g' d d' Hg Hg' Hd Hd') as [<- <-]; congruence.
      - exists V. split; auto. intros i g Vi d Hg HVi Hd. simpl.
        assert (phi i d < M) as Hlt by (apply C3; eauto 8).
        destruct (nth_error V (phi i d)) as [v|] eqn:E; [|apply nth_error_None in E; lia].
        exists v. split; auto. eapply HP; eauto.
    Qed.

    Lemma linked_merged phi (Vs : list (list A)) V : (forall e row, row_at cgm e row -> exists rows, Forall2 (fun g r => row_at g e r) gms rows /\
         row = concat (map (fun ir => map (phi (fst ir)) (snd ir)) (combine (seq 0 (length gms)) rows))) ->
      Forall2 (fun g V => length V = num_dofs g) gms Vs -> linked phi 0 gms Vs V -> merged gms cgm Vs V.
    Proof.
      intros C1 HV HL e row rows Hrow Hrows. destruct (C1 e row Hrow) as (rows' & Hr' & ->).
      rewrite (rows_fun gms e rows' rows Hw Hr' Hrows) in *. clear Hr'.
      assert (exists ls, Forall2 (fun Vr l => vals (fst Vr) (snd Vr) l) (combine Vs rows) ls) as [ls Hls].
      { clear - Hrows HV Hex. revert rows Hrows. induction HV as [|g V l Vs Hl HV IH]; intros rows Hr; [exists []; constructor|].
        inversion Hr as [|? r ? rows' Hg Hr']; subst. inversion Hex as [|? ? Hg' Hex']; subst. destruct (IH Hex' rows' Hr') as [ls Hls].
        destruct (vals_ok V r) as [vs Hvs].
        - intros d Hd. rewrite Hl. apply Hg'. exists e, r. auto.
        - exists (vs :: ls). constructor; auto. }
      exists ls. split; auto. eapply linked_vals; eauto. symmetry. eapply Forall2_len; eauto.
    Qed.
    Lemma merged_linked phi (Vs : list (list A)) V : (forall e row, row_at cgm e row -> exists rows, Forall2 (fun g r => row_at g e r) gms rows /\
         row = concat (map (fun ir => map (phi (fst ir)) (snd ir)) (combine (seq 0 (length gms)) rows))) ->
      length Vs = length gms -> merged gms cgm Vs V -> linked phi 0 gms Vs V.
    Proof.
      intros C1 Hl HM i g Vi d Hg HVi (e & r & Hat & Hd).
      assert (exists row, row_at cgm e row) as [row Hrow].
      { apply row_at_key. apply (agree_in g cgm); [apply m_agree; eapply nth_error_In; eauto|]. apply row_at_key. eauto. }
      destruct (C1 e row Hrow) as (rows & Hr & ->). destruct (HM e _ rows Hrow Hr) as (ls & H1 & H2).
      destruct (Forall2_nth_l _ _ _ _ _ Hr Hg) as (r' & Hr' & Hat').
      rewrite (row_at_fun g e r r') in Hd; auto; [|rewrite Forall_forall in Hw; apply Hw; eapply nth_error_In; eauto].
      eapply (vals_linked phi e gms 0); eauto.
    Qed.

    Lemma merge_spec (Vs : list (list A)) : Forall2 (fun g V => length V = num_dofs g) gms Vs ->
      exists V, merge zero gms cgm Vs = Some V /\ length V = M /\ merged gms cgm Vs V.
    Proof.
      intros HV. destruct m_chained as (phi & C1 & C2 & C3). destruct (linked_exists phi Vs C2 C3 HV) as (V & HlV & HL).
      exists V. split; [|split; auto; eapply linked_merged; eauto].
      unfold merge.
      assert ((length Vs =? length gms) && forallb (fun gV => length (snd gV) =? num_dofs (fst gV)) (combine gms Vs) = true) as ->.
      { apply andb_true_iff. split; [apply Nat.eqb_eq; symmetry; eapply Forall2_len; eauto|]. clear - HV. induction HV; simpl; auto. rewrite IHHV, andb_true_r. now apply Nat.eqb_eq. }
      set (f := fun kc : nat * rgm => match by_rank (fst kc) gms with Some gs => merge_rank gs (snd kc) Vs | None => None end).
      assert (forall k cg, nth_error cgm k = Some cg -> exists dr, f (k, cg) = Some dr /\ shared_rank V cg dr) as Hf.
      { intros k cg Hk. destruct (m_ranks k cg Hk) as (gs & Hb & _). unfold f. simpl. rewrite Hb.
        destruct (merge_rank_spec k cg gs Vs Hk Hb HV) as (dr & E & Hd). exists dr. split; auto.
        intros e nums Hin. destruct (Hd e) as (rows & ls & H1 & H2 & H3); [apply (in_map fst) in Hin; auto|].
        exists (concat ls). split; auto.
        assert (row_at cgm e nums) as Hat by (exists cg; split; auto; eapply nth_error_In; eauto).
        destruct (C1 e nums Hat) as (rows' & Hr' & ->). rewrite (rows_fun gms e rows' rows Hw Hr' H1).
        eapply linked_vals; eauto. symmetry. eapply Forall2_len; eauto. }
      assert (forall l k0, (forall k cg, nth_error l k = Some cg -> exists dr, f (k0 + k, cg) = Some dr /\ shared_rank V cg dr) ->
        exists data, obind (combine (seq k0 (length l)) l) f = Some data /\ Forall2 (shared_rank V) l data) as HH.
      { clear. induction l as [|cg l IH]; intros k0 H; simpl; [exists []; split; auto|].
        destruct (H 0 cg eq_refl) as (dr & E & Hd). rewrite Nat.add_0_r in E. rewrite E.
        destruct (IH (S k0)) as (data & E2 & H2). { intros k c Hk. destruct (H (S k) c Hk) as (dr' & H3 & H4). rewrite Nat.add_succ_r in H3. eauto. }
        rewrite E2. exists (dr :: data). split; auto. }
      destruct (HH cgm 0 Hf) as (data & E & Hdata). rewrite E. apply assemble_spec; auto. rewrite HlV. apply m_exactly.
    Qed.

    Lemma merged_inj_l (Vs Vs' : list (list A)) V : Forall2 (fun g V => length V = num_dofs g) gms Vs -> Forall2 (fun g V => length V = num_dofs g) gms Vs' ->
      merged gms cgm Vs V -> merged gms cgm Vs' V -> Vs = Vs'.
    Proof.
      intros H1 H2 M1 M2. destruct m_chained as (phi & C1 & C2 & C3).
      apply (merged_linked phi) in M1; [|auto|symmetry; eapply Forall2_len; eauto]. apply (merged_linked phi) in M2; [|auto|symmetry; eapply Forall2_len; eauto].
      apply nth_error_ext_len; [apply Forall2_len in H1; apply Forall2_len in H2; congruence|]. intros i Hi.
      destruct (nth_error Vs i) as [Vi|] eqn:E1; [|apply nth_error_None in E1; lia].
      destruct (Forall2_nth_r _ _ _ _ _ H1 E1) as (g & Hg & L1). destruct (Forall2_nth_l _ _ _ _ _ H2 Hg) as (Vi' & E2 & L2).
      rewrite E2. f_equal. apply nth_error_ext_len; [congruence|]. intros d Hd.
      assert (used g d) as Hu. { rewrite Forall_forall in Hex. apply (Hex g); [eapply nth_error_In; eauto|lia]. }
      destruct (M1 i g Vi d Hg E1 Hu) as (v & A1 & A2), (M2 i g Vi' d Hg E2 Hu) as (v' & B1 & B2). congruence.
    Qed.
    Lemma merged_inj_r (Vs : list (list A)) V V' : length Vs = length gms -> length V = M -> length V' = M ->
      merged gms cgm Vs V -> merged gms cgm Vs V' -> V = V'.
    Proof.
      intros H1 H2 H3 M1 M2. destruct m_chained as (phi & C1 & C2 & C3).
      apply (merged_linked phi) in M1; auto. apply (merged_linked phi) in M2; auto.
      apply nth_error_ext_len; [congruence|]. intros k Hk. rewrite H2 in Hk. apply C3 in Hk as (i & g & d & Hg & Hd & <-).
      destruct (nth_error Vs i) as [Vi|] eqn:E1; [|exfalso; apply nth_error_None in E1; assert (i < length gms) by (apply nth_error_Some; congruence); lia].
      destruct (M1 i g Vi d Hg E1 Hd) as (v & A1 & A2), (M2 i g Vi d Hg E1 Hd) as (v' & B1 & B2). simpl in *. congruence.
    Qed.

    (** split *)
    Lemma cut_spec (ls : list (list A)) : cut (map (@length A) ls) (concat ls) = Some ls.
    Proof.
      induction ls as [|l ls IH]; simpl; auto. destruct (Nat.leb_spec (length l) (length (l ++ concat ls))) as [_|H]; [|rewrite app_length in H; lia].
      rewrite firstn_app, firstn_all, Nat.sub_diag, firstn_O, app_nil_r, skipn_app, skipn_all, Nat.sub_diag, skipn_O. simpl. now rewrite IH.
    Qed.
    Lemma add_parts_len e (ps : list (list A)) : forall xs, length (add_parts e ps xs) = length xs.
    Proof. induction ps as [|p ps IH]; intros [|x xs]; simpl; auto. Qed.
    Lemma add_parts_nth e (ps : list (list A)) : forall xs j x, length ps = length xs -> nth_error (add_parts e ps xs) j = Some x ->
      exists x0 p, nth_error xs j = Some x0 /\ nth_error ps j = Some p /\ x = nput x0 e p.
    Proof.
      induction ps as [|p ps IH]; intros [|x0 xs] j x Hl H; try discriminate; simpl in *; [destruct j; discriminate|].
      destruct j as [|j]; simpl in *; [injection H as <-; eauto|]. eapply IH; eauto.
    Qed.
    Definition parts_of (gs : list rgm) (data : dict nat (list A)) (e : nat) : option (list (list A)) :=
      match nget data e, obind gs (fun g => option_map (@length nat) (nget g e)) with
      | Some vs, Some ns => cut ns vs
      | _, _ => None
      end.
    Lemma split_fold gs (data : dict nat (list A)) n es : forall xs, length xs = n ->
      (forall e, In e es -> exists ps, parts_of gs data e = Some ps /\ length ps = n) ->
      exists xs', fold_left (fun acc e => match acc, nget data e, obind gs (fun g => option_map (@length nat) (nget g e)) with
                            | Some xs, Some vs, Some ns => option_map (fun parts => add_parts e parts xs) (cut ns vs)
                            | _, _, _ => None
                            end) es (Some xs) = Some xs' /\ length xs' = n /\
        forall j x', nth_error xs' j = Some x' -> forall e,
          (In e es -> exists ps, parts_of gs data e = Some ps /\ nget x' e = nth_error ps j) /\
          (~ In e es -> exists x, nth_error xs j = Some x /\ nget x' e = nget x e).
    Proof.
      induction es as [|e es IH]; intros xs Hl H; cbn [fold_left].
      - exists xs. split; auto. split; auto. intros j x' Hj e. split; [intros []|eauto].
      - destruct (H e) as (ps & Ep & Hp); [simpl; auto|]. pose proof Ep as Ep'. unfold parts_of in Ep'.
        destruct (nget data e) as [vs|]; [|discriminate]. destruct (obind gs _) as [ns|]; [|discriminate]. rewrite Ep'. cbn [option_map].
        destruct (IH (add_parts e ps xs)) as (xs' & E & L & HX); [now rewrite add_parts_len|intros; apply H; simpl; auto|].
        exists xs'. split; auto. split; auto. intros j x' Hj e'. destruct (HX j x' Hj e') as [HX1 HX2]. split.
        + intros Hin. destruct (in_dec Nat.eq_dec e' es) as [Hi|Hi]; [auto|]. destruct Hin as [->|Hin]; [|tauto].
          destruct (HX2 Hi) as (x & Hx & Eg). apply add_parts_nth in Hx as (x0 & p & Hx0 & Hpj & ->); [|congruence].
          exists ps. split; auto. rewrite Eg, (get_put _ Nat_eqb_spec), Nat.eqb_refl. auto.
        + intros Hn. simpl in Hn. destruct (HX2 ltac:(tauto)) as (x & Hx & Eg).
          apply add_parts_nth in Hx as (x0 & p & Hx0 & Hpj & ->); [|congruence]. exists x0. split; auto.
          rewrite Eg, (get_put _ Nat_eqb_spec). destruct (Nat.eqb_spec e' e); auto. subst. tauto.
    Qed.

    Lemma vals_cut (V : list A) rowss : forall vs, vals V (concat rowss) vs -> exists ls, vs = concat ls /\ Forall2 (vals V) rowss ls.
    Proof.
      induction rowss as [|r rowss IH]; intros vs H; simpl in H.
      - inversion H; subst. exists []. split; auto.
      - apply Forall2_app_inv_l in H as (v1 & v2 & H1 & H2 & ->). destruct (IH _ H2) as (ls & -> & Hls). exists (v1 :: ls). split; auto.
    Qed.

    Definition vsub (phi : nat -> nat -> nat) (k : nat) (rows : list (list nat)) : list (list nat) :=
      map (fun ir => map (phi (fst ir)) (snd ir)) (combine (seq k (length rows)) rows).
    Lemma vsub_nth phi rows : forall k i r, nth_error rows i = Some r -> nth_error (vsub phi k rows) i = Some (map (phi (k + i)) r).
    Proof.
      induction rows as [|a rows IH]; intros k [|i] r; simpl; try discriminate.
      - intros [= ->]. now rewrite Nat.add_0_r.
      - intros H. rewrite Nat.add_succ_r. apply (IH (S k)). auto.
    Qed.
    Lemma vsub_len phi rows : forall k, map (@length nat) (vsub phi k rows) = map (@length nat) rows.
    Proof. induction rows as [|a rows IH]; intros k; simpl; auto. rewrite map_length. f_equal. apply (IH (S k)). Qed.

    Lemma split_rank_spec phi V k cg gs data : (forall e row, row_at cgm e row -> exists rows, Forall2 (fun g r => row_at g e r) gms rows /\
         row = concat (map (fun ir => map (phi (fst ir)) (snd ir)) (combine (seq 0 (length gms)) rows))) ->
      nth_error cgm k = Some cg -> by_rank k gms = Some gs -> shared_rank V cg data ->
      exists xs, split_rank gs cg data = Some xs /\ length xs = length gms /\
        forall j x e, nth_error xs j = Some x -> In e (keys cg) -> exists g r l, nth_error gms j = Some g /\ row_at g e r /\
          nget x e = Some l /\ vals V (map (phi j) r) l.
    Proof.
      intros C1 Hk Hb Hd.
      assert (forall e, In e (keys cg) -> exists rows ls, Forall2 (fun g r => row_at g e r) gms rows /\
        parts_of gs data e = Some ls /\ Forall2 (vals V) (vsub phi 0 rows) ls) as Hp.
      { intros e He. pose proof He as Hin. apply (get_keys _ Nat_eqb_spec) in Hin as [row Erow].
        assert (In (e, row) cg) as Hin by now apply (get_in _ Nat_eqb_spec).
        destruct (Hd e row Hin) as (dt & Edt & Hv).
        assert (row_at cgm e row) as Hat by (exists cg; split; auto; eapply nth_error_In; eauto).
        destruct (C1 e row Hat) as (rows & Hrows & ->). exists rows.
        assert (length gms = length rows) as El by (eapply Forall2_len; eauto). rewrite El in Hv.
        destruct (vals_cut V (vsub phi 0 rows) dt Hv) as (ls & -> & Hls). exists ls. split; auto. split; auto.
        unfold parts_of. rewrite Edt. destruct (m_rows k cg gs e Hk Hb He) as (rows' & Er & HR).
        rewrite (rows_fun gms e rows' rows Hw HR Hrows) in *. 
        assert (obind gs (fun g => option_map (@length nat) (nget g e)) = Some (map (@length A) ls)) as ->; [|apply cut_spec].
        assert (map (@length A) ls = map (@length nat) rows) as ->.
        { rewrite <- (vsub_len phi rows 0). clear - Hls. induction Hls; simpl; auto. f_equal; auto. symmetry. eapply Forall2_len; eauto. }
        clear - Er. revert rows Er. induction gs as [|g l IH]; simpl; intros rows Er; [injection Er as <-; auto|].
        destruct (nget g e); [|discriminate]. destruct (obind l (fun r => nget r e)) as [rs|]; [|discriminate]. injection Er as <-. simpl. now rewrite (IH rs). }
      assert (length gs = length gms) as Elg. { unfold by_rank in Hb. apply obind_forall2 in Hb. symmetry. eapply Forall2_len; eauto. }
      destruct (split_fold gs data (length gs) (keys cg) (map (fun _ => []) gs)) as (xs & E & L & HX).
      - apply map_length.
      - intros e He. destruct (Hp e He) as (rows & ls & H1 & H2 & H3). exists ls. split; auto. apply Forall2_len in H3. apply Forall2_len in H1.
        unfold vsub in H3. rewrite map_length, combine_length, seq_length in H3. lia.
      - exists xs. split; [exact E|]. split; [congruence|]. intros j x e Hj He. destruct (HX j x Hj e) as [HX1 _].
        destruct (HX1 He) as (ps & Eps & Eg). destruct (Hp e He) as (rows & ls & H1 & H2 & H3). rewrite H2 in Eps. injection Eps as <-.
        assert (j < length gms) as Hlt by (rewrite <- Elg, <- L; apply nth_error_Some; congruence).
        destruct (nth_error gms j) as [g|] eqn:Eg'; [|apply nth_error_None in Eg'; lia].
        destruct (Forall2_nth_l _ _ _ _ _ H1 Eg') as (r & Hr & Hat).
        destruct (Forall2_nth_l _ _ _ _ _ H3 (vsub_nth phi rows 0 j r Hr)) as (l & Hl & Hv). exists g, r, l. rewrite Eg. auto.
    Qed.

    Lemma obind_len {X Y} (f : X -> option Y) l s : obind l f = Some s -> length s = length l.
    Proof. intros H. apply obind_forall2 in H. symmetry. eapply Forall2_len; eauto. Qed.
    Lemma obind_index {X Y} (f : nat * X -> option Y) l : forall k s i x, obind (combine (seq k (length l)) l) f = Some s -> nth_error l i = Some x ->
      exists y, nth_error s i = Some y /\ f (k + i, x) = Some y.
    Proof.
      induction l as [|a l IH]; intros k s i x; simpl; [intros _ H; destruct i; discriminate|].
      destruct (f (k, a)) as [b|] eqn:E; [|discriminate]. destruct (obind _ _) as [t|] eqn:Et; [|discriminate]. intros [= <-].
      destruct i as [|i]; simpl.
      - intros [= <-]. exists b. now rewrite Nat.add_0_r.
      - intros Hx. destruct (IH (S k) t i x Et Hx) as (y & H1 & H2). exists y. rewrite Nat.add_succ_r. auto.
    Qed.
    Lemma obind_index_ok {X Y} (f : nat * X -> option Y) l : forall k, (forall i x, nth_error l i = Some x -> exists y, f (k + i, x) = Some y) ->
      exists s, obind (combine (seq k (length l)) l) f = Some s.
    Proof.
      induction l as [|a l IH]; intros k H; simpl; [eauto|]. destruct (H 0 a eq_refl) as [y E]. rewrite Nat.add_0_r in E. rewrite E.
      destruct (IH (S k)) as [s Es]; [|rewrite Es; eauto]. intros i x Hx. destruct (H (S i) x Hx) as [z Hz]. rewrite Nat.add_succ_r in Hz. eauto.
    Qed.

    Lemma unmerge_spec V : length V = M ->
      exists Vs, unmerge zero gms cgm V = Some Vs /\ Forall2 (fun g V => length V = num_dofs g) gms Vs /\ merged gms cgm Vs V.
    Proof.
      intros HlV. destruct m_chained as (phi & C1 & C2 & C3). unfold unmerge.
      destruct (share_ranks_spec cgm V m_wf) as (data & Ed & Hd); [rewrite HlV; apply m_exactly|]. rewrite Ed.
      unfold split. set (f := fun kcd : nat * (rgm * dict nat (list A)) => _).
      assert (length (combine cgm data) = length cgm) as Elc. { rewrite combine_length. apply Forall2_len in Hd. lia. }
      assert (forall k cd, nth_error (combine cgm data) k = Some cd -> exists xs, f (k, cd) = Some xs /\ length xs = length gms /\
        forall j x e, nth_error xs j = Some x -> In e (keys (fst cd)) -> exists g r l, nth_error gms j = Some g /\ row_at g e r /\ nget x e = Some l /\ vals V (map (phi j) r) l) as Hf.
      { intros k [cg dr] Hk.
        assert (nth_error cgm k = Some cg /\ shared_rank V cg dr) as [Hcg Hdr].
        { clear - Hd Hk. revert k Hk. induction Hd; intros [|k]; simpl; try discriminate; auto. intros [= <- <-]. auto. }
        destruct (m_ranks k cg Hcg) as (gs & Hb & _). unfold f. simpl. rewrite Hb.
        apply (split_rank_spec phi V k cg gs dr C1 Hcg Hb Hdr). }
      rewrite <- Elc. destruct (obind_index_ok f (combine cgm data) 0) as [parts Ep]; [intros i x Hx; destruct (Hf i x Hx) as (xs & E & _); eauto|].
      rewrite Ep. clear Elc.
      assert (exists Vs, Forall2 (fun g V => length V = num_dofs g) gms Vs /\ linked phi 0 gms Vs V) as (Vs & HVs & HL).
      { destruct (list_choice (fun i Vi => forall g, nth_error gms i = Some g -> length Vi = num_dofs g /\
            forall d, used g d -> nth_error Vi d = nth_error V (phi i d)) (length gms)) as (Vs & Hl & HP).
        - intros i Hi. destruct (nth_error gms i) as [g|] eqn:Eg; [|apply nth_error_None in Eg; lia].
          assert (exactly g (num_dofs g)) as Hg by (rewrite Forall_forall in Hex; apply Hex; eapply nth_error_In; eauto).
          destruct (list_choice (fun d v => nth_error V (phi i d) = Some v) (num_dofs g)) as (Vi & HlVi & HVi).
          + intros d Hd'. apply Hg in Hd'. assert (phi i d < M) as Hlt by (apply C3; eauto 8).
            destruct (nth_error V (phi i d)) eqn:En; eauto. apply nth_error_None in En. lia.
          + exists Vi. intros g' [= <-]. split; auto. intros d Hu. apply Hg in Hu.
            destruct (nth_error Vi d) as [v|] eqn:Ev; [|apply nth_error_None in Ev; lia]. symmetry. now apply HVi.
        - exists Vs. split.
          + apply nth_Forall2; auto. intros i g Vi Hg HVi. now apply (HP i Vi HVi).
          + intros i g Vi d Hg HVi Hu. destruct (HP i Vi HVi g Hg) as [H1 H2]. simpl.
            assert (d < length Vi) as Hlt. { rewrite H1. rewrite Forall_forall in Hex. apply (Hex g); auto. eapply nth_error_In; eauto. }
            destruct (nth_error Vi d) as [v|] eqn:Ev; [|apply nth_error_None in Ev; lia]. exists v. split; auto. rewrite <- H2; auto. }
      exists Vs. split; [|split; auto; eapply linked_merged; eauto].
      set (h := fun ig : nat * dgm => _).
      assert (forall i g Vi, nth_error gms i = Some g -> nth_error Vs i = Some Vi -> h (i, g) = Some Vi) as Hh.
      { intros i g Vi Hg HVi. unfold h. simpl.
        assert (i < length gms) as Hlt by (apply nth_error_Some; congruence).
        assert (exists d, obind parts (fun xs => nth_error xs i) = Some d) as [d Edd].
        { apply obind_ok. intros xs Hxs. apply In_nth_error in Hxs as [k Hxs].
          assert (k < length (combine cgm data)) as Hk. { apply obind_len in Ep. rewrite combine_length, seq_length, Nat.min_id in Ep. rewrite <- Ep. apply nth_error_Some. congruence. }
          destruct (nth_error (combine cgm data) k) as [cd|] eqn:Ecd; [|apply nth_error_None in Ecd; lia].
          destruct (obind_index f _ 0 _ k cd Ep Ecd) as (ys & Hys & Efy). destruct (Hf k cd Ecd) as (xs' & E' & L' & _). simpl in Efy.
          rewrite Hxs in Hys. injection Hys as <-. rewrite E' in Efy. injection Efy as <-.
          destruct (nth_error xs' i) eqn:E; eauto. apply nth_error_None in E. lia. }
        rewrite Edd. apply assemble_spec.
        - apply nth_Forall2.
          + apply obind_len in Edd. apply obind_len in Ep. rewrite combine_length, seq_length, Nat.min_id in Ep.
            rewrite Edd, Ep, combine_length. apply Forall2_len in Hd. rewrite <- Hd, Nat.min_id.
            assert (agree g cgm) as Hag by (apply m_agree; eapply nth_error_In; eauto). eapply Forall2_len; eauto.
          + intros k r x Hr Hx e nums Hin.
            assert (agree g cgm) as Hag by (apply m_agree; eapply nth_error_In; eauto).
            destruct (Forall2_nth_l _ _ _ _ _ Hag Hr) as (cg & Hcg & Hkeys).
            destruct (Forall2_nth_l _ _ _ _ _ Hd Hcg) as (dr & Hdr & Hsh).
            assert (nth_error (combine cgm data) k = Some (cg, dr)) as Ecd.
            { clear - Hcg Hdr. revert data k Hcg Hdr. induction cgm as [|c l IH]; intros [|d data] [|k]; simpl; try discriminate; [congruence|apply IH]. }
            destruct (Hf k _ Ecd) as (xs & Exs & Lxs & Hxs). destruct (obind_index f _ 0 _ k _ Ep Ecd) as (ys & Hys & Efy). simpl in Efy. rewrite Exs in Efy. injection Efy as <-.
            assert (nth_error xs i = Some x) as Hxi.
            { apply obind_forall2 in Edd. destruct (Forall2_nth_l _ _ _ _ _ Edd Hys) as (x' & Hx' & E'). congruence. }
            destruct (Hxs i x e Hxi) as (g' & r' & l & Hg' & Hat & El & Hv).
            { simpl. apply Hkeys. apply (in_map fst) in Hin. auto. }
            rewrite Hg in Hg'. injection Hg' as <-. exists l. split; auto.
            assert (row_at g e nums) as Hat' by (exists r; split; auto; eapply nth_error_In; eauto).
            rewrite (row_at_fun g e r' nums) in Hv; auto; [|rewrite Forall_forall in Hw; apply Hw; eapply nth_error_In; eauto].
            apply (vals_transfer V Vi (phi i) nums l Hv). intros d' Hd'. apply (HL i g Vi d' Hg HVi). exists e, nums. auto.
        - destruct (Forall2_nth_l _ _ _ _ _ HVs Hg) as (Vi' & H1 & H2). rewrite HVi in H1. injection H1 as <-. rewrite H2.
          rewrite Forall_forall in Hex. apply Hex. eapply nth_error_In; eauto. }
      assert (forall l (Ws : list (list A)) k, length l = length Ws -> (forall i g Vi, nth_error l i = Some g -> nth_error Ws i = Some Vi -> h (k + i, g) = Some Vi) ->
        obind (combine (seq k (length l)) l) h = Some Ws) as HH.
      { clear. induction l as [|g l IH]; intros [|W Ws] k Hl H; try discriminate; auto. simpl.
        pose proof (H 0 g W eq_refl eq_refl) as E. rewrite Nat.add_0_r in E. rewrite E. rewrite (IH Ws (S k)); [auto|simpl in Hl; lia|].
        intros i g' V' H1 H2. specialize (H (S i) g' V' H1 H2). rewrite Nat.add_succ_r in H. auto. }
      apply (HH gms Vs 0); auto. eapply Forall2_len; eauto.
    Qed.

    Lemma merge_unmerge V : length V = M -> exists Vs, unmerge zero gms cgm V = Some Vs /\ merge zero gms cgm Vs = Some V.
    Proof.
      intros Hl. destruct (unmerge_spec V Hl) as (Vs & E & H1 & H2). exists Vs. split; auto.
      destruct (merge_spec Vs H1) as (V' & E' & H3 & H4). rewrite E'. f_equal. eapply (merged_inj_r Vs); eauto. symmetry. eapply Forall2_len; eauto.
    Qed.
    Lemma unmerge_merge Vs : Forall2 (fun g V => length V = num_dofs g) gms Vs -> exists V, merge zero gms cgm Vs = Some V /\ unmerge zero gms cgm V = Some Vs.
    Proof.
      intros HV. destruct (merge_spec Vs HV) as (V & E & H3 & H4). exists V. split; auto.
      destruct (unmerge_spec V H3) as (Vs' & E' & H1 & H2). rewrite E'. f_equal. eapply merged_inj_l; eauto.
    Qed.
  End Merge.
End Data.
