(** Proofs about the caches of the arrays of terms with three forms. *)
From Coq Require Import List Arith Bool Reals Lia Lra.
From Verif Require Import NlModel NlSpec TermModel TermSpec.
Import ListNotations.

Lemma olist_eqb_eq a b : olist_eqb a b = true <-> a = b.
Proof.
  destruct a as [a|], b as [b|]; cbn; split; intros H; try discriminate; try reflexivity.
  - destruct (list_eq_dec Nat.eq_dec a b); congruence.
  - injection H as ->. destruct (list_eq_dec Nat.eq_dec b b); congruence.
Qed.
Lemma ekey_eqb_eq a b : ekey_eqb a b = true <-> a = b.
Proof.
  destruct a as [s|s ro ri], b as [t|t ro' ri']; cbn; split; intros H; try discriminate.
  - apply Nat.eqb_eq in H. congruence.
  - injection H as ->. apply Nat.eqb_refl.
  - apply andb_true_iff in H. destruct H as (H & H3). apply andb_true_iff in H. destruct H as (H1 & H2).
    apply Nat.eqb_eq in H1. apply olist_eqb_eq in H2, H3. congruence.
  - injection H as -> -> ->. rewrite Nat.eqb_refl. rewrite !(proj2 (olist_eqb_eq _ _) eq_refl). reflexivity.
Qed.
Lemma find_key_In {K V} (eqb : K -> K -> bool) k (c : list (K * V)) v :
  (forall a b, eqb a b = true -> a = b) -> find_key eqb k c = Some v -> In (k, v) c.
Proof.
  intros He. induction c as [|[k' v'] c IH]; cbn; [discriminate|].
  destruct (eqb k k') eqn:E.
  - intros H. injection H as <-. apply He in E. subst. auto.
  - intros H. right. apply IH. exact H.
Qed.

(** ** the dictionary of a call *)

Section one_call.
  Variables (o : op) (m nq : nat) (qw : nat -> R).
  Let good_cache (all : list (nat * elem)) (c : list (ekey * nd)) : Prop :=
    forall k T, In (k, T) c -> exists i e, In (i, e) all /\ key_of o e = Some (Some k) /\ element_data o m nq qw e = Some T.

  Lemma pass_transparent_from all :
    (forall i e j e' k, In (i, e) all -> In (j, e') all -> key_of o e = Some (Some k) -> key_of o e' = Some (Some k) ->
       element_data o m nq qw e = element_data o m nq qw e') ->
    forall es c, incl es all -> good_cache all c ->
    (forall i e, In (i, e) es -> key_of o e <> None /\ element_data o m nq qw e <> None) ->
    exists L, pass o m nq qw es c = Some L /\
      Forall2 (fun x y => fst x = fst y /\ element_data o m nq qw (snd x) = Some (snd y)) es L.
  Proof.
    intros Hk. induction es as [|[i e] es IH]; intros c Hin Hc Hd; [exists []; split; [reflexivity|constructor]|].
    cbn [pass]. destruct (Hd i e (or_introl eq_refl)) as (D1 & D2).
    destruct (key_of o e) as [k|] eqn:Ek; [|congruence]. clear D1.
    destruct (element_data o m nq qw e) as [T|] eqn:ET; [|congruence]. clear D2.
    assert (Hin' : incl es all) by (intros x Hx; apply Hin; right; exact Hx).
    assert (Hd' : forall i e, In (i, e) es -> key_of o e <> None /\ element_data o m nq qw e <> None)
      by (intros; apply (Hd i0 e0); right; assumption).
    destruct (match k with Some k => find_key ekey_eqb k c | None => None end) as [T'|] eqn:EF.
    - destruct k as [k|]; [|discriminate EF].
      apply find_key_In in EF; [|intros a b; apply ekey_eqb_eq].
      destruct (Hc _ _ EF) as (j & e' & Hj & Hk' & HT').
      assert (T = T').
      { assert (Some T = Some T') by (rewrite <- ET, <- HT'; apply (Hk i e j e' k); auto; apply Hin; left; reflexivity). congruence. }
      subst T'. destruct (IH c Hin' Hc Hd') as (L & HL & HF).
      exists ((i, T) :: L). rewrite HL. split; [reflexivity|]. constructor; [split; [reflexivity|exact ET]|exact HF].
    - assert (Hc' : good_cache all (match k with Some k => (k, T) :: c | None => c end)).
      { destruct k as [k|]; [|exact Hc]. intros k' T' [E|H']; [|apply Hc; exact H'].
        injection E as <- <-. exists i, e. split; [apply Hin; left; reflexivity|]. auto. }
      destruct (IH _ Hin' Hc' Hd') as (L & HL & HF).
      exists ((i, T) :: L). rewrite HL. split; [reflexivity|]. constructor; [split; [reflexivity|exact ET]|exact HF].
  Qed.
  Theorem pass_transparent es :
    (forall i e j e' k, In (i, e) es -> In (j, e') es -> key_of o e = Some (Some k) -> key_of o e' = Some (Some k) ->
       element_data o m nq qw e = element_data o m nq qw e') ->
    (forall i e, In (i, e) es -> key_of o e <> None /\ supported o m (arity o e)) ->
    (forall i e, In (i, e) es -> supported o m (arity o e) -> element_data o m nq qw e <> None) ->
    exists L, pass o m nq qw es [] = Some L /\
      Forall2 (fun x y => fst x = fst y /\ element_data o m nq qw (snd x) = Some (snd y)) es L.
  Proof.
    intros Hk Hd Hs. apply (pass_transparent_from es Hk es []).
    - intros x H; exact H.
    - intros k T [].
    - intros i e H. destruct (Hd i e H) as (D1 & D2). split; [exact D1|apply (Hs i e H D2)].
  Qed.
End one_call.

(** ** the dictionaries of the program *)

Section program.
  Context {D : Type} (truth : op -> nat -> list (nat * deg) -> D).

  Lemma deg_eqb_eq a b : deg_eqb a b = true -> a = b.
  Proof.
    destruct a as [p|l], b as [q|k]; cbn; intros H; try discriminate.
    - apply Nat.eqb_eq in H. congruence.
    - destruct (list_eq_dec Nat.eq_dec l k); congruence.
  Qed.
  Lemma gkey_eqb_eq a : forall b, gkey_eqb a b = true -> a = b.
  Proof.
    induction a as [|[x d] a IH]; intros [|[y d'] b]; cbn; intros H; try discriminate; [reflexivity|].
    apply andb_true_iff in H. destruct H as (H & H3). apply andb_true_iff in H. destruct H as (H1 & H2).
    apply Nat.eqb_eq in H1. apply deg_eqb_eq in H2. apply IH in H3. congruence.
  Qed.
  Lemma existsb_In x l : existsb (Nat.eqb x) l = true <-> In x l.
  Proof.
    rewrite existsb_exists. split; [intros (y & H & E); apply Nat.eqb_eq in E; congruence|].
    intros H. exists x. rewrite Nat.eqb_refl. auto.
  Qed.
  Lemma nodupb_NoDup l : nodupb l = true -> NoDup l.
  Proof.
    induction l as [|x l IH]; cbn; intros H; constructor; apply andb_true_iff in H; destruct H as (H1 & H2); [|apply IH; exact H2].
    intros Hin. apply existsb_In in Hin. rewrite Hin in H1. discriminate.
  Qed.
  Lemma addresses_inj al : NoDup al -> forall ss ss' k, addresses al ss = Some k -> addresses al ss' = Some k -> ss = ss'.
  Proof.
    intros Hnd. induction ss as [|[s d] ss IH]; intros [|[s' d'] ss'] k; cbn; intros H H'.
    - reflexivity.
    - injection H as <-. unfold address in H'. cbn in H'. destruct (nth_error al s'); [|discriminate]. destruct (addresses al ss'); discriminate.
    - injection H' as <-. unfold address in H. cbn in H. destruct (nth_error al s); [|discriminate]. destruct (addresses al ss); discriminate.
    - unfold address in H, H'. cbn [fst snd] in H, H'.
      destruct (nth_error al s) as [x|] eqn:E; [|discriminate]. destruct (addresses al ss) as [l|] eqn:El; [|discriminate].
      destruct (nth_error al s') as [x'|] eqn:E'; [|discriminate]. destruct (addresses al ss') as [l'|] eqn:El'; [|discriminate].
      injection H as <-. injection H' as E1 E2 E3. subst.
      f_equal; [f_equal|apply (IH ss' l); auto].
      apply (proj1 (NoDup_nth_error al) Hnd); [apply nth_error_Some; congruence|congruence].
  Qed.
  Lemma addresses_in al : forall ss k x d, addresses al ss = Some k -> In (x, d) k -> In x al.
  Proof.
    induction ss as [|[s d'] ss IH]; cbn; intros k x d H Hin; [injection H as <-; destruct Hin|].
    unfold address in H. cbn in H. destruct (nth_error al s) as [y|] eqn:E; [|discriminate].
    destruct (addresses al ss) as [l|] eqn:El; [|discriminate]. injection H as <-.
    destruct Hin as [Heq|Hin]; [injection Heq as <- _; apply nth_error_In in E; exact E|apply (IH l x d); auto].
  Qed.
  Lemma addresses_length al : forall ss k, addresses al ss = Some k -> length k = length ss.
  Proof.
    induction ss as [|s ss IH]; cbn; intros k H; [injection H as <-; reflexivity|].
    destruct (address al s); [|discriminate]. destruct (addresses al ss) eqn:E; [|discriminate]. injection H as <-. cbn. rewrite (IH _ eq_refl). reflexivity.
  Qed.
  Lemma op_eqb_eq a b : op_eqb a b = true <-> a = b.
  Proof. destruct a, b; cbn; split; congruence. Qed.

  Notation ok := (fun x : op * nat * list (nat * deg) * D => let '(o, g, ss, T) := x in T = truth o g ss).

  (** what holds of a program at all times *)
  Definition fine (p : prog D) : Prop :=
    (match current p with Some g => g <= gen p | None => True end) /\
    (forall al l, addrs p = al :: l -> NoDup al) /\
    (forall o k T, cleaned o = true -> In (k, T) (dict p o) -> current p <> None) /\
    (current p = Some (gen p) -> forall o k T, cleaned o = true -> In (k, T) (dict p o) ->
       exists al l ss, addrs p = al :: l /\ addresses al ss = Some k /\ T = truth o (gen p) ss).
  Lemma fine_renew al p p' : fine p -> renew al p = Some p' -> fine p'.
  Proof.
    intros (H1 & H2 & H3 & H4). unfold renew. destruct (nodupb al && forallb (disjoint al) (addrs p)) eqn:E; [|discriminate].
    intros H. injection H as <-. apply andb_true_iff in E. destruct E as (E & _). repeat split; cbn.
    - destruct (current p); [lia|exact I].
    - intros al' l Hl. injection Hl as <- _. apply nodupb_NoDup. exact E.
    - exact H3.
    - intros Hc. rewrite Hc in H1. lia.
  Qed.
  Lemma current_base_current (p : prog D) : current (current_base p) = Some (gen p) /\ gen (current_base p) = gen p /\ addrs (current_base p) = addrs p.
  Proof.
    unfold current_base. destruct (current p) as [g|] eqn:E; [|cbn; auto].
    destruct (g =? gen p)%nat eqn:Eg; cbn; auto. apply Nat.eqb_eq in Eg. subst. auto.
  Qed.
  Lemma fine_current p : fine p -> fine (current_base p).
  Proof.
    intros (H1 & H2 & H3 & H4). unfold current_base.
    destruct (current p) as [g|] eqn:E; [destruct (g =? gen p)%nat eqn:Eg|].
    - repeat split; rewrite ?E; auto.
    - repeat split; cbn; auto; try discriminate. intros _ o k T Hc Hin. rewrite Hc in Hin. destruct Hin.
    - repeat split; cbn; auto; try discriminate. intros _ o k T Hc Hin. rewrite Hc in Hin. destruct Hin.
  Qed.
  Lemma fine_make o ss p T p' : fine p -> make_data truth o ss p = Some (T, p') ->
    fine p' /\ (cleaned o = true -> T = truth o (gen p) ss).
  Proof.
    intros Hp H. pose proof (fine_current p Hp) as Hq. destruct (current_base_current p) as (C1 & C2 & C3).
    unfold make_data in H. set (q := current_base p) in *.
    destruct (addrs q) as [|al l] eqn:Ea; [discriminate|]. destruct (addresses al ss) as [k|] eqn:Ek; [|discriminate].
    destruct Hq as (Q1 & Q2 & Q3 & Q4).
    assert (Hnd : NoDup al) by (apply (Q2 al l); exact Ea).
    destruct (find_key gkey_eqb k (dict q o)) as [T0|] eqn:EF.
    - injection H as <- <-. split.
      + split; [exact Q1|]. split; [rewrite Ea; intros al' l' El; injection El as <- _; exact Hnd|]. split; [exact Q3|exact Q4].
      + intros Hc. apply find_key_In in EF; [|intros a b; apply gkey_eqb_eq].
        destruct (Q4 ltac:(congruence) o k T0 Hc EF) as (al' & l' & ss' & E1 & E2 & E3).
        rewrite Ea in E1. injection E1 as <- <-. rewrite (addresses_inj al Hnd ss ss' k Ek E2). congruence.
    - injection H as <- <-. split; [|intros _; congruence]. repeat split; cbn.
      + exact Q1.
      + intros al' l' El. injection El as <- _. exact Hnd.
      + intros o' k' T' Hc Hin. congruence.
      + intros Hcur o' k' T' Hc Hin. unfold set_dict in Hin. destruct (op_eqb o' o) eqn:Eo.
        * apply op_eqb_eq in Eo. subst o'. destruct Hin as [Heq|Hin].
          -- injection Heq as <- <-. exists al, l, ss. auto.
          -- rewrite <- Ea. apply Q4; auto.
        * rewrite <- Ea. apply Q4; auto.
  Qed.
  Theorem cleaned_is_right evs : forall p out, fine p -> run truth evs p = Some out ->
    Forall (fun x => cleaned (fst (fst (fst x))) = true -> ok x) out.
  Proof.
    induction evs as [|ev evs IH]; intros p out Hp H; cbn in H; [injection H as <-; constructor|].
    destruct ev as [al|o ss].
    - destruct (renew al p) as [p'|] eqn:E; [|discriminate]. apply (IH p' out); [apply (fine_renew al p p' Hp E)|exact H].
    - destruct (make_data truth o ss p) as [[T p']|] eqn:E; [|discriminate].
      destruct (run truth evs p') as [out'|] eqn:Er; [|discriminate]. injection H as <-.
      destruct (fine_make o ss p T p' Hp E) as (F1 & F2). constructor; [exact F2|apply (IH p' out' F1 Er)].
  Qed.
  Lemma fine_start : fine start.
  Proof. repeat split; cbn; try discriminate; auto; intros; contradiction. Qed.

  (** ** addresses that are never used again *)
  Definition traced (hist : list (list nat)) (p : prog D) : Prop :=
    gen p = length hist /\
    (match addrs p with [] => hist = [] | al :: _ => exists h, hist = h ++ [al] end) /\
    forall o k T, In (k, T) (dict p o) ->
      exists g al ss, nth_error hist g = Some al /\ addresses al ss = Some k /\ length ss = 3 /\ T = truth o (S g) ss.
  Lemma disjoint_hist (hist : list (list nat)) g g' al al' x :
    NoDup (concat hist) -> nth_error hist g = Some al -> nth_error hist g' = Some al' -> In x al -> In x al' -> g = g' /\ NoDup al.
  Proof.
    revert g g'. induction hist as [|h hist IH]; intros g g' Hnd Hg Hg' Hx Hx'; [destruct g; discriminate|].
    cbn [concat] in Hnd.
    assert (P : forall l y, nth_error hist l = Some y -> In x y -> In x (concat hist)).
    { intros l y Hl Hy. apply in_concat. exists y. split; [apply nth_error_In in Hl; exact Hl|exact Hy]. }
    assert (A : In x h -> In x (concat hist) -> False).
    { intros I1 I2. apply in_split in I1. destruct I1 as (u & v & ->). rewrite <- app_assoc in Hnd. cbn in Hnd.
      apply NoDup_remove_2 in Hnd. apply Hnd. apply in_or_app. right. apply in_or_app. right. exact I2. }
    assert (N : NoDup h /\ NoDup (concat hist)).
    { clear -Hnd. induction h as [|y h IHh]; cbn in *; [split; [constructor|exact Hnd]|].
      inversion Hnd as [|? ? N1 N2]; subst. destruct (IHh N2) as (I1 & I2). split; [|exact I2].
      constructor; [|exact I1]. intros I. apply N1. apply in_or_app. auto. }
    destruct g as [|g], g' as [|g']; cbn in Hg, Hg'.
    - injection Hg as <-. tauto.
    - injection Hg as <-. exfalso. apply A; [exact Hx|apply (P g' al'); assumption].
    - injection Hg' as <-. exfalso. apply A; [exact Hx'|apply (P g al); assumption].
    - destruct (IH g g' (proj2 N) Hg Hg' Hx Hx') as (-> & Q). auto.
  Qed.
  Lemma traced_current hist p : traced hist p -> traced hist (current_base p).
  Proof.
    intros (H1 & H2 & H3). destruct (current_base_current p) as (_ & C2 & C3).
    split; [congruence|]. split; [rewrite C3; exact H2|]. intros o k T Hin. apply (H3 o).
    unfold current_base in Hin. destruct (current p) as [g|]; [destruct (g =? gen p)%nat|]; cbn in Hin; auto;
      destruct (cleaned o); auto; destruct Hin.
  Qed.
  Lemma fresh_run evs : forall hist p out, traced hist p -> three evs -> NoDup (concat (hist ++ renewed evs)) ->
    run truth evs p = Some out -> Forall ok out.
  Proof.
    induction evs as [|ev evs IH]; intros hist p out Hp H3 Hnd H; cbn in H; [injection H as <-; constructor|].
    assert (H3' : three evs) by (intros o ss Hin; apply (H3 o ss); right; exact Hin).
    destruct ev as [al|o ss].
    - destruct (renew al p) as [p'|] eqn:E; [|discriminate].
      apply (IH (hist ++ [al]) p' out); auto.
      + unfold renew in E. destruct (nodupb al && forallb (disjoint al) (addrs p)); [|discriminate]. injection E as <-.
        destruct Hp as (P1 & P2 & P3). split; [cbn; rewrite app_length; cbn; lia|]. split; [cbn; exists hist; reflexivity|].
        cbn. intros o k T Hin. destruct (P3 o k T Hin) as (g & al' & ss & Hg & Q). exists g, al', ss. split; [|exact Q].
        rewrite nth_error_app1; [exact Hg|]. apply nth_error_Some. congruence.
      + rewrite <- app_assoc. exact Hnd.
    - destruct (make_data truth o ss p) as [[T p']|] eqn:E; [|discriminate].
      destruct (run truth evs p') as [out'|] eqn:Er; [|discriminate]. injection H as <-.
      pose proof (traced_current hist p Hp) as Hq. destruct (current_base_current p) as (_ & C2 & _).
      assert (Hl : length ss = 3) by (apply (H3 o ss); left; reflexivity).
      unfold make_data in E. set (q := current_base p) in *. destruct Hq as (Q1 & Q2 & Q3).
      destruct (addrs q) as [|al l] eqn:Ea; [discriminate|]. destruct (addresses al ss) as [k|] eqn:Ek; [|discriminate].
      destruct Q2 as (h & Hh).
      assert (Hnd' : NoDup (concat hist)).
      { rewrite concat_app in Hnd. clear -Hnd. induction (concat hist) as [|y c IHc]; [constructor|]. cbn in Hnd. inversion Hnd; subst.
        constructor; [intros I; apply H1; apply in_or_app; auto|apply IHc; assumption]. }
      assert (Hlast : nth_error hist (length h) = Some al) by (rewrite Hh, nth_error_app2, Nat.sub_diag by lia; reflexivity).
      assert (Hg : gen q = S (length h)) by (rewrite Q1, Hh, app_length; cbn; lia).
      destruct (find_key gkey_eqb k (dict q o)) as [T0|] eqn:EF.
      + injection E as <- <-. constructor.
        * apply find_key_In in EF; [|intros a b; apply gkey_eqb_eq].
          destruct (Q3 o k T0 EF) as (g & al' & ss' & G1 & G2 & G3 & G4).
          pose proof (addresses_length al' ss' k G2) as Lk. rewrite G3 in Lk.
          destruct k as [|[x d] k]; [discriminate Lk|].
          destruct (disjoint_hist hist g (length h) al' al x Hnd' G1 Hlast) as (-> & Hnda).
          -- apply (addresses_in al' ss' _ x d G2). left. reflexivity.
          -- apply (addresses_in al ss _ x d Ek). left. reflexivity.
          -- rewrite Hlast in G1. injection G1 as <-. rewrite (addresses_inj al Hnda ss ss' _ Ek G2), <- C2, Hg. exact G4.
        * apply (IH hist q out'); auto. split; [exact Q1|]. split; [rewrite Ea; exists h; exact Hh|exact Q3].
      + injection E as <- <-. constructor; [rewrite C2; reflexivity|].
        refine (IH hist _ out' _ H3' _ Er); [|exact Hnd]. split; [exact Q1|]. split; [cbn; exists h; exact Hh|].
        cbn. intros o' k' T' Hin. unfold set_dict in Hin. destruct (op_eqb o' o) eqn:Eo; [|apply (Q3 o'); exact Hin].
        apply op_eqb_eq in Eo. subst o'. destruct Hin as [Heq|Hin]; [|apply (Q3 o); exact Hin].
        injection Heq as <- <-. exists (length h), al, ss. rewrite Hg. auto.
  Qed.
  Theorem fresh_is_right evs out : three evs -> NoDup (concat (renewed evs)) -> run truth evs start = Some out -> Forall ok out.
  Proof.
    intros H3 Hnd H. apply (fresh_run evs [] start out); auto. repeat split; cbn; auto. intros; contradiction.
  Qed.
End program.

(** ** stale arrays *)

Theorem stale_data o : cleaned o = false ->
  exists (D : Type) (truth : op -> nat -> list (nat * deg) -> D) evs g ss T,
    run truth evs start = Some [(o, 1, ss, truth o 1 ss); (o, g, ss, T)] /\ length ss = 3 /\ T = truth o 1 ss /\ T <> truth o g ss.
Proof.
  intros Ho. exists nat, (fun _ g _ => g).
  exists [Renew [7]; Term o [(0, Num 2); (0, Num 2); (0, Num 2)]; Renew [8]; Renew [9]; Renew [7]; Term o [(0, Num 2); (0, Num 2); (0, Num 2)]].
  exists 4, [(0, Num 2); (0, Num 2); (0, Num 2)], 1.
  destruct o; try discriminate Ho; cbn; repeat split; discriminate.
Qed.
