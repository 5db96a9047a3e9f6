(** Locating dofs; numbers of the members' dofs in the chain; equality of numberings *)
From Coq Require Import List Arith ZArith Bool Lia.
From Verif Require Import Dict GmModel GmSpec GmProofs GmChain GmData.
Import ListNotations.

Lemma where_eq_spec d row : forall k i, In i (where_eq d k row) <-> k <= i /\ nth_error row (i - k) = Some d.
Proof.
  induction row as [|x row IH]; intros k i; simpl.
  - split; [tauto|]. intros [_ H]. destruct (i - k); discriminate.
  - assert (In i (where_eq d (S k) row) <-> S k <= i /\ nth_error (x :: row) (i - k) = Some d) as E.
    { rewrite IH. split; intros [H1 H2]; split; auto; replace (i - k) with (S (i - S k)) in * by lia; auto. }
    destruct (Nat.eqb_spec x d) as [->|Hn]; simpl; rewrite E.
    + split.
      * intros [<-|[H1 H2]]; [split; auto; now rewrite Nat.sub_diag|split; auto; lia].
      * intros [H1 H2]. destruct (Nat.eq_dec k i); [auto|right; split; auto; lia].
    + split; intros [H1 H2]; split; auto; try lia. destruct (Nat.eq_dec k i) as [->|]; [|lia].
      rewrite Nat.sub_diag in H2. simpl in H2. congruence.
Qed.
Lemma where_eq_nodup d row : forall k, NoDup (where_eq d k row).
Proof.
  induction row as [|x row IH]; intros k; simpl; [constructor|]. destruct (x =? d); auto. constructor; auto.
  intros H. apply where_eq_spec in H. lia.
Qed.
Lemma locate_places (r : rgm) d : NoDup (keys r) -> places r d (locate r d).
Proof.
  intros Hn. split.
  - unfold locate. induction r as [|[e row] r IH]; simpl; [constructor|]. inversion Hn as [|? ? Hx Hn']; subst. apply NoDup_app_intro; auto.
    + apply FinFun.Injective_map_NoDup; [intros a b; congruence|apply where_eq_nodup].
    + intros [e' i] H1 H2. apply in_map_iff in H1 as (j & [= <- <-] & _). apply in_flat_map in H2 as ([e'' row'] & H3 & H4).
      simpl in H4. apply in_map_iff in H4 as (j' & [= -> ->] & _). apply Hx. apply (in_map fst) in H3. auto.
  - intros e i. unfold locate. rewrite in_flat_map. split.
    + intros ([e' row] & H1 & H2). simpl in H2. apply in_map_iff in H2 as (j & [= <- <-] & H3). apply where_eq_spec in H3 as [_ H3].
      rewrite Nat.sub_0_r in H3. eauto.
    + intros (row & H1 & H2). exists (e, row). split; auto. simpl. apply in_map. apply where_eq_spec. rewrite Nat.sub_0_r. split; auto. lia.
Qed.

(** ** the two caches of the search *)
Lemma Zeqb_spec a b : Z.eqb a b = true <-> a = b.
Proof. apply Z.eqb_eq. Qed.
(** [out] answers the question for the dofs [ds] *)
Definition answers (r : rgm) (ds : list Z) (out : dict Z locs) : Prop :=
  (forall d, In d (keys out) <-> In d ds) /\ (forall d l, zget out d = Some l -> (0 <= d)%Z /\ places r (Z.to_nat d) l).
Definition good_cache (r : rgm) (c : dict Z locs) : Prop := forall d l, zget c d = Some l -> (0 <= d)%Z /\ places r (Z.to_nat d) l.

Lemma find_loop_spec (r : rgm) ds : NoDup (keys r) -> forall c out ok c' out', good_cache r c -> good_cache r out ->
  find_loop r ds c out = (ok, c', out') ->
  good_cache r c' /\ (ok = true <-> Forall (fun d => 0 <= d)%Z ds) /\
  (ok = true -> good_cache r out' /\ forall d, In d (keys out') <-> In d ds \/ In d (keys out)).
Proof.
  intros Hn. induction ds as [|d ds IH]; intros c out ok c' out' Hc Ho; cbn [find_loop].
  - intros [= <- <- <-]. split; [auto|]. split; [split; auto|]. intros _. split; auto. intros d. simpl. tauto.
  - assert (forall l, (0 <= d)%Z -> places r (Z.to_nat d) l -> forall x, good_cache r x -> good_cache r (zput x d l)) as Hput.
    { intros l H1 H2 x Hx d' l'. rewrite (get_put _ Zeqb_spec). destruct (Z.eqb_spec d' d) as [->|]; [intros [= <-]; auto|apply Hx]. }
    assert (forall l c0, (0 <= d)%Z -> places r (Z.to_nat d) l -> good_cache r c0 -> find_loop r ds c0 (zput out d l) = (ok, c', out') ->
      good_cache r c' /\ (ok = true <-> Forall (fun d => 0 <= d)%Z (d :: ds)) /\
      (ok = true -> good_cache r out' /\ forall d0, In d0 (keys out') <-> In d0 (d :: ds) \/ In d0 (keys out))) as Hstep.
    { intros l c0 H1 H2 H3 E. destruct (IH _ _ _ _ _ H3 (Hput l H1 H2 out Ho) E) as (I1 & I2 & I3). split; auto. split.
      - rewrite I2. split; [intros; constructor; auto|intros HF; now inversion HF].
      - intros Hok. destruct (I3 Hok) as [I4 I5]. split; auto. intros d0. rewrite I5, (in_keys_put _ Zeqb_spec). simpl. intuition. }
    destruct (zget c d) as [l|] eqn:E.
    + destruct (Hc d l E) as [H1 H2]. apply Hstep; auto.
    + destruct (Z.ltb_spec d 0).
      * intros [= <- <- <-]. split; auto. split; [|discriminate]. split; [discriminate|]. intros HF. inversion HF; lia.
      * apply Hstep; auto; [now apply locate_places|]. apply Hput; auto. now apply locate_places.
Qed.

(** the list of dofs a question is about *)
Definition asked (n : nat) (q : query) : list Z :=
  match q with QList ds => ds | QInt d => [if (d <? 0)%Z then (d + Z.of_nat n)%Z else d] end.
Definition valid (n : nat) (q : query) : Prop := Forall (fun d => 0 <= d)%Z (asked n q).

Definition FInv (h : list Z -> Z) (r : rgm) (past : list (list Z)) (st : find_state) : Prop :=
  good_cache r (fs_cache st) /\
  ((fs_key st = -1)%Z \/ exists ds out, In ds past /\ fs_key st = h ds /\ fs_total st = Some out /\ answers r ds out).

Lemma find_step h n (r : rgm) past st q a st' : NoDup (keys r) -> FInv h r past st ->
  (forall ds, In ds (asked n q :: past) -> h ds <> -1)%Z ->
  (forall ds, In ds past -> h ds = h (asked n q) -> ds = asked n q) ->
  find h n r st q = (a, st') ->
  FInv h r (asked n q :: past) st' /\
  (valid n q -> exists out, a = Some out /\ answers r (asked n q) out) /\ (~ valid n q -> a = None).
Proof.
  intros Hn [H1 H2] Hm Hh.
  assert (forall ds, ds = asked n q -> find_list h r st ds = (a, st') -> FInv h r (asked n q :: past) st' /\
    (valid n q -> exists out, a = Some out /\ answers r (asked n q) out) /\ (~ valid n q -> a = None)) as HL.
  { intros ds -> E. unfold find_list in E. destruct (Z.eqb_spec (h (asked n q)) (fs_key st)) as [Ek|Ek].
    - injection E as <- <-. destruct H2 as [H2|(ds & out & Hin & Hk & Ht & Ha)].
      + exfalso. apply (Hm (asked n q)); [simpl; auto|congruence].
      + assert (ds = asked n q) as -> by (apply Hh; auto; congruence). split; [|split].
        * split; auto. right. exists (asked n q), out. simpl. auto.
        * intros _. eauto.
        * intros Hv. exfalso. apply Hv. unfold valid. apply Forall_forall. intros d Hd. apply Ha in Hd.
          apply (get_keys _ Zeqb_spec) in Hd as [l Hl]. now apply Ha in Hl.
    - destruct (find_loop r (asked n q) (fs_cache st) []) as [[ok c] out] eqn:El.
      destruct (find_loop_spec r (asked n q) Hn (fs_cache st) [] ok c out H1) as (I1 & I2 & I3); auto; [intros d l; discriminate|].
      destruct ok; injection E as <- <-.
      + destruct (I3 eq_refl) as [I4 I5].
        assert (answers r (asked n q) out) as Ha by (split; auto; intros d; rewrite I5; simpl; tauto).
        split; [|split].
        * split; auto. right. exists (asked n q), out. simpl. auto.
        * eauto.
        * intros Hv. exfalso. apply Hv, I2. auto.
      + split; [|split].
        * split; auto. simpl. destruct H2 as [H2|(ds & out' & Hin & Hk & Ht & Ha)]; [auto|right; exists ds, out'; simpl; auto].
        * intros Hv. apply I2 in Hv. discriminate.
        * auto. }
  destruct q as [d|ds]; cbn [find]; [|now apply HL].
  set (d' := if (d <? 0)%Z then (d + Z.of_nat n)%Z else d). destruct (zget (fs_cache st) d') as [l|] eqn:E.
  - intros [= <- <-]. destruct (H1 d' l E) as [P1 P2]. split; [|split].
    + split; auto. destruct H2 as [H2|(ds & out' & Hin & Hk & Ht & Ha)]; [auto|right; exists ds, out'; simpl; auto].
    + intros _. exists [(d', l)]. split; auto. split; [simpl; tauto|]. intros x lx. simpl. destruct (Z.eqb_spec x d') as [->|]; [intros [= <-]; auto|discriminate].
    + intros Hv. exfalso. apply Hv. repeat constructor. auto.
  - now apply HL.
Qed.

Lemma find_history h n (r : rgm) qs : NoDup (keys r) -> (forall q, In q qs -> h (asked n q) <> -1)%Z ->
  (forall q q', In q qs -> In q' qs -> h (asked n q) = h (asked n q') -> asked n q = asked n q') ->
  FInv h r (rev (map (asked n) qs)) (finds h n r qs fs_init).
Proof.
  intros Hn. induction qs as [|q qs IH] using rev_ind; intros Hm Hh.
  - split; simpl; auto. intros d l; discriminate.
  - unfold finds. rewrite fold_left_app. simpl. fold (finds h n r qs fs_init). rewrite map_app, rev_app_distr. simpl.
    destruct (find h n r (finds h n r qs fs_init) q) as [a st'] eqn:E.
    assert (forall ds, In ds (rev (map (asked n) qs)) -> exists q', In q' qs /\ asked n q' = ds) as Hin.
    { intros ds Hds. apply in_rev, in_map_iff in Hds as (q' & <- & Hq'). eauto. }
    refine (proj1 (find_step h n r _ _ q a st' Hn _ _ _ E)).
    + apply IH; [intros; apply Hm, in_or_app; auto|intros; apply Hh; auto; apply in_or_app; auto].
    + intros ds [<-|Hds]; [apply Hm, in_or_app; simpl; auto|]. destruct (Hin ds Hds) as (q' & Hq' & <-). apply Hm, in_or_app; auto.
    + intros ds Hds He. destruct (Hin ds Hds) as (q' & Hq' & <-). apply Hh; auto; apply in_or_app; simpl; auto.
Qed.
Lemma find_correct h n (r : rgm) qs q : NoDup (keys r) -> (forall q', In q' (q :: qs) -> h (asked n q') <> -1)%Z ->
  (forall q' q'', In q' (q :: qs) -> In q'' (q :: qs) -> h (asked n q') = h (asked n q'') -> asked n q' = asked n q'') ->
  (valid n q -> exists out, fst (find h n r (finds h n r qs fs_init) q) = Some out /\ answers r (asked n q) out) /\
  (~ valid n q -> fst (find h n r (finds h n r qs fs_init) q) = None).
Proof.
  intros Hn Hm Hh. destruct (find h n r (finds h n r qs fs_init) q) as [a st'] eqn:E.
  assert (forall ds, In ds (rev (map (asked n) qs)) -> exists q', In q' qs /\ asked n q' = ds) as Hin.
  { intros ds Hds. apply in_rev, in_map_iff in Hds as (q' & <- & Hq'). eauto. }
  refine (proj2 (find_step h n r (rev (map (asked n) qs)) _ q a st' Hn _ _ _ E)).
  - apply find_history; auto; intros; [apply Hm|apply Hh]; simpl; auto.
  - intros ds [<-|Hds]; [apply Hm; simpl; auto|]. destruct (Hin ds Hds) as (q' & Hq' & <-). apply Hm; simpl; auto.
  - intros ds Hds He. destruct (Hin ds Hds) as (q' & Hq' & <-). apply Hh; simpl; auto.
Qed.
(** two lists with one hash: the second gets the answer to the first *)
Lemma find_collision h n (r : rgm) ds ds' d : (forall x, In x ds -> 0 <= x)%Z -> NoDup (keys r) -> h ds <> (-1)%Z -> h ds = h ds' -> In d ds' -> ~ In d ds ->
  exists out, fst (find h n r (finds h n r [QList ds] fs_init) (QList ds')) = Some out /\ zget out d = None.
Proof.
  intros Hp Hn Hm He Hd Hd'. unfold finds. simpl. unfold find_list. simpl.
  destruct (Z.eqb_spec (h ds) (-1)); [contradiction|].
  destruct (find_loop r ds [] []) as [[ok c] out] eqn:El.
  destruct (find_loop_spec r ds Hn [] [] ok c out) as (I1 & I2 & I3); auto; try (intros x l; discriminate).
  assert (ok = true) as -> by (apply I2, Forall_forall; auto). simpl. rewrite He, Z.eqb_refl. simpl. exists out. split; auto.
  apply (get_none _ Zeqb_spec). destruct (I3 eq_refl) as [_ I4]. rewrite I4. simpl. tauto.
Qed.

(** ** the number of a dof of a member *)
Section Ith.
  Context (gms : list dgm) (cgm : dgm) (Hw : Forall wf_numbering gms) (Hc : chaining gms = Some cgm).
  Lemma nth_concat_vsub phi rows : forall k i r l d, nth_error rows i = Some r -> nth_error r l = Some d ->
    nth_error (concat (vsub phi k rows)) (length (concat (firstn i rows)) + l) = Some (phi (k + i) d).
  Proof.
    induction rows as [|a rows IH]; intros k [|i] r l d Hi Hl; simpl in *; try discriminate.
    - injection Hi as ->. rewrite nth_error_app1 by (rewrite map_length; apply nth_error_Some; congruence).
      rewrite Nat.add_0_r. exact (map_nth_error _ _ _ Hl).
    - rewrite nth_error_app2 by (rewrite map_length, app_length; lia). rewrite map_length, app_length.
      replace (length a + length (concat (firstn i rows)) + l - length a) with (length (concat (firstn i rows)) + l) by lia.
      rewrite Nat.add_succ_r. apply (IH (S k) i r l d); auto.
  Qed.
  Lemma sum_lens (rows : list (list nat)) : fold_right Nat.add 0 (map (@length nat) rows) = length (concat rows).
  Proof. induction rows; simpl; auto. rewrite app_length. lia. Qed.
  Lemma obind_firstn {X Y} (f : X -> option Y) l s i : obind l f = Some s -> obind (firstn i l) f = Some (firstn i s).
  Proof.
    revert s i. induction l as [|a l IH]; intros s [|i]; simpl; auto; [intros [= <-]; auto|].
    destruct (f a); [|discriminate]. destruct (obind l f) as [t|] eqn:E; [|discriminate]. intros [= <-]. simpl. now rewrite (IH t i).
  Qed.
  Lemma ith_local_at i e rows r l row : Forall2 (fun g r => row_at g e r) gms rows -> nth_error rows i = Some r -> l < length r -> row_at cgm e row ->
    ith_local gms cgm i e l = nth_error row (length (concat (firstn i rows)) + l) /\ nth_error row (length (concat (firstn i rows)) + l) <> None.
  Proof.
    intros HR Hi Hl (cg & Hcg & Hin). apply In_nth_error in Hcg as [k Hk].
    pose proof (m_chained gms cgm Hw Hc) as (phi & C1 & _).
    assert (row_at cgm e row) as Hat by (exists cg; split; auto; eapply nth_error_In; eauto).
    destruct (C1 e row Hat) as (rows' & HR' & Erow). rewrite (rows_fun gms e rows' rows Hw HR' HR) in *. clear HR' rows'.
    assert (length gms = length rows) as El by (eapply Forall2_len; eauto).
    assert (nth_error row (length (concat (firstn i rows)) + l) <> None) as Hne.
    { destruct (nth_error r l) as [d|] eqn:Ed; [|apply nth_error_None in Ed; lia]. rewrite Erow, El. fold (vsub phi 0 rows). rewrite (nth_concat_vsub phi rows 0 i r l d Hi Ed). discriminate. }
    split; auto. destruct (nth_error row (length (concat (firstn i rows)) + l)) as [v|] eqn:Ev; [|tauto]. clear Hne.
    pose proof (m_wf gms cgm Hw Hc) as Hwc. unfold ith_local.
    set (f := fun kc : nat * rgm => match by_rank (fst kc) gms with Some gs => ith_local_rank gs (snd kc) i e l | None => None end).
    assert (f (k, cg) = Some v) as Ek.
    { unfold f. simpl. destruct (m_ranks gms cgm Hw Hc k cg Hk) as (gs & Hb & _). rewrite Hb. unfold ith_local_rank.
      assert (nget cg e = Some row) as ->. { apply (in_get _ Nat_eqb_spec); auto. eapply wf_rank; eauto. eapply nth_error_In; eauto. }
      destruct (m_rows gms cgm Hw Hc k cg gs e Hk Hb) as (rows' & Er & HR'); [apply (in_map fst) in Hin; auto|].
      rewrite (rows_fun gms e rows' rows Hw HR' HR) in *. apply (obind_firstn _ _ _ i) in Er.
      assert (obind (firstn i gs) (fun g => option_map (@length nat) (nget g e)) = Some (map (@length nat) (firstn i rows))) as ->.
      { clear - Er. revert Er. generalize (firstn i gs) (firstn i rows). intros a. induction a as [|x a IH]; simpl; intros b Hb; [injection Hb as <-; auto|].
        destruct (nget x e); [|discriminate]. destruct (obind a (fun r => nget r e)) as [t|]; [|discriminate]. injection Hb as <-. simpl. now rewrite (IH t). }
      rewrite sum_lens. exact Ev. }
    assert (forall j c, nth_error cgm j = Some c -> j <> k -> f (j, c) = Some 0) as Hother.
    { intros j c Hj Hjk. unfold f. simpl. destruct (m_ranks gms cgm Hw Hc j c Hj) as (gs & Hb & _). rewrite Hb. unfold ith_local_rank.
      destruct (nget c e) as [x|] eqn:E; auto. exfalso. apply (get_in _ Nat_eqb_spec) in E.
      clear - Hwc Hk Hj Hjk Hin E. unfold wf_numbering in Hwc. apply (in_map fst) in E. apply (in_map fst) in Hin. simpl in *.
      revert j k Hj Hk Hjk. induction cgm as [|c0 cg' IH]; intros [|j] [|k] Hj Hk Hjk; simpl in *; try discriminate; try lia;
        apply NoDup_app_elim in Hwc as (N1 & N2 & N3).
      - injection Hj as ->. apply (N3 e E). apply in_concat. exists (map fst cg). split; auto. apply in_map. eapply nth_error_In; eauto.
      - injection Hk as ->. apply (N3 e Hin). apply in_concat. exists (map fst c). split; auto. apply in_map. eapply nth_error_In; eauto.
      - apply (IH N2 j k); auto. }
    assert (forall (L : dgm) k0, (forall j c, nth_error L j = Some c -> f (k0 + j, c) = Some (if k0 + j =? k then v else 0)) ->
      exists ns, obind (combine (seq k0 (length L)) L) f = Some ns /\
        fold_right Nat.add 0 ns = if (k0 <=? k) && (k <? k0 + length L) then v else 0) as HH.
    { clear. induction L as [|c L IH]; intros k0 H; simpl.
      - exists []. split; auto. destruct (Nat.leb_spec k0 k); destruct (Nat.ltb_spec k (k0 + 0)); simpl; auto; lia.
      - pose proof (H 0 c eq_refl) as E. rewrite Nat.add_0_r in E. rewrite E.
        destruct (IH (S k0)) as (ns & E2 & S2). { intros j c' Hj. specialize (H (S j) c' Hj). rewrite Nat.add_succ_r in H. auto. }
        rewrite E2. eexists. split; [reflexivity|]. simpl. rewrite S2.
        destruct (Nat.eqb_spec k0 k), (Nat.leb_spec k0 k), (Nat.leb_spec (S k0) k), (Nat.ltb_spec k (S k0 + length L)), (Nat.ltb_spec k (k0 + S (length L))); simpl; lia. }
    destruct (HH cgm 0) as (ns & E & Es).
    { intros j c Hj. simpl. destruct (Nat.eqb_spec j k) as [->|Hjk]; [congruence|auto]. }
    change (seq 0 (length cgm)) with (seq 0 (length cgm)). rewrite E, Es. simpl.
    destruct (Nat.ltb_spec k (length cgm)); auto. exfalso. assert (k < length cgm) by (apply nth_error_Some; congruence). lia.
  Qed.
  Lemma ith_local_correct : exists phi : nat -> nat -> nat,
    (forall i j g h d d', nth_error gms i = Some g -> nth_error gms j = Some h -> used g d -> used h d' -> phi i d = phi j d' -> i = j /\ d = d') /\
    forall i g e r l d, nth_error gms i = Some g -> row_at g e r -> nth_error r l = Some d ->
      ith_local gms cgm i e l = Some (phi i d) /\ denotes gms cgm i d (phi i d).
  Proof.
    pose proof (m_chained gms cgm Hw Hc) as (phi & C1 & C2 & _). exists phi. split; auto.
    intros i g e r l d Hg Hat Hd.
    assert (exists row, row_at cgm e row) as [row Hrow].
    { apply row_at_key. apply (agree_in g cgm); [apply (m_agree gms cgm Hw Hc); eapply nth_error_In; eauto|]. apply row_at_key. eauto. }
    destruct (C1 e row Hrow) as (rows & HR & Erow). destruct (Forall2_nth_l _ _ _ _ _ HR Hg) as (r' & Hr' & Hat').
    assert (r' = r) as ->. { eapply row_at_fun; eauto. rewrite Forall_forall in Hw. apply Hw. eapply nth_error_In; eauto. }
    assert (l < length r) as Hl by (apply nth_error_Some; congruence).
    destruct (ith_local_at i e rows r l row HR Hr' Hl Hrow) as [E _].
    assert (nth_error row (length (concat (firstn i rows)) + l) = Some (phi i d)) as Ev.
    { rewrite Erow. rewrite (Forall2_len _ _ _ HR). fold (vsub phi 0 rows). now rewrite (nth_concat_vsub phi rows 0 i r l d Hr' Hd). }
    rewrite E, Ev. split; auto. exists e, rows, r, l, row. auto.
  Qed.
  (** a dof has one number *)
  Lemma denotes_fun i d k k' : denotes gms cgm i d k -> denotes gms cgm i d k' -> k = k'.
  Proof.
    pose proof (m_chained gms cgm Hw Hc) as (phi & C1 & C2 & _).
    assert (forall k, denotes gms cgm i d k -> k = phi i d) as H; [|intros H1 H2; rewrite (H _ H1); symmetry; auto].
    intros x (e & rows & r & l & row & HR & Hr & Hd & Hat & Hx). destruct (C1 e row Hat) as (rows' & HR' & ->).
    rewrite (rows_fun gms e rows' rows Hw HR' HR) in *. rewrite (Forall2_len _ _ _ HR) in Hx. fold (vsub phi 0 rows) in Hx.
    rewrite (nth_concat_vsub phi rows 0 i r l d Hr Hd) in Hx. simpl in Hx. congruence.
  Qed.
End Ith.

(** (rank, element) taken for (element, local dof) *)
Definition gA : dgm := [[(0, [0; 1]); (1, [1; 2])]].
Definition gB : dgm := [[(0, [0]); (1, [1])]].
Lemma ith_global_wrong : exists cgm k, chaining [gA; gB] = Some cgm /\ ith_global [gA; gB] cgm 0 2 = Some k /\ ~ denotes [gA; gB] cgm 0 2 k.
Proof.
  destruct (chaining [gA; gB]) as [cgm|] eqn:Hc; [|vm_compute in Hc; discriminate].
  assert (Forall wf_numbering [gA; gB]) as Hw by (repeat constructor; simpl; intuition congruence).
  exists cgm. pose proof Hc as Ec. vm_compute in Ec. exists 1. split; auto. split; [injection Ec as <-; vm_compute; reflexivity|].
  intros H. destruct (ith_local_correct _ _ Hw Hc) as (phi & _ & Hp). destruct (Hp 0 gA 1 [1; 2] 1 2) as [E D]; auto; [exists [(0, [0; 1]); (1, [1; 2])]; simpl; auto|].
  pose proof (denotes_fun _ _ Hw Hc 0 2 _ _ H D) as E1. rewrite <- E1 in E. injection Ec as <-. vm_compute in E. discriminate.
Qed.
Lemma ith_global_raises : exists cgm, chaining [gA; gB] = Some cgm /\ ith_global [gA; gB] cgm 1 1 = None /\ used gB 1.
Proof.
  destruct (chaining [gA; gB]) as [cgm|] eqn:Hc; [|vm_compute in Hc; discriminate]. exists cgm. split; auto. vm_compute in Hc. injection Hc as <-. split; [vm_compute; reflexivity|].
  exists 1, [1]. split; [|simpl; auto]. exists [(0, [0]); (1, [1])]. simpl. auto.
Qed.

(** ** equality *)
Lemma all_eq_same a b : length a = length b -> exists v, all_eq a b = Some v /\ (v = true <-> a = b).
Proof.
  intros H. unfold all_eq. rewrite H, Nat.eqb_refl. eexists. split; [reflexivity|]. revert b H.
  induction a as [|x a IH]; intros [|y b] H; try discriminate; simpl; [tauto|]. rewrite andb_true_iff, IH by (simpl in H; lia).
  rewrite Nat.eqb_eq. split; [intros [-> ->]; auto|intros [= -> ->]; auto].
Qed.
(** rows of one element have the same length in both *)
Definition same_shape (s o : rgm) : Prop := forall e a b, nget s e = Some a -> nget o e = Some b -> length a = length b.
Definition same_rows (s o : rgm) : Prop := forall e row, In (e, row) s <-> In (e, row) o.
Lemma nodup_in_get (s : rgm) e row : NoDup (keys s) -> (nget s e = Some row <-> In (e, row) s).
Proof. intros H. symmetry. now apply rank_get. Qed.
Lemma eq_loop_spec s : forall o, NoDup (keys s) -> same_shape s o ->
  exists v, eq_loop s o = Some v /\ (v = true <-> forall e row, In (e, row) s -> nget o e = Some row).
Proof.
  induction s as [|[e row] s IH]; intros o Hn Hs; simpl; [exists true; split; auto; tauto|].
  inversion Hn as [|? ? Hx Hn']; subst.
  destruct (nget o e) as [row'|] eqn:E.
  - destruct (all_eq_same row row') as (v & Ev & Hv). { apply (Hs e); auto. simpl. now rewrite Nat.eqb_refl. }
    rewrite Ev. destruct v.
    + destruct (IH o Hn') as (v' & E' & Hv'). { intros x a b Ha Hb. apply (Hs x); auto. simpl. destruct (Nat.eqb_spec x e) as [->|]; auto. exfalso. apply Hx. apply (get_in _ Nat_eqb_spec) in Ha. apply (in_map fst) in Ha. auto. }
      exists v'. split; auto. rewrite Hv'. split; [|auto]. intros H x rx [[= <- <-]|Hin]; [|auto]. rewrite E. f_equal. symmetry. now apply Hv.
    + exists false. split; auto. split; [discriminate|]. intros H. specialize (H e row (or_introl eq_refl)). rewrite E in H. injection H as ->. now apply Hv.
  - exists false. split; auto. split; [discriminate|]. intros H. specialize (H e row (or_introl eq_refl)). congruence.
Qed.
Lemma eq_rank_spec s o : NoDup (keys s) -> NoDup (keys o) -> same_shape s o ->
  exists v, eq_rank s o = Some v /\ (v = true <-> same_rows s o).
Proof.
  intros Hs Ho Hsh. unfold eq_rank. destruct (Nat.eqb_spec (length s) (length o)) as [El|El].
  - destruct (eq_loop_spec s o Hs Hsh) as (v & E & Hv). exists v. split; auto. rewrite Hv. split.
    + intros H.
      assert (incl s o) as Hi. { intros [e row] Hin. apply nodup_in_get; auto. }
      assert (NoDup s) as Ns by (apply NoDup_map_inv in Hs; auto).
      assert (incl o s) as Hi'. { apply NoDup_length_incl; auto. lia. }
      intros e row. split; auto.
    + intros H e row Hin. apply nodup_in_get; auto. now apply H.
  - exists false. split; auto. split; [discriminate|]. intros H. exfalso. apply El.
    assert (NoDup s) as Ns by (apply NoDup_map_inv in Hs; auto). assert (NoDup o) as No by (apply NoDup_map_inv in Ho; auto).
    apply Nat.le_antisymm; apply NoDup_incl_length; auto; intros [e row]; apply H.
Qed.
Lemma eq_gm_spec s : forall o, length s = length o -> Forall2 (fun a b : rgm => NoDup (keys a) /\ NoDup (keys b) /\ same_shape a b) s o ->
  exists v, eq_gm s o = Some v /\ (v = true <-> Forall2 same_rows s o).
Proof.
  intros o Hl H. clear Hl. unfold eq_gm. induction H as [|a b s o (H1 & H2 & H3) H IH]; simpl; [exists true; split; auto; split; auto|].
  destruct (eq_rank_spec a b H1 H2 H3) as (v & E & Hv). rewrite E. destruct IH as (v' & E' & Hv').
  destruct (obind _ _) as [bs|]; [|discriminate]. simpl in *. injection E' as E'. exists (v && v'). rewrite <- E'. split; auto. rewrite E'.
  rewrite andb_true_iff, Hv, Hv'. split; [intros []; constructor; auto|intros HF; now inversion HF].
Qed.
(** an element without dofs equals an element with one *)
Lemma eq_gm_wrong : eq_gm [[(0, [0; 1]); (1, [])]] [[(0, [0; 1]); (1, [2])]] = Some true.
Proof. reflexivity. Qed.
