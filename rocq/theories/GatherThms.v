From Coq Require Import Arith List ZArith Bool Lia Relations.
From Verif Require Import NdArray LocalNumberingModel IncidenceModel IncidenceSpec MeshSpec GatherCore GatherModel GatherProofs GatherSpec.
From Verif Require Import IncidenceProofs IncidenceThms.
Import ListNotations.

Lemma nth_error_indices sh ix r : ravelF sh ix = Some r -> nth_error (indices sh) r = Some ix.
Proof.
  intros H. pose proof (ravelF_lt _ _ _ H) as Hlt. pose proof (ravelF_indices_seq sh) as E.
  apply (f_equal (fun l => nth_error l r)) in E. rewrite !nth_error_map, nth_error_seq in E.
  apply Nat.ltb_lt in Hlt. rewrite Hlt in E. simpl in E.
  destruct (nth_error (indices sh) r) as [iy|]; [|discriminate]. simpl in E. injection E as E. f_equal. eapply ravelF_inj; eauto.
Qed.
Lemma length_indices sh : length (indices sh) = prodl sh.
Proof. rewrite <- (map_length (ravelF sh)), ravelF_indices_seq, map_length, seq_length. reflexivity. Qed.

Lemma grow_nth (f : slot -> Z) arrs : forall k b c a ix i, consec b arrs -> nth_error arrs c = Some a -> aget a ix = Some i ->
  nth_error (concat (map (fun cs => map (fun ix => f (fst cs :: ix)) (indices (snd cs)))
              (combine (seq k (length arrs)) (map a_shape arrs)))) (i - b) = Some (f ((k + c) :: ix)).
Proof.
  induction arrs as [|a0 arrs IH]; intros k b [|c] a ix i Hc Ha Hg; simpl in *; try discriminate.
  - injection Ha as ->. destruct Hc as [<- _]. pose proof (aget_range _ _ _ Hg) as Hr. unfold aget in Hg.
    destruct (ravelF (a_shape a) ix) as [r|] eqn:E; [|discriminate]. injection Hg as <-.
    replace (a_base a + r - a_base a) with r by lia. rewrite nth_error_app1.
    + rewrite nth_error_map, (nth_error_indices _ _ _ E). simpl. now rewrite Nat.add_0_r.
    + rewrite map_length, length_indices. eapply ravelF_lt; eauto.
  - destruct Hc as [Hb Hc]. pose proof (consec_range _ _ _ _ _ _ Hc Ha Hg) as Hr. rewrite nth_error_app2.
    + rewrite map_length, length_indices. change (prodl (a_shape a0)) with (asize a0).
      replace (i - b - asize a0) with (i - (b + asize a0)) by lia. rewrite (IH (S k) _ c a ix i Hc Ha Hg). do 3 f_equal. lia.
    + rewrite map_length, length_indices. change (prodl (a_shape a0)) with (asize a0). lia.
Qed.
Lemma grow_length (f : slot -> Z) arrs : length (grow f (map a_shape arrs)) = total arrs.
Proof.
  unfold grow. rewrite map_length. generalize 0. induction arrs as [|a arrs IH]; intros k; simpl; auto.
  rewrite app_length, map_length, length_indices, IH. reflexivity.
Qed.
Lemma grow_num (f : slot -> Z) arrs c ix i : consec 0 arrs -> num (Some arrs) c ix i ->
  nth_error (grow f (map a_shape arrs)) i = Some (f (c :: ix)).
Proof.
  intros Hc (l & a & [= <-] & Ha & Hg). unfold grow. rewrite map_length.
  pose proof (grow_nth f arrs 0 0 c a ix i Hc Ha Hg) as H. now rewrite Nat.sub_0_r in H.
Qed.

Section Bridge.
  Context {N : nat} {d : Z} {mp : emap} {rule : nat -> option nat -> decision}
          {sl : nat -> list slot} {bs : nat -> list slot} {attach : nat -> nat -> list (nat * nat)}
          {ts : list task} {arrs : list arr} {degs : list nat}.
  Notation slots := (@slots_of sl bs).
  Notation EQV := (@eqv N mp sl op_side bs attach ts).
  Context (OK : @loop_ok N d mp rule sl op_side bs attach ts).
  Context (Hcon : consec 0 arrs).
  Context (Hcover : forall c ix, In (c :: ix) (flat_map slots ts) <-> exists i, num (Some arrs) c ix i).
  Context (Hnil : ~ In [] (flat_map slots ts)).
  Context (Hshared : forall e e' c ix c' ix' i i', e < N -> e' < N -> num (Some arrs) c ix i -> num (Some arrs) c' ix' i' ->
    (EQV (e, c :: ix) (e', c' :: ix') <-> shared (Some arrs) degs N mp (e, i) (e', i'))).

  Lemma bridge : exists gm,
    rows_of N d (map a_shape arrs) (do_elements d mp rule sl op_side bs attach (seq 0 N) ts ([], 0)) = Some gm /\
    numbers gm N (total arrs) (shared (Some arrs) degs N mp).
  Proof.
    destruct (loop_correct OK) as (w & cur & E & HI). rewrite E. eexists. split; [reflexivity|].
    destruct (consec_bijective arrs (total arrs) Hcon eq_refl) as (B1 & B2 & B3).
    set (gm := map (fun e => grow (look d w e) (map a_shape arrs)) (seq 0 N)).
    assert (forall e, nth_error gm e = if e <? N then Some (grow (look d w e) (map a_shape arrs)) else None) as Hrow.
    { intros e. unfold gm. rewrite nth_error_map, nth_error_seq. destruct (e <? N); auto. }
    assert (forall e i v, gm_at gm (e, i) v <-> e < N /\ exists c ix, num (Some arrs) c ix i /\ v = look d w e (c :: ix)) as Hat.
    { intros e i v. unfold gm_at. simpl. rewrite Hrow. split.
      - intros (row & H1 & H2). destruct (Nat.ltb_spec e N) as [He|]; [|discriminate]. injection H1 as <-. split; auto.
        assert (i < total arrs) as Hi by (rewrite <- (grow_length (look d w e)); apply nth_error_Some; congruence).
        destruct (B3 i Hi) as (c & ix & Hn). exists c, ix. split; auto. rewrite (grow_num _ _ _ _ _ Hcon Hn) in H2. congruence.
      - intros (He & c & ix & Hn & ->). apply Nat.ltb_lt in He. rewrite He. eexists. split; [reflexivity|]. now apply grow_num. }
    split; [unfold gm; now rewrite map_length, seq_length|]. split.
    { apply Forall_forall. intros row Hr. apply in_map_iff in Hr as (e & <- & _). apply grow_length. }
    assert (forall e c ix i, e < N -> num (Some arrs) c ix i -> @all_pos N sl bs ts (e, c :: ix)) as Hall.
    { intros e c ix i He Hn. split; auto. simpl. apply Hcover. eauto. }
    exists cur. split; [|split].
    - intros [e i] v Hv. apply Hat in Hv as (He & c & ix & Hn & ->).
      destruct (inv_num _ _ _ _ _ HI _ (Hall e c ix i He Hn)) as (k & Hk & Ek). simpl in Ek. lia.
    - intros k Hk. destruct (inv_onto _ _ _ _ _ HI (Z.to_nat k)) as ([e a] & (He & Ha) & Ek); [lia|]. simpl in *.
      destruct a as [|c ix].
      + destruct (Hnil Ha).
      + apply Hcover in Ha as Hn. destruct Hn as (i & Hn). exists (e, i). apply Hat. split; auto. exists c, ix. split; auto. lia.
    - intros [e i] [e' i'] v v' Hv Hv'. apply Hat in Hv as (He & c & ix & Hn & ->). apply Hat in Hv' as (He' & c' & ix' & Hn' & ->).
      rewrite <- (Hshared e e' c ix c' ix' i i' He He' Hn Hn').
      apply (inv_eq _ _ _ _ _ HI (e, c :: ix) (e', c' :: ix')); eauto.
  Qed.
End Bridge.

Lemma op_even a : op_side (2 * a) = 2 * a + 1.
Proof. unfold op_side. rewrite Nat.even_mul. reflexivity. Qed.
Lemma op_odd a : op_side (2 * a + 1) = 2 * a.
Proof. unfold op_side. rewrite Nat.even_add, Nat.even_mul. simpl. lia. Qed.
Lemma side_cases n s : s < 2 * n -> exists a, a < n /\ (s = 2 * a \/ s = 2 * a + 1).
Proof. intros H. destruct (Nat.Even_or_Odd s) as [[a E]|[a E]]; exists a; lia. Qed.

Lemma Forall2_nth {A B} (R : A -> B -> Prop) l l' i a b : Forall2 R l l' -> nth_error l i = Some a -> nth_error l' i = Some b -> R a b.
Proof. intros H; revert i; induction H; intros [|i]; simpl; try discriminate; [congruence|eauto]. Qed.
Lemma Forall2_len {A B} (R : A -> B -> Prop) l l' : Forall2 R l l' -> length l = length l'.
Proof. induction 1; simpl; auto. Qed.
Lemma Forall2_map_same {T A B} (R : A -> B -> Prop) (f : T -> A) (g : T -> B) l :
  (forall t, In t l -> R (f t) (g t)) -> Forall2 R (map f l) (map g l).
Proof. induction l; simpl; intros H; constructor; auto. Qed.

Section Mp.
  Context {ndim N : nat} {mp : emap} (Hc : consistent ndim N mp) (Hs : no_self ndim N mp).
  Lemma mp_good e s m : e < N -> s < 2 * ndim -> mp e s = Some m ->
    m < N /\ m <> e /\ op_side s < 2 * ndim /\ mp m (op_side s) = Some e /\ op_side (op_side s) = s.
  Proof.
    intros He Hsd Hm. destruct Hc as [C1 C2]. destruct (side_cases _ _ Hsd) as (a & Ha & [->| ->]).
    - rewrite op_even, op_odd. assert (m < N) as HmN.
      { eapply (C1 e a 0); eauto. now rewrite Nat.add_0_r. }
      assert (mp m (2 * a + 1) = Some e) as Hb by (apply C2; auto).
      repeat split; auto; [|lia]. intros ->. eapply Hs; eauto.
    - rewrite op_odd, op_even. assert (m < N) as HmN by (eapply (C1 e a 1); eauto).
      repeat split; auto; [|lia|].
      + intros ->. eapply Hs; eauto.
      + apply C2; auto.
  Qed.
End Mp.

Section Sides.
  Context {N : nat} {d : Z} {mp : emap} {rule : nat -> option nat -> decision}
          {sl : nat -> list slot} {bs : nat -> list slot} {attach : nat -> nat -> list (nat * nat)}
          {ts : list task} {arrs : list arr} {degs : list nat}.
  Context (Hcm : consistent (length degs) N mp) (Hself : no_self (length degs) N mp).
  Context (Hcon : consec 0 arrs).
  Context (Hnd : NoDup (flat_map (@slots_of sl bs) ts)).
  Context (Hsides : forall s, In (Side s) ts <-> s < 2 * length degs).
  Context (Hng : forall g, ~ In (Group g) ts).
  Context (Hrule : forall e s, e < N -> s < 2 * length degs ->
      match mp e s with
      | None => rule e None = New
      | Some m => (m < e -> rule e (Some m) = From m) /\ (e < m -> rule e (Some m) = New)
      end).
  Context (Hpair : forall a p, nth_error degs a = Some p ->
    Forall2 (fun x y => exists c ix, x = c :: ix /\ y = c :: set_at a 0 ix /\ nth_error ix a = Some p /\
      exists_dof (Some arrs) c ix /\ exists_dof (Some arrs) c (set_at a 0 ix)) (sl (2 * a + 1)) (sl (2 * a))).
  Context (Hon : forall a p c ix i, nth_error degs a = Some p -> num (Some arrs) c ix i -> nth_error ix a = Some p ->
    In (c :: ix) (sl (2 * a + 1))).

  Lemma sides_ok : @loop_ok N d mp rule sl op_side bs attach ts.
  Proof.
    constructor; auto.
    - intros e s He Hs. apply Hsides in Hs. now apply Hrule.
    - intros e s m He Hs Hm. apply Hsides in Hs. destruct (mp_good Hcm Hself e s m He Hs Hm) as (A1 & A2 & A3 & A4 & A5).
      repeat split; auto; [now apply Hsides|]. destruct (side_cases _ _ Hs) as (a & Ha & H).
      apply nth_error_Some in Ha. destruct (nth_error degs a) as [p|] eqn:Ep; [|congruence].
      assert (length (sl (2 * a + 1)) = length (sl (2 * a))) as Hl by exact (Forall2_len _ _ _ (Hpair a p Ep)). destruct H as [->| ->]; rewrite ?op_even, ?op_odd; [exact Hl|now symmetry].
    - intros g Hg. destruct (Hng g Hg).
    - intros e g He Hg. destruct (Hng g Hg).
  Qed.

  Notation EQV := (@eqv N mp sl op_side bs attach ts).
  Notation TOUCH := (touch (Some arrs) degs N mp).

  Lemma touch_gl x y : TOUCH x y -> exists c ix c' ix', num (Some arrs) c ix (snd x) /\ num (Some arrs) c' ix' (snd y) /\
    @gl N mp sl op_side ts (fst x, c :: ix) (fst y, c' :: ix').
  Proof.
    intros (a & p & c & ix & Hx & Ep & Hm & Hn & Hi & Hn'). exists c, ix, c, (set_at a 0 ix). split; auto. split; auto.
    pose proof (Hon a p c ix _ Ep Hn Hi) as Hin. apply In_nth_error in Hin as (k & Hk).
    assert (a < length degs) as Ha by (apply nth_error_Some; congruence).
    assert (length (sl (2 * a + 1)) = length (sl (2 * a))) as Hl by exact (Forall2_len _ _ _ (Hpair a p Ep)).
    assert (k < length (sl (2 * a))) as Hkl by (rewrite <- Hl; apply nth_error_Some; unfold slot in *; congruence).
    apply nth_error_Some in Hkl. destruct (nth_error (sl (2 * a)) k) as [y'|] eqn:Ey; [|congruence].
    destruct (Forall2_nth _ _ _ _ _ _ (Hpair a p Ep) Hk Ey) as (c1 & ix1 & E1 & -> & _). injection E1 as <- <-.
    exists (2 * a + 1), k. simpl fst. simpl snd. rewrite op_odd. repeat split; auto. apply Hsides. lia.
  Qed.

  Lemma gl_touch e e' c ix c' ix' i i' : num (Some arrs) c ix i -> num (Some arrs) c' ix' i' ->
    @gl N mp sl op_side ts (e, c :: ix) (e', c' :: ix') -> TOUCH (e, i) (e', i') \/ TOUCH (e', i') (e, i).
  Proof.
    intros Hn Hn' (s & k & He & Hs & Hm & H1 & H2). simpl in *. apply Hsides in Hs.
    destruct (mp_good Hcm Hself e s e' He Hs Hm) as (A1 & A2 & A3 & A4 & A5).
    destruct (side_cases _ _ Hs) as (a & Ha & E). apply nth_error_Some in Ha. destruct (nth_error degs a) as [p|] eqn:Ep; [|congruence].
    destruct E as [->| ->].
    - right. rewrite op_even in *. destruct (Forall2_nth _ _ _ _ _ _ (Hpair a p Ep) H2 H1) as (c1 & ix1 & E1 & E2 & E3 & _).
      injection E1 as -> ->. injection E2 as -> ->. exists a, p, c1, ix1. simpl. auto 10.
    - left. rewrite op_odd in *. destruct (Forall2_nth _ _ _ _ _ _ (Hpair a p Ep) H1 H2) as (c1 & ix1 & E1 & E2 & E3 & _).
      injection E1 as -> ->. injection E2 as -> ->. exists a, p, c1, ix1. simpl. auto 10.
  Qed.

  Lemma sides_shared e e' c ix c' ix' i i' : e < N -> e' < N -> num (Some arrs) c ix i -> num (Some arrs) c' ix' i' ->
    (EQV (e, c :: ix) (e', c' :: ix') <-> shared (Some arrs) degs N mp (e, i) (e', i')).
  Proof.
    intros He He' Hn Hn'. destruct (consec_bijective arrs (total arrs) Hcon eq_refl) as (B1 & B2 & B3).
    assert (forall c ix i i', num (Some arrs) c ix i -> num (Some arrs) c ix i' -> i = i') as Bf.
    { intros ? ? ? ? (l & a & [= <-] & Ha & Hg) (l' & a' & [= <-] & Ha' & Hg'). congruence. }
    split.
    - intros [[= <- <- <-]|[H|H]].
      + assert (i = i') as -> by eauto. apply rst_refl.
      + destruct (gl_touch _ _ _ _ _ _ _ _ Hn Hn' H); [apply rst_step; auto|apply rst_sym, rst_step; auto].
      + destruct H as (g & g' & k & _ & Hg & _). destruct (Hng g Hg).
    - intros H.
      assert (forall x y, shared (Some arrs) degs N mp x y -> x = y \/ exists c ix c' ix', num (Some arrs) c ix (snd x) /\
        num (Some arrs) c' ix' (snd y) /\ EQV (fst x, c :: ix) (fst y, c' :: ix')) as Hgen.
      { pose proof sides_ok as OK. clear H Hn Hn' He He'. clear c ix c' ix' e e' i i'.
        intros x y H. induction H as [x y H|x|x y H [->|IH]|x y z H [->|IH] H' [->|IH']]; auto.
        - right. destruct (touch_gl _ _ H) as (c & ix & c' & ix' & H1 & H2 & H3). exists c, ix, c', ix'. repeat split; auto. right. auto.
        - destruct IH as (c & ix & c' & ix' & H1 & H2 & H3). right. exists c', ix', c, ix. repeat split; auto. now apply (eqv_sym OK).
        - destruct IH as (c & ix & c' & ix' & H1 & H2 & H3). destruct IH' as (k & kx & k' & kx' & H4 & H5 & H6).
          destruct (B2 _ _ _ _ _ H2 H4) as [<- <-]. right. exists c, ix, k', kx'. repeat split; auto. eapply (eqv_trans OK); eauto. }
      destruct (Hgen _ _ H) as [[= <- <-]|(k & kx & k' & kx' & H1 & H2 & H3)].
      + destruct (B2 _ _ _ _ _ Hn Hn') as [<- <-]. left. auto.
      + simpl in *. destruct (B2 _ _ _ _ _ Hn H1) as [<- <-]. destruct (B2 _ _ _ _ _ Hn' H2) as [<- <-]. auto.
  Qed.

  Context (Hnil : ~ In [] (flat_map (@slots_of sl bs) ts)).
  Context (Hcover : forall c ix, In (c :: ix) (flat_map (@slots_of sl bs) ts) <-> exists i, num (Some arrs) c ix i).
  Lemma sides_numbers : exists gm,
    rows_of N d (map a_shape arrs) (do_elements d mp rule sl op_side bs attach (seq 0 N) ts ([], 0)) = Some gm /\
    numbers gm N (total arrs) (shared (Some arrs) degs N mp).
  Proof. apply bridge; auto; [apply sides_ok|apply sides_shared]. Qed.
End Sides.
