(** A round of the serial solver: the best step, dimensions, success. *)
From Coq Require Import List Arith ZArith Bool Reals Lia Lra FunctionalExtensionality.
From Verif Require Import GmresModel GmresSpec GmresSums GmresSerial GmresThms GmresThms2.
Import ListNotations.
Local Open Scope R_scope.

Section Round3.
  Variable n : nat.
  Variable A : mat.
  Variable b : vec.
  Variable linsolve : nat -> mat -> vec -> option vec.

  Lemma fin_rel R m Z V H hat : fin n A R m Z V H hat ->
    forall k, (k < R - 1)%nat -> forall l, im n A m Z V k l = rsum (S (S k)) (fun i => H i k * V i l).
  Proof.
    intros (O & U & NZ & D & _) k K l. rewrite D by lia. replace (k =? R - 1)%nat with false by (symmetry; apply Nat.eqb_neq; lia).
    rewrite Rplus_0_r. apply rsum_more; [|lia]. intros i I. rewrite U by lia. lra.
  Qed.

  Lemma sround_best R m k Z x q d V H : (m + k = R)%nat -> solves linsolve R -> upper (snd q) ->
    sround n A b linsolve R m Z x q = Some (d, (V, H)) ->
    best_step n A b (in_augmented n A (res n A b x) m k (fun i => Z (m + i)%nat)) x (fun l => x l + d l).
  Proof.
    intros MK LS U E. destruct (sround_least n A b linsolve R m Z x q d V H LS U E) as ((y & ED) & MIN).
    destruct (sround_parts n A b linsolve R m Z x q d V H U E) as (U' & Z0 & _ & P). rewrite res_eq. set (r := sres n A b x) in *.
    assert (DIR : forall c l, rsum R (fun j => c j * dir m Z V j l) = rsum m (fun j => c j * V j l) + rsum k (fun i => c (m + i)%nat * Z (m + i)%nat l)).
    { intros c l. rewrite <- MK, rsum_plus. f_equal; apply rsum_ext; intros i I; unfold dir.
      - replace (i <? m)%nat with true by (symmetry; apply Nat.ltb_lt; lia). reflexivity.
      - replace (m + i <? m)%nat with false by (symmetry; apply Nat.ltb_ge; lia). reflexivity. }
    assert (SP : (forall j, (j < m)%nat -> spn m (krylov n A r) (V j)) /\ (forall j, (j < m)%nat -> spn m V (krylov n A r j))).
    { destruct (Nat.eq_dec R 0) as [->|R0]; [split; intros; lia|]. destruct (P ltac:(lia)) as (R2 & V0 & hat & F).
      pose proof (fin_rel R m Z V H hat F) as REL. destruct F as (O & _ & NZ & _). split; intros j J; apply (spn_mono (S j)); try lia.
      - apply (V_in_krylov n A m Z r (norm n r) V H (R - 1) V0 NZ REL); lia.
      - apply (krylov_in_V n A m Z r (norm n r) Z0 V H (R - 1) V0 REL); lia. }
    destruct SP as [VK KV]. split.
    - exists d. split; [|reflexivity].
      destruct (spn_sum m (krylov n A r) m V y VK) as [c C]. exists c, (fun i => y (m + i)%nat). intros l.
      rewrite !comb_eq, ED, DIR, C. reflexivity.
    - intros d' (c & e & D'). rewrite !res_eq, !len_norm.
      destruct (spn_sum m V m (krylov n A r) c KV) as [c' C'].
      replace (fun l => x l + d' l) with (fun l => x l + rsum R (fun j => (if (j <? m)%nat then c' j else e (j - m)%nat) * dir m Z V j l)).
      + apply MIN.
      + apply functional_extensionality. intros l. f_equal. rewrite DIR, D', !comb_eq, C'. f_equal; apply rsum_ext; intros i I.
        * replace (i <? m)%nat with true by (symmetry; apply Nat.ltb_lt; lia). reflexivity.
        * replace (m + i <? m)%nat with false by (symmetry; apply Nat.ltb_ge; lia). f_equal. f_equal. lia.
  Qed.

  Lemma augmented_none r m z d : in_augmented n A r m 0 z d <-> in_krylov n A r m d.
  Proof.
    split.
    - intros (c & e & D). exists c. intros l. rewrite D. unfold comb at 2. cbn. lra.
    - intros (c & D). exists c, (fun _ => 0). intros l. rewrite D. unfold comb at 3. cbn. lra.
  Qed.

  (** ** dimensions *)
  Definition unit_at (l : nat) : vec := fun i => if (i =? l)%nat then 1 else 0.
  Lemma dot_unit l a : (l < n)%nat -> dot n (unit_at l) a = a l.
  Proof.
    intros L. unfold dot. rewrite (rsum_one n _ l L).
    - unfold unit_at. rewrite Nat.eqb_refl. lra.
    - intros i _ N. unfold unit_at. apply Nat.eqb_neq in N. rewrite N. lra.
  Qed.
  Definition defect (V : nat -> vec) (R l : nat) : vec := fun i => unit_at l i - rsum R (fun j => V j l * V j i).
  Lemma defect_sq V R l : orth n R V -> (l < n)%nat -> dot n (defect V R l) (defect V R l) = 1 - rsum R (fun j => V j l * V j l).
  Proof.
    intros O L. unfold defect. rewrite dot_diff_sq.
    assert (dot n (fun l0 => rsum R (fun j => V j l * V j l0)) (unit_at l) = rsum R (fun j => V j l * V j l)) as ->.
    { rewrite dot_comb_l. apply rsum_ext. intros j J. rewrite dot_comm, dot_unit by exact L. reflexivity. }
    assert (dot n (fun l0 => rsum R (fun j => V j l * V j l0)) (fun l0 => rsum R (fun j => V j l * V j l0)) = rsum R (fun j => V j l * V j l)) as ->.
    { rewrite dot_comb_l. apply rsum_ext. intros j J. rewrite dot_comm, dot_comb_l.
      rewrite (rsum_one R _ j J) by (intros i I N; rewrite O by lia; apply Nat.eqb_neq in N; rewrite N; lra).
      rewrite O, Nat.eqb_refl by lia. lra. }
    rewrite (dot_unit l (unit_at l) L). unfold unit_at. rewrite Nat.eqb_refl. lra.
  Qed.
  Lemma defects_sum V R : orth n R V -> rsum n (fun l => dot n (defect V R l) (defect V R l)) = INR n - INR R.
  Proof.
    intros O. rewrite (rsum_ext n _ (fun l => 1 - rsum R (fun j => V j l * V j l))) by (intros; apply defect_sq; assumption).
    rewrite rsum_sub, rsum_const, rsum_swap. rewrite (rsum_ext R _ (fun _ => 1)).
    - rewrite rsum_const. lra.
    - intros j J. change (dot n (V j) (V j) = 1). rewrite O, Nat.eqb_refl by lia. reflexivity.
  Qed.
  Lemma orth_le V R : orth n R V -> (R <= n)%nat.
  Proof.
    intros O. apply INR_le. pose proof (defects_sum V R O) as D.
    assert (0 <= rsum n (fun l => dot n (defect V R l) (defect V R l))) by (apply rsum_nonneg; intros; apply dot_self). lra.
  Qed.
  Lemma orth_basis V u i : orth n n V -> (i < n)%nat -> u i = rsum n (fun j => dot n u (V j) * V j i).
  Proof.
    intros O I.
    assert (DZ : forall l, (l < n)%nat -> unit_at l i = rsum n (fun j => V j l * V j i)).
    { intros l L. pose proof (defects_sum V n O) as D. replace (INR n - INR n) with 0 in D by lra.
      apply (rsum_zero_each n) with (i := l) in D; [|intros; apply dot_self|exact L].
      pose proof (dot_self_zero n _ D i I) as E. unfold defect in E. lra. }
    rewrite (rsum_ext n _ (fun j => rsum n (fun l => u l * (V j l * V j i)))).
    - rewrite rsum_swap. rewrite (rsum_ext n _ (fun l => u l * unit_at l i)).
      + rewrite (rsum_one n _ i I); [unfold unit_at; rewrite Nat.eqb_refl; lra|]. intros l _ N. unfold unit_at.
        replace (i =? l)%nat with false by (symmetry; apply Nat.eqb_neq; lia). lra.
      + intros l L. rewrite rsum_mul, DZ by exact L. reflexivity.
    - intros j J. unfold dot. rewrite <- rsum_mul_r. apply rsum_ext. intros. lra.
  Qed.

  Lemma sround_dim R m Z x q d : upper (snd q) -> sround n A b linsolve R m Z x q = Some d -> (R <= n)%nat /\ R <> 1%nat.
  Proof.
    intros U E. destruct d as [d [V H]]. destruct (sround_parts n A b linsolve R m Z x q d V H U E) as (_ & _ & _ & P).
    destruct (Nat.eq_dec R 0) as [->|R0]; [lia|]. destruct (P ltac:(lia)) as (R2 & _ & hat & F). split; [|lia]. apply (orth_le V). exact (proj1 F).
  Qed.

  Lemma sround_exact Z x q d V H xs : solves linsolve n -> upper (snd q) ->
    sround n A b linsolve n n Z x q = Some (d, (V, H)) -> solution n A b xs -> norm n (sres n A b (fun l => x l + d l)) = 0.
  Proof.
    intros LS U E SOL. destruct (Nat.eq_dec n 0) as [->|N0]; [apply norm_of_zero; intros; lia|].
    destruct (sround_least n A b linsolve n n Z x q d V H LS U E) as (_ & MIN).
    destruct (sround_parts n A b linsolve n n Z x q d V H U E) as (_ & _ & _ & P). destruct (P ltac:(lia)) as (R2 & _ & hat & F).
    specialize (MIN (fun j => dot n (fun i => xs i - x i) (V j))).
    rewrite (norm_of_zero n (sres n A b (fun l => x l + rsum n _))) in MIN.
    - pose proof (norm_pos n (sres n A b (fun l => x l + d l))). lra.
    - intros i I. unfold sres. rewrite <- (SOL i I), apply_mv.
      rewrite (mv_ext n A A (fun l => x l + rsum n (fun j => dot n (fun i => xs i - x i) (V j) * dir n Z V j l)) xs i); [lra|reflexivity|].
      intros l L. rewrite (rsum_ext n _ (fun j => dot n (fun i => xs i - x i) (V j) * V j l)).
      + rewrite <- (orth_basis V (fun i => xs i - x i) l (proj1 F) L). lra.
      + intros j J. unfold dir. replace (j <? n)%nat with true by (symmetry; apply Nat.ltb_lt; lia). reflexivity.
  Qed.

  (** ** success *)
  Lemma ssteps_breakdown R c : forall j V H r be, (j + c = R)%nat -> (2 <= R)%nat -> be <> 0 -> arn n A R (fun _ _ => 0) j V H ->
    V 0%nat = (fun l => r l / be) -> independent n R (krylov n A r) ->
    ssteps n A R R (fun _ _ => 0) (seq j c) (V, H) <> None.
  Proof.
    induction c as [|c IH]; intros j V H r be E R2 B0 AR V0 IND; [discriminate|]. cbn [seq ssteps fst sstep].
    change (mv n A (dir R (fun _ _ => 0) V j)) with (im n A R (fun _ _ => 0) V j).
    destruct (Nat.ltb_spec j (R - 1)) as [L|L].
    - destruct (Req_EM_T (norm n (hatv n j (im n A R (fun _ _ => 0) V j) V)) 0) as [Z0|Z0].
      + exfalso. pose proof AR as (O & _ & NZ & REL).
        apply (breakdown_dependent n A R (fun _ _ => 0) r be B0 V H j V0 NZ REL O ltac:(lia) Z0).
        intros cc CC i I. set (cc' := fun i => if (i <? S (S j))%nat then cc i else 0).
        replace (cc i) with (cc' i) by (unfold cc'; replace (i <? S (S j))%nat with true by (symmetry; apply Nat.ltb_lt; lia); reflexivity).
        apply IND; [|lia]. intros l Ll. rewrite <- (CC l Ll), !comb_eq.
        rewrite (rsum_more (S (S j)) R (fun i => cc' i * krylov n A r i l)); [|intros q Q|lia].
        * apply rsum_ext. intros q Q. unfold cc'. replace (q <? S (S j))%nat with true by (symmetry; apply Nat.ltb_lt; lia). reflexivity.
        * unfold cc'. replace (q <? S (S j))%nat with false by (symmetry; apply Nat.ltb_ge; lia). lra.
      + apply (IH (S j) _ _ r be); try assumption; [lia|apply arn_step; assumption].
    - destruct (Nat.eqb_spec j 0) as [N|N]; [lia|]. assert (c = 0)%nat as -> by lia. discriminate.
  Qed.
  Lemma gram_regular R V H hat : injective n A -> fin n A R R (fun _ _ => 0) V H hat ->
    injective R (fun i k => rsum (S R) (fun l => H l i * H l k)).
  Proof.
    intros INJ F y Y.
    assert (dot n (fun l => rsum R (fun j => y j * im n A R (fun _ _ => 0) V j l)) (fun l => rsum R (fun j => y j * im n A R (fun _ _ => 0) V j l)) = 0) as D.
    { rewrite dot_comb_l. apply rsum_zero. intros j J. rewrite dot_comm, dot_comb_l.
      specialize (Y j J). rewrite apply_mv in Y. unfold mv in Y.
      rewrite (rsum_ext R _ (fun k => rsum (S R) (fun l => H l j * H l k) * y k)); [rewrite Y; lra|].
      intros k K. rewrite (gram n A R R (fun _ _ => 0) V H hat F) by assumption.
      rewrite (rsum_ext (S R) (fun l => H l k * H l j) (fun l => H l j * H l k)) by (intros; lra). lra. }
    pose proof (dot_self_zero n _ D) as DZ.
    assert (VZ : forall l, (l < n)%nat -> rsum R (fun j => y j * V j l) = 0).
    { apply INJ. intros i I. rewrite apply_mv, mv_comb. rewrite <- (DZ i I). apply rsum_ext. intros j J.
      rewrite (im_low n A R (fun _ _ => 0) V j J). reflexivity. }
    intros j J. assert (dot n (fun l => rsum R (fun j => y j * V j l)) (V j) = 0) as D2 by (apply rsum_zero; intros l L; rewrite VZ by exact L; lra).
    rewrite dot_comb_l in D2. rewrite (rsum_one R _ j J) in D2 by
      (intros i I N; rewrite (proj1 F) by lia; apply Nat.eqb_neq in N; rewrite N; lra).
    rewrite (proj1 F), Nat.eqb_refl in D2 by lia. lra.
  Qed.

  Lemma sround_success R x q : injective n A -> solves_regular linsolve R -> upper (snd q) -> R <> 1%nat -> norm n (sres n A b x) <> 0 ->
    independent n R (krylov n A (res n A b x)) -> sround n A b linsolve R R (fun _ _ => 0) x q <> None.
  Proof.
    intros INJ LS U R1 Z0 IND. rewrite res_eq in IND. unfold sround. destruct (Req_EM_T (norm n (sres n A b x)) 0) as [C|_]; [contradiction|].
    destruct (Nat.eq_dec R 0) as [->|R0].
    - cbn [seq ssteps]. unfold coefficients. destruct (linsolve 0%nat _ _) eqn:E; [discriminate|]. exfalso. revert E. apply LS. intros y _ i I. lia.
    - set (q1 := (fun i => if (i =? 0)%nat then _ else fst q i)).
      pose proof (first_arn n A b A R (fun _ _ => 0) x (fst q) (snd q) Z0 U) as AR. fold q1 in AR.
      pose proof (ssteps_breakdown R R 0 q1 (snd q) (sres n A b x) _ eq_refl ltac:(lia) Z0 AR eq_refl IND) as NN.
      destruct (ssteps n A R R (fun _ _ => 0) (seq 0 R) (q1, snd q)) as [[V H]|] eqn:E; [|contradiction].
      destruct (ssteps_fin n A R R (fun _ _ => 0) R 0 _ _ V H eq_refl ltac:(lia) AR E) as (hat & F & _).
      unfold coefficients. destruct (linsolve R _ _) eqn:EL; [discriminate|]. exfalso. revert EL. apply LS. exact (gram_regular R V H hat INJ F).
  Qed.
  Lemma sround_independent R m k Z x q d : (m + k = R)%nat -> upper (snd q) -> sround n A b linsolve R m Z x q = Some d ->
    independent n m (krylov n A (res n A b x)).
  Proof.
    intros MK U E. destruct d as [d [V H]]. destruct (sround_parts n A b linsolve R m Z x q d V H U E) as (_ & Z0 & _ & P).
    destruct (Nat.eq_dec R 0) as [R0|R0]; [intros c _ j J; lia|]. destruct (P ltac:(lia)) as (R2 & V0 & hat & F). rewrite res_eq.
    pose proof (fin_rel R m Z V H hat F) as REL. destruct F as (O & _ & NZ & _).
    apply (krylov_independent n A m Z (sres n A b x) (norm n (sres n A b x)) Z0 V H (R - 1) V0 NZ REL); try lia.
    replace (S (R - 1)) with R by lia. exact O.
  Qed.
End Round3.
