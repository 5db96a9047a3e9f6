(** Lemmas on the mass matrices: the bilinear forms of blocks. *)
From Coq Require Import List Arith Reals Lia Lra.
From Verif Require Import PolyModel PolySpec PolyProofs LocalNumberingModel TensorModel TensorSpec TensorThms MappingModel MappingSpec JacobianModel JacobianSpec JacobianProofs ReduceModel ReduceForms ReduceRound ReduceRound3 MassModel MassSpec.
Import ListNotations.
Local Open Scope R_scope.
Local Notation i0 := 0%nat.
Local Notation i1 := 1%nat.
Local Notation i2 := 2%nat.
Local Notation mat := MappingModel.mat.

(** * blocks *)
Definition bil (n m : nat) (A : nat -> nat -> R) (f g : nat -> R) : R := total n (fun i => total m (fun j => f i * A i j * g j)).
(** the value at column [m] of the sum of rows *)
Definition comb (b : fm) (f : nat -> R) (m : nat) : R := total (fm_rows b) (fun i => f i * fm_at b i m).

Lemma bil_einsum2 W b0 b1 f g : bil (fm_rows b0) (fm_rows b1) (fm_at (einsum2 W b0 b1)) f g =
  total (fm_cols b0) (fun m => W m * comb b0 f m * comb b1 g m).
Proof.
  unfold bil, einsum2, comb. cbn [fm_at].
  transitivity (total (fm_rows b0) (fun i => total (fm_rows b1) (fun j => total (fm_cols b0) (fun m => W m * (f i * fm_at b0 i m) * (g j * fm_at b1 j m))))).
  - apply total_ext. intros i _. apply total_ext. intros j _. rewrite np_sum_total, <- total_scal, <- total_scal_r. apply total_ext. intros m _. ring.
  - rewrite (total_ext (fm_rows b0) _ (fun i => total (fm_cols b0) (fun m => total (fm_rows b1) (fun j => W m * (f i * fm_at b0 i m) * (g j * fm_at b1 j m))))) by (intros; apply total_swap).
    rewrite total_swap. apply total_ext. intros m _.
    rewrite (total_ext _ _ (fun i => W m * (f i * fm_at b0 i m) * total (fm_rows b1) (fun j => g j * fm_at b1 j m))) by (intros; apply total_scal).
    rewrite total_scal_r, total_scal. reflexivity.
Qed.
Lemma rows_einsum2 W b0 b1 : fm_rows (einsum2 W b0 b1) = fm_rows b0.
Proof. reflexivity. Qed.
Lemma bil_ft n m A f g : bil n m (fm_at (ft A)) f g = bil m n (fm_at A) g f.
Proof. unfold bil, ft. cbn [fm_at]. rewrite total_swap. apply total_ext. intros j _. apply total_ext. intros i _. ring. Qed.
Lemma bil_neg n m A f g : bil n m (fm_at (fneg A)) f g = - bil n m (fm_at A) f g.
Proof.
  unfold bil, fneg. cbn [fm_at]. rewrite <- total_opp. apply total_ext. intros i _. rewrite <- total_opp. apply total_ext. intros j _. ring.
Qed.
Lemma bil_ext n m A B f g : (forall i j, (i < n)%nat -> (j < m)%nat -> A i j = B i j) -> bil n m A f g = bil n m B f g.
Proof. intros H. apply total_ext. intros i Hi. apply total_ext. intros j Hj. now rewrite H. Qed.
Lemma bil_0 n m A f g : (forall i j, (i < n)%nat -> (j < m)%nat -> A i j = 0) -> bil n m A f g = 0.
Proof. intros H. apply total_0. intros i Hi. apply total_0. intros j Hj. rewrite H by assumption. ring. Qed.
Lemma bil_add_l n n' m A f g : bil (n + n') m A f g = bil n m A f g + bil n' m (fun i j => A (n + i)%nat j) (fun i => f (n + i)%nat) g.
Proof. unfold bil. now rewrite total_add. Qed.
Lemma bil_add_r n m m' A f g : bil n (m + m') A f g = bil n m A f g + bil n m' (fun i j => A i (m + j)%nat) f (fun j => g (m + j)%nat).
Proof. unfold bil. rewrite <- total_plus. apply total_ext. intros. now rewrite total_add. Qed.
Lemma bilinear_bil M a b : bilinear M a b = bil (fm_rows M) (fm_cols M) (fm_at M) (cochain a) (cochain b).
Proof. reflexivity. Qed.

Definition blk (o : option fm) (i j : nat) : R := match o with Some B => fm_at B i j | None => 0 end.
Lemma bil_some n m A f g : bil n m (blk (Some A)) f g = bil n m (fm_at A) f g.
Proof. reflexivity. Qed.
Lemma bil_none n m f g : bil n m (blk None) f g = 0.
Proof. now apply bil_0. Qed.
Lemma locate2 n0 n1 i : (i < n0)%nat -> locate [n0; n1] i = Some (0%nat, i).
Proof. intros H. cbn [locate]. now rewrite (proj2 (Nat.ltb_lt _ _) H). Qed.
Lemma locate_S n ns i : locate (n :: ns) (n + i) = match locate ns i with Some (b, o) => Some (S b, o) | None => None end.
Proof. cbn [locate]. destruct (Nat.ltb_spec (n + i) n); [lia |]. now replace (n + i - n)%nat with i by lia. Qed.
Lemma locate_0 n ns i : (i < n)%nat -> locate (n :: ns) i = Some (0%nat, i).
Proof. intros H. cbn [locate]. now rewrite (proj2 (Nat.ltb_lt _ _) H). Qed.

Ltac loc := repeat first [rewrite locate_0 by assumption | rewrite locate_S]; cbn [nth].
Lemma bil_bmat2 n0 n1 A00 A01 A10 A11 a b :
  bilinear (bmat [n0; n1] [[A00; A01]; [A10; A11]]) a b =
    bil n0 n0 (blk A00) (cochain a) (cochain b) + bil n0 n1 (blk A01) (cochain a) (fun j => cochain b (n0 + j)%nat)
    + bil n1 n0 (blk A10) (fun i => cochain a (n0 + i)%nat) (cochain b) + bil n1 n1 (blk A11) (fun i => cochain a (n0 + i)%nat) (fun j => cochain b (n0 + j)%nat).
Proof.
  rewrite bilinear_bil. unfold bmat at 1 2. cbn [fm_rows fm_cols list_sum fold_right]. replace (n0 + (n1 + 0))%nat with (n0 + n1)%nat by lia.
  rewrite bil_add_l, !bil_add_r. rewrite <- Rplus_assoc. repeat apply (f_equal2 Rplus).
  all: apply bil_ext; intros i j Hi Hj; unfold bmat; cbn [fm_at]; loc; reflexivity.
Qed.
Lemma bil_bmat3 n0 n1 n2 A00 A01 A02 A10 A11 A12 A20 A21 A22 a b :
  let a0 := cochain a in let a1 i := cochain a (n0 + i)%nat in let a2 i := cochain a (n0 + (n1 + i))%nat in
  let b0 := cochain b in let b1 i := cochain b (n0 + i)%nat in let b2 i := cochain b (n0 + (n1 + i))%nat in
  bilinear (bmat [n0; n1; n2] [[A00; A01; A02]; [A10; A11; A12]; [A20; A21; A22]]) a b =
    (bil n0 n0 (blk A00) a0 b0 + (bil n0 n1 (blk A01) a0 b1 + bil n0 n2 (blk A02) a0 b2))
    + ((bil n1 n0 (blk A10) a1 b0 + (bil n1 n1 (blk A11) a1 b1 + bil n1 n2 (blk A12) a1 b2))
    + (bil n2 n0 (blk A20) a2 b0 + (bil n2 n1 (blk A21) a2 b1 + bil n2 n2 (blk A22) a2 b2))).
Proof.
  intros. rewrite bilinear_bil. unfold bmat at 1 2. cbn [fm_rows fm_cols list_sum fold_right]. replace (n0 + (n1 + (n2 + 0)))%nat with (n0 + (n1 + n2))%nat by lia.
  rewrite !bil_add_l, !bil_add_r. repeat apply (f_equal2 Rplus).
  all: apply bil_ext; intros i j Hi Hj; unfold bmat; cbn [fm_at]; loc; reflexivity.
Qed.

(** the off-diagonal block [o] is the one with the weights [W] *)
Definition off (b0 b1 : fm) (W : nat -> R) (o : option fm) : Prop :=
  forall f g, bil (fm_rows b0) (fm_rows b1) (blk o) f g = total (fm_cols b0) (fun m => W m * comb b0 f m * comb b1 g m).
Lemma off_some b0 b1 W : off b0 b1 W (Some (einsum2 W b0 b1)).
Proof. intros f g. rewrite bil_some. apply bil_einsum2. Qed.
Lemma off_neg b0 b1 W : off b0 b1 (fun m => - W m) (Some (fneg (einsum2 W b0 b1))).
Proof. intros f g. rewrite bil_some, bil_neg, bil_einsum2, <- total_opp. apply total_ext. intros. ring. Qed.
Lemma off_none b0 b1 : off b0 b1 (fun _ => 0) None.
Proof. intros f g. rewrite bil_none. symmetry. apply total_0. intros. ring. Qed.
Lemma bil_ft_off b0 b1 W o f g : off b0 b1 W o -> bil (fm_rows b1) (fm_rows b0) (blk (option_map ft o)) f g = total (fm_cols b0) (fun m => W m * comb b0 g m * comb b1 f m).
Proof.
  intros H. rewrite <- H. destruct o as [A |]; cbn [option_map]; [rewrite !bil_some; apply bil_ft | now rewrite !bil_none].
Qed.
Lemma bil_two b0 b1 N W00 W01 W11 o a b : fm_cols b0 = N -> fm_cols b1 = N -> off b0 b1 W01 o ->
  let u := comb b0 (cochain a) in let v := comb b1 (fun i => cochain a (fm_rows b0 + i)%nat) in
  let u' := comb b0 (cochain b) in let v' := comb b1 (fun i => cochain b (fm_rows b0 + i)%nat) in
  bilinear (bmat [fm_rows b0; fm_rows b1] [[Some (einsum2 W00 b0 b0); o]; [option_map ft o; Some (einsum2 W11 b1 b1)]]) a b =
    total N (fun m => W00 m * u m * u' m + W01 m * (u m * v' m + v m * u' m) + W11 m * v m * v' m).
Proof.
  intros C0 C1 H u v u' v'. rewrite bil_bmat2, !bil_some, !bil_einsum2, H, (bil_ft_off _ _ _ _ _ _ H), C0, C1, <- !total_plus.
  apply total_ext. intros m _. fold u v u' v'. change (comb b0 (cochain a) m) with (u m). change (comb b0 (cochain b) m) with (u' m).
  change (comb b1 (fun i => cochain a (fm_rows b0 + i)%nat) m) with (v m). change (comb b1 (fun j => cochain b (fm_rows b0 + j)%nat) m) with (v' m). ring.
Qed.
Lemma bil_three b0 b1 b2 N W00 W11 W22 W01 W02 W12 o01 o02 o12 a b : fm_cols b0 = N -> fm_cols b1 = N -> fm_cols b2 = N ->
  off b0 b1 W01 o01 -> off b0 b2 W02 o02 -> off b1 b2 W12 o12 ->
  let u := comb b0 (cochain a) in let v := comb b1 (fun i => cochain a (fm_rows b0 + i)%nat) in let w := comb b2 (fun i => cochain a (fm_rows b0 + (fm_rows b1 + i))%nat) in
  let u' := comb b0 (cochain b) in let v' := comb b1 (fun i => cochain b (fm_rows b0 + i)%nat) in let w' := comb b2 (fun i => cochain b (fm_rows b0 + (fm_rows b1 + i))%nat) in
  bilinear (bmat [fm_rows b0; fm_rows b1; fm_rows b2]
    [[Some (einsum2 W00 b0 b0); o01; o02]; [option_map ft o01; Some (einsum2 W11 b1 b1); o12]; [option_map ft o02; option_map ft o12; Some (einsum2 W22 b2 b2)]]) a b =
    total N (fun m => W00 m * u m * u' m + W11 m * v m * v' m + W22 m * w m * w' m
      + W01 m * (u m * v' m + v m * u' m) + W02 m * (u m * w' m + w m * u' m) + W12 m * (v m * w' m + w m * v' m)).
Proof.
  intros C0 C1 C2 H01 H02 H12 u v w u' v' w'. rewrite bil_bmat3, !bil_some, !bil_einsum2, H01, H02, H12.
  rewrite (bil_ft_off _ _ _ _ _ _ H01), (bil_ft_off _ _ _ _ _ _ H02), (bil_ft_off _ _ _ _ _ _ H12), C0, C1, C2, <- !total_plus.
  apply total_ext. intros m _. fold u v w u' v' w'.
  change (comb b0 (cochain a) m) with (u m). change (comb b0 (cochain b) m) with (u' m).
  change (comb b1 (fun i => cochain a (fm_rows b0 + i)%nat) m) with (v m). change (comb b1 (fun j => cochain b (fm_rows b0 + j)%nat) m) with (v' m).
  change (comb b2 (fun i => cochain a (fm_rows b0 + (fm_rows b1 + i))%nat) m) with (w m). change (comb b2 (fun i => cochain b (fm_rows b0 + (fm_rows b1 + i))%nat) m) with (w' m). ring.
Qed.

(** * the arrays of [reconstruct] *)
Lemma einsum_comb b c v : einsum b c = Some v -> length c = fm_rows b /\ length v = fm_cols b /\
  forall m, (m < fm_cols b)%nat -> nth m v 0 = comb b (cochain c) m.
Proof.
  intros E. destruct (einsum_len _ _ _ E) as [Lc Lv]. split; [exact Lc |]. split; [exact Lv |].
  intros m Hm. destruct (einsum_at b c Lc) as (v' & E' & _ & H). rewrite E in E'. injection E' as <-. now apply H.
Qed.
Lemma comb_ext b f g m : (forall i, (i < fm_rows b)%nat -> f i = g i) -> comb b f m = comb b g m.
Proof. intros H. apply total_ext. intros i Hi. now rewrite H. Qed.
Lemma rec_1 b c v : einsums [b] [c] = Some [v] -> length v = fm_cols b /\ forall m, (m < fm_cols b)%nat -> nth m v 0 = comb b (cochain c) m.
Proof.
  cbn [einsums]. destruct (einsum b c) as [v' |] eqn:E; [| discriminate]. intros [= <-].
  now apply einsum_comb in E.
Qed.
Lemma rec_2 b0 b1 n0 n1 c u v : reconstruct [b0; b1] [n0; n1] c = Some [u; v] -> n0 = fm_rows b0 -> n1 = fm_rows b1 -> length c = (n0 + n1)%nat ->
  length u = fm_cols b0 /\ (forall m, (m < fm_cols b0)%nat -> nth m u 0 = comb b0 (cochain c) m) /\
  length v = fm_cols b1 /\ (forall m, (m < fm_cols b1)%nat -> nth m v 0 = comb b1 (fun i => cochain c (n0 + i)%nat) m).
Proof.
  unfold reconstruct. cbn [split_cochain einsums]. intros E E0 E1 L.
  destruct (einsum b0 _) as [u' |] eqn:Eu; [| discriminate]. destruct (einsum b1 _) as [v' |] eqn:Ev; [| discriminate]. injection E as <- <-.
  apply einsum_comb in Eu, Ev. destruct Eu as (L0 & Lu & Hu), Ev as (L1 & Lv & Hv).
  refine (conj Lu (conj _ (conj Lv _))); intros m Hm.
  - rewrite Hu by assumption. apply comb_ext. intros i Hi. apply slice_nth. now rewrite L0.
  - rewrite Hv by assumption. apply comb_ext. intros i Hi. apply slice_nth. now rewrite L1.
Qed.
Lemma rec_3 b0 b1 b2 n0 n1 n2 c u v w : reconstruct [b0; b1; b2] [n0; n1; n2] c = Some [u; v; w] ->
  n0 = fm_rows b0 -> n1 = fm_rows b1 -> n2 = fm_rows b2 -> length c = (n0 + n1 + n2)%nat -> (1 <= n2)%nat ->
  length u = fm_cols b0 /\ (forall m, (m < fm_cols b0)%nat -> nth m u 0 = comb b0 (cochain c) m) /\
  length v = fm_cols b1 /\ (forall m, (m < fm_cols b1)%nat -> nth m v 0 = comb b1 (fun i => cochain c (n0 + i)%nat) m) /\
  length w = fm_cols b2 /\ (forall m, (m < fm_cols b2)%nat -> nth m w 0 = comb b2 (fun i => cochain c (n0 + (n1 + i))%nat) m).
Proof.
  unfold reconstruct. cbn [split_cochain einsums]. intros E E0 E1 E2 L P.
  destruct (einsum b0 _) as [u' |] eqn:Eu; [| discriminate]. destruct (einsum b1 _) as [v' |] eqn:Ev; [| discriminate].
  destruct (einsum b2 _) as [w' |] eqn:Ew; [| discriminate]. injection E as <- <- <-.
  apply einsum_comb in Eu, Ev, Ew. destruct Eu as (L0 & Lu & Hu), Ev as (L1 & Lv & Hv), Ew as (L2 & Lw & Hw).
  refine (conj Lu (conj _ (conj Lv (conj _ (conj Lw _))))); intros m Hm.
  - rewrite Hu by assumption. apply comb_ext. intros i Hi. apply slice_nth. now rewrite L0.
  - rewrite Hv by assumption. apply comb_ext. intros i Hi. apply slice_nth. now rewrite L1.
  - rewrite Hw by assumption. apply comb_ext. intros i Hi. unfold cochain. rewrite last_nth by assumption. f_equal. lia.
Qed.

(** * sums over quadrature points *)
Lemma weights2_nth wx wy p q : (p < length wx)%nat -> (q < length wy)%nat ->
  nth (p + length wx * q) (weights2 wx wy) 0 = nth p wx 0 * nth q wy 0.
Proof. intros Hp Hq. unfold weights2. rewrite (rows_nth _ (length wx)); [| intros; apply map_length | assumption..]. now rewrite map_nth_lt. Qed.
Lemma weights2_len wx wy : length (weights2 wx wy) = (length wx * length wy)%nat.
Proof. unfold weights2. induction wy as [| y wy IH]; cbn; [lia |]. rewrite app_length, map_length, IH. lia. Qed.
Lemma weights3_nth wx wy wz p q r : (p < length wx)%nat -> (q < length wy)%nat -> (r < length wz)%nat ->
  nth (p + length wx * (q + length wy * r)) (weights3 wx wy wz) 0 = nth p wx 0 * nth q wy 0 * nth r wz 0.
Proof.
  intros Hp Hq Hr. unfold weights3. replace (p + length wx * (q + length wy * r))%nat with ((p + length wx * q) + (length wx * length wy) * r)%nat by ring.
  rewrite (rows_nth _ (length wx * length wy)); [| intros; rewrite map_length; apply weights2_len | nia | assumption].
  rewrite map_nth_lt by (rewrite weights2_len; nia). now rewrite weights2_nth.
Qed.
Lemma sum2 (qx qy : list R) f : total (length qy * length qx) f = total (length qx) (fun p => total (length qy) (fun q => f (p + length qx * q)%nat)).
Proof. apply total_prod. Qed.
Lemma sum3 (qx qy qz : list R) f : total (length qz * length qy * length qx) f =
  total (length qx) (fun p => total (length qy) (fun q => total (length qz) (fun r => f (p + length qx * (q + length qy * r))%nat))).
Proof. rewrite total_prod. apply total_ext. intros p _. now rewrite total_prod. Qed.

Lemma det_at_eq n M : (1 <= n <= 3)%nat -> det_at n M = determinant n M.
Proof. intros H. destruct n as [| [| [| [|]]]]; try lia; [rewrite det_expand1 | rewrite det_expand2 | rewrite det_expand3]; unfold det_at, jac_det; ring. Qed.
