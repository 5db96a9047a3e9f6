(** The mass matrices are symmetric and positive definite. *)
From Coq Require Import List Arith Reals Lia Lra.
From Coquelicot Require Import Coquelicot.
From Verif Require Import PolyModel PolySpec PolyProofs PolyCalc NdArray LocalNumberingModel IncidenceModel IncidenceSpec IncidenceThms TensorModel TensorSpec TensorAct TensorThms MappingModel MappingSpec JacobianModel JacobianSpec JacobianProofs ReduceModel ReduceSpec ReduceProofs ReduceForms ReduceRound ReduceRound3 MassModel MassSpec MassProofs MassThms.
Import ListNotations.
Local Open Scope R_scope.
Local Notation i0 := 0%nat.
Local Notation i1 := 1%nat.
Local Notation i2 := 2%nat.
Local Notation mat := MappingModel.mat.

(** * symmetry *)
Definition unit (n i : nat) : list R := map (fun k => kronecker k i) (seq 0 n).
Lemma unit_nth n i k : (k < n)%nat -> nth k (unit n i) 0 = kronecker k i.
Proof. intros H. unfold unit. now rewrite nth_map_seq. Qed.
Lemma bilinear_unit M n i j : square M n -> (i < n)%nat -> (j < n)%nat -> bilinear M (unit n i) (unit n j) = fm_at M i j.
Proof.
  intros [Er Ec] Hi Hj. unfold bilinear. rewrite Er, Ec.
  rewrite (total_ext n _ (fun k => fm_at M k j * kronecker k i)); [now apply (total_kronecker n (fun k => fm_at M k j)) |].
  intros k Hk. rewrite (total_ext n _ (fun l => (nth k (unit n i) 0 * fm_at M k l) * kronecker l j)).
  - rewrite (total_kronecker n (fun l => nth k (unit n i) 0 * fm_at M k l)) by assumption. rewrite unit_nth by assumption. ring.
  - intros l Hl. rewrite (unit_nth n j l) by assumption. reflexivity.
Qed.
Lemma symmetric_from M n : square M n -> (forall a b, bilinear M a b = bilinear M b a) -> symmetric M.
Proof.
  intros S H. destruct S as [Er Ec]. split; [congruence |]. intros i j Hi Hj. rewrite Er in Hi, Hj.
  rewrite <- (bilinear_unit M n i j), <- (bilinear_unit M n j i) by (assumption || now split). apply H.
Qed.
Lemma symmetric_one W bfs M : mm_scalar W bfs = Some M -> symmetric M.
Proof.
  destruct bfs as [| b bfs]; [discriminate |]. intros [= <-]. split; [reflexivity |]. intros i j _ _. unfold einsum2. cbn [fm_at].
  rewrite !np_sum_total. apply total_ext. intros. ring.
Qed.
Lemma symmetric_1d_k0 J sx qx wx M : mm_m1n1k0 J sx qx wx = Some M -> symmetric M.
Proof. apply symmetric_one. Qed.
Lemma symmetric_1d_k1 J sx qx wx M : mm_m1n1k1 J sx qx wx = Some M -> symmetric M.
Proof. apply symmetric_one. Qed.
Lemma symmetric_2d_k0 J sx sy qx wx qy wy M : mm_m2n2k0 J sx sy qx wx qy wy = Some M -> symmetric M.
Proof. apply symmetric_one. Qed.
Lemma symmetric_2d_k2 J sx sy qx wx qy wy M : mm_m2n2k2 J sx sy qx wx qy wy = Some M -> symmetric M.
Proof. apply symmetric_one. Qed.
Lemma symmetric_3d_k0 J sx sy sz qx wx qy wy qz wz M : mm_m3n3k0 J sx sy sz qx wx qy wy qz wz = Some M -> symmetric M.
Proof. apply symmetric_one. Qed.
Lemma symmetric_3d_k3 J sx sy sz qx wx qy wy qz wz M : mm_m3n3k3 J sx sy sz qx wx qy wy qz wz = Some M -> symmetric M.
Proof. apply symmetric_one. Qed.
Lemma symmetric_two b0 b1 W00 W01 W11 o : fm_cols b0 = fm_cols b1 -> off b0 b1 W01 o ->
  symmetric (bmat [fm_rows b0; fm_rows b1] [[Some (einsum2 W00 b0 b0); o]; [option_map ft o; Some (einsum2 W11 b1 b1)]]).
Proof.
  intros C O. eapply symmetric_from; [split; reflexivity |]. intros a b.
  rewrite !(bil_two b0 b1 (fm_cols b0) W00 W01 W11 o _ _ eq_refl (eq_sym C) O). apply total_ext. intros. ring.
Qed.
Lemma symmetric_three b0 b1 b2 W00 W11 W22 W01 W02 W12 o01 o02 o12 : fm_cols b1 = fm_cols b0 -> fm_cols b2 = fm_cols b0 ->
  off b0 b1 W01 o01 -> off b0 b2 W02 o02 -> off b1 b2 W12 o12 ->
  symmetric (bmat [fm_rows b0; fm_rows b1; fm_rows b2]
    [[Some (einsum2 W00 b0 b0); o01; o02]; [option_map ft o01; Some (einsum2 W11 b1 b1); o12]; [option_map ft o02; option_map ft o12; Some (einsum2 W22 b2 b2)]]).
Proof.
  intros C1 C2 O1 O2 O3. eapply symmetric_from; [split; reflexivity |]. intros a b.
  rewrite !(bil_three b0 b1 b2 (fm_cols b0) W00 W11 W22 W01 W02 W12 o01 o02 o12 _ _ eq_refl C1 C2 O1 O2 O3). apply total_ext. intros. ring.
Qed.
Lemma some_sym (o : option fm) X M : o = Some X -> symmetric X -> o = Some M -> symmetric M.
Proof. intros -> H [= <-]. exact H. Qed.
Lemma symmetric_2d_inner J sx sy qx wx qy wy linear M : mm_m2n2k1_inner J sx sy qx wx qy wy linear = Some M -> symmetric M.
Proof.
  eapply some_sym; [reflexivity |]. destruct linear.
  - eapply (symmetric_two (kron (node_m sy qy) (edge_m sx qx)) (kron (edge_m sy qy) (node_m sx qx))); [reflexivity | apply off_none].
  - eapply (symmetric_two (kron (node_m sy qy) (edge_m sx qx)) (kron (edge_m sy qy) (node_m sx qx))); [reflexivity | apply off_some].
Qed.
Lemma symmetric_2d_outer J sx sy qx wx qy wy linear M : mm_m2n2k1_outer J sx sy qx wx qy wy linear = Some M -> symmetric M.
Proof.
  eapply some_sym; [reflexivity |]. destruct linear.
  - eapply (symmetric_two (kron (edge_m sy qy) (node_m sx qx)) (kron (node_m sy qy) (edge_m sx qx))); [reflexivity | apply off_none].
  - eapply (symmetric_two (kron (edge_m sy qy) (node_m sx qx)) (kron (node_m sy qy) (edge_m sx qx))); [reflexivity | apply off_neg].
Qed.
Lemma symmetric_3d_k1 J sx sy sz qx wx qy wy qz wz linear M : mm_m3n3k1 J sx sy sz qx wx qy wy qz wz linear = Some M -> symmetric M.
Proof.
  eapply some_sym; [reflexivity |]. destruct linear.
  - eapply (symmetric_three (kron (kron (node_m sz qz) (node_m sy qy)) (edge_m sx qx)) (kron (kron (node_m sz qz) (edge_m sy qy)) (node_m sx qx)) (kron (kron (edge_m sz qz) (node_m sy qy)) (node_m sx qx))); [reflexivity | reflexivity | apply off_none | apply off_none | apply off_none].
  - eapply (symmetric_three (kron (kron (node_m sz qz) (node_m sy qy)) (edge_m sx qx)) (kron (kron (node_m sz qz) (edge_m sy qy)) (node_m sx qx)) (kron (kron (edge_m sz qz) (node_m sy qy)) (node_m sx qx))); [reflexivity | reflexivity | apply off_some | apply off_some | apply off_some].
Qed.
Lemma symmetric_3d_k2 J sx sy sz qx wx qy wy qz wz linear M : mm_m3n3k2 J sx sy sz qx wx qy wy qz wz linear = Some M -> symmetric M.
Proof.
  eapply some_sym; [reflexivity |]. destruct linear.
  - eapply (symmetric_three (kron (kron (edge_m sz qz) (edge_m sy qy)) (node_m sx qx)) (kron (kron (edge_m sz qz) (node_m sy qy)) (edge_m sx qx)) (kron (kron (node_m sz qz) (edge_m sy qy)) (edge_m sx qx))); [reflexivity | reflexivity | apply off_none | apply off_none | apply off_none].
  - eapply (symmetric_three (kron (kron (edge_m sz qz) (edge_m sy qy)) (node_m sx qx)) (kron (kron (edge_m sz qz) (node_m sy qy)) (edge_m sx qx)) (kron (kron (node_m sz qz) (edge_m sy qy)) (edge_m sx qx))); [reflexivity | reflexivity | apply off_some | apply off_some | apply off_some].
Qed.

(** * sums of terms that are not negative *)
Lemma total_nonneg n f : (forall i, (i < n)%nat -> 0 <= f i) -> 0 <= total n f.
Proof. induction n as [| n IH]; intros H; cbn [total]; [lra |]. assert (0 <= f n) by (apply H; lia). assert (0 <= total n f) by (apply IH; intros; apply H; lia). lra. Qed.
Lemma total_null n f : (forall i, (i < n)%nat -> 0 <= f i) -> total n f = 0 -> forall i, (i < n)%nat -> f i = 0.
Proof.
  induction n as [| n IH]; intros H E i Hi; [lia |]. cbn [total] in E.
  assert (0 <= f n) by (apply H; lia). assert (0 <= total n f) by (apply total_nonneg; intros; apply H; lia).
  destruct (Nat.eq_dec i n) as [-> |]; [lra |]. apply IH; [intros; apply H; lia | lra | lia].
Qed.
Lemma total2_null n m f : (forall i j, (i < n)%nat -> (j < m)%nat -> 0 <= f i j) -> total n (fun i => total m (f i)) = 0 ->
  forall i j, (i < n)%nat -> (j < m)%nat -> f i j = 0.
Proof.
  intros H E i j Hi Hj. apply (total_null m (f i)); [intros; now apply H | | assumption].
  apply (total_null n (fun i => total m (f i))); [| exact E | assumption]. intros k Hk. apply total_nonneg. intros. now apply H.
Qed.
Lemma total3_null n m l f : (forall i j k, (i < n)%nat -> (j < m)%nat -> (k < l)%nat -> 0 <= f i j k) -> total n (fun i => total m (fun j => total l (f i j))) = 0 ->
  forall i j k, (i < n)%nat -> (j < m)%nat -> (k < l)%nat -> f i j k = 0.
Proof.
  intros H E i j k Hi Hj Hk. apply (total_null l (f i j)); [intros; now apply H | | assumption].
  apply (total2_null n m (fun i j => total l (f i j))); [| exact E | assumption..]. intros. apply total_nonneg. intros. now apply H.
Qed.

(** * independent functions *)
Definition independent (b : nat * (nat -> R -> R)) : Prop :=
  forall c : nat -> R, (forall x, total (fst b) (fun i => c i * snd b i x) = 0) -> forall i, (i < fst b)%nat -> c i = 0.
Lemma independent_nodal s : nodes_ok s -> independent (nodal s).
Proof.
  intros [I _] c H i Hi. cbn [fst] in Hi. rewrite <- (H (node s i)). cbn [fst snd]. symmetry.
  rewrite (total_ext _ _ (fun k => c k * kronecker k i)); [now apply total_kronecker |]. intros k Hk. now rewrite lagrange_node.
Qed.
Lemma independent_edges s : nodes_ok s -> independent (edges s).
Proof.
  intros Hs c H i Hi. cbn [fst snd] in *. set (ln := Some [mk_arr 0 [degree s]]).
  assert (Ec : forall k, (k < degree s)%nat -> rcoef c ln 0 [k] = c k).
  { intros k Hk. apply (rcoef_num c ln 0 [k] k). apply (num1_iff [mk_arr 0 [degree s]] 0 0 (degree s)); [reflexivity |]. exists k. auto. }
  pose proof (red_E c ln 0 s Hs i Hi) as E. rewrite Ec in E by assumption.
  eapply RInt_unique_R; [exact E |]. apply (is_RInt_ext (fun _ => 0)).
  - intros x _. symmetry. rewrite <- (H x). unfold form1. apply total_ext. intros k Hk. cbn [fst snd] in *. now rewrite Ec.
  - evar_last; [apply @is_RInt_const |]. apply (Rmult_0_r (node s (S i) - node s i)).
Qed.
Lemma independent2 x ln m bx by' : independent bx -> independent by' -> (forall a b, form2 x ln m bx by' a b = 0) ->
  forall i j, (i < fst bx)%nat -> (j < fst by')%nat -> rcoef x ln m [i; j] = 0.
Proof.
  intros Ix Iy H i j Hi Hj. apply (Iy (fun j => rcoef x ln m [i; j])); [| assumption]. intros b.
  apply (Ix (fun i => total (fst by') (fun j => rcoef x ln m [i; j] * snd by' j b))); [| assumption]. intros a.
  rewrite <- (H a b). apply total_ext. intros k _. rewrite <- total_scal_r. apply total_ext. intros. ring.
Qed.
Lemma independent3 x ln m bx by' bz : independent bx -> independent by' -> independent bz -> (forall a b c, form3 x ln m bx by' bz a b c = 0) ->
  forall i j k, (i < fst bx)%nat -> (j < fst by')%nat -> (k < fst bz)%nat -> rcoef x ln m [i; j; k] = 0.
Proof.
  intros Ix Iy Iz H i j k Hi Hj Hk. apply (Iz (fun k => rcoef x ln m [i; j; k])); [| assumption]. intros c.
  apply (Iy (fun j => total (fst bz) (fun k => rcoef x ln m [i; j; k] * snd bz k c))); [| assumption]. intros b.
  apply (Ix (fun i => total (fst by') (fun j => total (fst bz) (fun k => rcoef x ln m [i; j; k] * snd bz k c) * snd by' j b))); [| assumption]. intros a.
  rewrite <- (H a b c). apply total_ext. intros l _. rewrite <- total_scal_r. apply total_ext. intros n _. rewrite <- !total_scal_r. apply total_ext. intros. ring.
Qed.

(** polynomials that vanish on the grid of a good rule *)
Definition small (xs : list R) (b : nat * (nat -> R -> R)) : Prop := forall i, (i < fst b)%nat -> poly_of_size (length xs) (snd b i).
Lemma small_nodal s q w : nodes_ok s -> good_rule s q w -> small q (nodal s).
Proof. intros [I L] (_ & _ & Lq & _) i Hi. apply (ps_mono (length s)); [exact Lq |]. now apply ps_lagrange. Qed.
Lemma small_edges s q w : nodes_ok s -> good_rule s q w -> small q (edges s).
Proof. intros Hs (_ & _ & Lq & _) i Hi. apply (ps_mono (degree s)); [unfold degree; lia |]. now apply ps_edges. Qed.
Lemma form1_zero x ln m bx qx : increasing qx -> small qx bx -> (forall p, (p < length qx)%nat -> form1 x ln m bx (nth p qx 0) = 0) -> forall a, form1 x ln m bx a = 0.
Proof.
  intros Qx Sx H. apply (ps_zero qx); [exact Qx | | exact H]. unfold form1. apply ps_total. intros i Hi. now apply ps_scal, Sx.
Qed.
Lemma form2_zero x ln m bx by' qx qy : increasing qx -> increasing qy -> small qx bx -> small qy by' ->
  (forall p q, (p < length qx)%nat -> (q < length qy)%nat -> form2 x ln m bx by' (nth p qx 0) (nth q qy 0) = 0) -> forall a b, form2 x ln m bx by' a b = 0.
Proof.
  intros Qx Qy Sx Sy H a b. apply (ps_zero qx (fun t => form2 x ln m bx by' t b)); [exact Qx | now apply ps_form2_x |]. intros p Hp.
  apply (ps_zero qy (fun t => form2 x ln m bx by' (node qx p) t)); [exact Qy | now apply ps_form2_y |]. intros q Hq. now apply H.
Qed.
Lemma form3_zero x ln m bx by' bz qx qy qz : increasing qx -> increasing qy -> increasing qz -> small qx bx -> small qy by' -> small qz bz ->
  (forall p q r, (p < length qx)%nat -> (q < length qy)%nat -> (r < length qz)%nat -> form3 x ln m bx by' bz (nth p qx 0) (nth q qy 0) (nth r qz 0) = 0) ->
  forall a b c, form3 x ln m bx by' bz a b c = 0.
Proof.
  intros Qx Qy Qz Sx Sy Sz H a b c.
  apply (ps_zero qx (fun t => form3 x ln m bx by' bz t b c)); [exact Qx | now apply ps_form3 |]. intros p Hp.
  apply (ps_zero qy (fun t => form3 x ln m bx by' bz (node qx p) t c)); [exact Qy | now apply ps_form3 |]. intros q Hq.
  apply (ps_zero qz (fun t => form3 x ln m bx by' bz (node qx p) (node qy q) t)); [exact Qz | now apply ps_form3 |]. intros r Hr. now apply H.
Qed.

(** a cochain with no coefficient is zero *)
Lemma null_cochain ln N c : numbering_bijective ln N -> (forall m ix r, num ln m ix r -> rcoef (cochain c) ln m ix = 0) -> forall i, (i < N)%nat -> nth i c 0 = 0.
Proof. intros (_ & _ & B) H i Hi. destruct (B i Hi) as (m & ix & Nm). specialize (H m ix i Nm). now rewrite (rcoef_num _ _ _ _ _ Nm) in H. Qed.
(** * positive definite *)
Section Rules.
Variables (sx sy sz qx wx qy wy qz wz : list R).
Hypotheses (Gx : good_rule sx qx wx) (Gy : good_rule sy qy wy) (Gz : good_rule sz qz wz).
Lemma w_pos s q w p : good_rule s q w -> (p < length q)%nat -> 0 < nth p w 0.
Proof. intros (_ & _ & _ & H). apply H. Qed.
Lemma rule1_sign d g : on_rule1 qx (fun x => 0 < d x) -> (forall p, (p < length qx)%nat -> 0 <= g p) ->
  rule1 qx wx (fun x p => d x * g p) <= 0 -> forall p, (p < length qx)%nat -> g p = 0.
Proof.
  intros D G E p Hp. assert (N : forall p, (p < length qx)%nat -> 0 <= nth p wx 0 * (d (nth p qx 0) * g p)).
  { intros k Hk. apply Rmult_le_pos; [left; exact (w_pos _ _ _ _ Gx Hk) |]. apply Rmult_le_pos; [left; now apply D | now apply G]. }
  assert (Z : rule1 qx wx (fun x p => d x * g p) = 0) by (apply Rle_antisym; [exact E | apply total_nonneg; exact N]).
  pose proof (total_null _ _ N Z p Hp) as Q. cbn beta in Q.
  pose proof (w_pos _ _ _ _ Gx Hp). pose proof (D p Hp). apply Rmult_integral in Q. destruct Q as [Q | Q]; [lra |]. apply Rmult_integral in Q. destruct Q; lra.
Qed.
Lemma rule2_sign d g : on_rule2 qx qy (fun x y => 0 < d x y) -> (forall p q, (p < length qx)%nat -> (q < length qy)%nat -> 0 <= g p q) ->
  rule2 qx wx qy wy (fun x y p q => d x y * g p q) <= 0 -> forall p q, (p < length qx)%nat -> (q < length qy)%nat -> g p q = 0.
Proof.
  intros D G E p q Hp Hq. assert (N : forall p q, (p < length qx)%nat -> (q < length qy)%nat -> 0 <= nth p wx 0 * nth q wy 0 * (d (nth p qx 0) (nth q qy 0) * g p q)).
  { intros k l Hk Hl. pose proof (w_pos _ _ _ _ Gx Hk). pose proof (w_pos _ _ _ _ Gy Hl). apply Rmult_le_pos; [apply Rmult_le_pos; lra |].
    apply Rmult_le_pos; [left; now apply D | now apply G]. }
  assert (Z : rule2 qx wx qy wy (fun x y p q => d x y * g p q) = 0).
  { apply Rle_antisym; [exact E |]. apply total_nonneg. intros k Hk. apply total_nonneg. intros l Hl. now apply N. }
  pose proof (total2_null _ _ _ N Z p q Hp Hq) as Q. cbn beta in Q.
  pose proof (w_pos _ _ _ _ Gx Hp). pose proof (w_pos _ _ _ _ Gy Hq). pose proof (D p q Hp Hq).
  apply Rmult_integral in Q. destruct Q as [Q | Q]; apply Rmult_integral in Q; destruct Q; lra.
Qed.
Lemma rule3_sign d g : on_rule3 qx qy qz (fun x y z => 0 < d x y z) -> (forall p q r, (p < length qx)%nat -> (q < length qy)%nat -> (r < length qz)%nat -> 0 <= g p q r) ->
  rule3 qx wx qy wy qz wz (fun x y z p q r => d x y z * g p q r) <= 0 -> forall p q r, (p < length qx)%nat -> (q < length qy)%nat -> (r < length qz)%nat -> g p q r = 0.
Proof.
  intros D G E p q r Hp Hq Hr.
  assert (N : forall p q r, (p < length qx)%nat -> (q < length qy)%nat -> (r < length qz)%nat -> 0 <= nth p wx 0 * nth q wy 0 * nth r wz 0 * (d (nth p qx 0) (nth q qy 0) (nth r qz 0) * g p q r)).
  { intros k l n Hk Hl Hn. pose proof (w_pos _ _ _ _ Gx Hk). pose proof (w_pos _ _ _ _ Gy Hl). pose proof (w_pos _ _ _ _ Gz Hn).
    apply Rmult_le_pos; [apply Rmult_le_pos; [apply Rmult_le_pos |]; lra |]. apply Rmult_le_pos; [left; now apply D | now apply G]. }
  assert (Z : rule3 qx wx qy wy qz wz (fun x y z p q r => d x y z * g p q r) = 0).
  { apply Rle_antisym; [exact E |]. apply total_nonneg. intros k Hk. apply total_nonneg. intros l Hl. apply total_nonneg. intros n Hn. now apply N. }
  pose proof (total3_null _ _ _ _ N Z p q r Hp Hq Hr) as Q. cbn beta in Q.
  pose proof (w_pos _ _ _ _ Gx Hp). pose proof (w_pos _ _ _ _ Gy Hq). pose proof (w_pos _ _ _ _ Gz Hr). pose proof (D p q r Hp Hq Hr).
  apply Rmult_integral in Q. destruct Q as [Q | Q]; apply Rmult_integral in Q; destruct Q as [Q | Q]; try lra. apply Rmult_integral in Q; destruct Q; lra.
Qed.
End Rules.
Lemma sq_nonneg a : 0 <= a * a. Proof. nra. Qed.
Lemma sq2 a b : a * a + b * b = 0 -> a = 0 /\ b = 0. Proof. intros. split; nra. Qed.
Lemma sq3 a b c : a * a + b * b + c * c = 0 -> a = 0 /\ b = 0 /\ c = 0.
Proof. intros H. pose proof (sq_nonneg a). pose proof (sq_nonneg b). pose proof (sq_nonneg c). assert (a * a = 0) by lra. assert (b * b = 0) by lra. assert (c * c = 0) by lra. refine (conj _ (conj _ _)); nra. Qed.
Lemma good_inc s q w : good_rule s q w -> increasing q. Proof. now intros (H & _). Qed.
Lemma good_len s q w : good_rule s q w -> length w = length q. Proof. now intros (_ & H & _). Qed.
Lemma definite_1d_k0 J sx qx wx M a : nodes_ok sx -> good_rule sx qx wx -> on_rule1 qx (fun x => 0 < determinant 1 (J x)) ->
  mm_m1n1k0 J sx qx wx = Some M -> length a = nd_m1n1k0 (degree sx) -> nonzero (nd_m1n1k0 (degree sx)) a -> 0 < bilinear M a a.
Proof.
  intros Hx Gx D EM La (n & Hn & Nz). destruct (rc_1d_k0 sx qx a Hx La) as (u & Eu & Lu & Gu).
  destruct (mass_1d_k0 J sx qx wx a a M u u Hx La La EM Eu Eu) as [_ E]. apply Rnot_le_lt. intros N. rewrite E in N.
  pose proof (rule1_sign sx qx wx Gx _ (fun p => nth p u 0 * nth p u 0) D (fun p _ => sq_nonneg _) N) as Z.
  apply Nz. apply (null_cochain _ _ a (bij_m1n1k0 (degree sx))); [| exact Hn]. intros m ix r Nm.
  assert (F : forall x, form1 (cochain a) (ln_m1n1k0 (degree sx)) 0 (nodal sx) x = 0).
  { apply (form1_zero _ _ _ _ qx); [exact (good_inc _ _ _ Gx) | exact (small_nodal sx qx wx Hx Gx) |]. intros p Hp. rewrite <- Gu by assumption. specialize (Z p Hp). cbn beta in Z.
    nra. }
  assert (Nm' := Nm). rewrite ln_m1n1k0_eq in Nm'. destruct m as [| m].
  2: { destruct Nm' as (l' & a' & [= <-] & Hn' & _). cbn in Hn'. destruct m; discriminate. }
  apply (num1_iff _ 0 0 (degree sx + 1)%nat) in Nm'; [| reflexivity]. destruct Nm' as (i & -> & Hi & _).
  assert (L : length sx = (degree sx + 1)%nat) by (destruct Hx; unfold degree; lia).
  apply (independent_nodal sx Hx (fun i => rcoef (cochain a) (ln_m1n1k0 (degree sx)) 0 [i])); [exact F | cbn [fst]; lia].
Qed.
Lemma definite_1d_k1 J sx qx wx M a : nodes_ok sx -> good_rule sx qx wx -> on_rule1 qx (fun x => 0 < determinant 1 (J x)) ->
  mm_m1n1k1 J sx qx wx = Some M -> length a = nd_m1n1k1 (degree sx) -> nonzero (nd_m1n1k1 (degree sx)) a -> 0 < bilinear M a a.
Proof.
  intros Hx Gx D EM La (n & Hn & Nz). destruct (rc_1d_k1 sx qx a Hx La) as (u & Eu & Lu & Gu).
  assert (Dn : on_rule1 qx (fun x => determinant 1 (J x) <> 0)) by (intros p Hp; specialize (D p Hp); cbn beta in D; lra).
  destruct (mass_1d_k1 J sx qx wx a a M u u Hx La La EM Eu Eu Dn) as [_ E]. apply Rnot_le_lt. intros N. rewrite E in N.
  pose proof (rule1_sign sx qx wx Gx _ (fun p => nth p u 0 / determinant 1 (J (nth p qx 0)) * (nth p u 0 / determinant 1 (J (nth p qx 0)))) D (fun p _ => sq_nonneg _) N) as Z.
  apply Nz. apply (null_cochain _ _ a (bij_m1n1k1 (degree sx))); [| exact Hn]. intros m ix r Nm.
  assert (F : forall x, form1 (cochain a) (ln_m1n1k1 (degree sx)) 0 (edges sx) x = 0).
  { apply (form1_zero _ _ _ _ qx); [exact (good_inc _ _ _ Gx) | exact (small_edges sx qx wx Hx Gx) |]. intros p Hp. rewrite <- Gu by assumption. specialize (Z p Hp). cbn beta in Z.
    specialize (Dn p Hp). cbn beta in Dn. apply Rmult_integral in Z. assert (Y : nth p u 0 / determinant 1 (J (nth p qx 0)) = 0) by tauto. apply (Rmult_eq_reg_r (/ determinant 1 (J (nth p qx 0)))); [rewrite Rmult_0_l; exact Y | now apply Rinv_neq_0_compat]. }
  assert (Nm' := Nm). rewrite ln_m1n1k1_eq in Nm'. destruct m as [| m].
  2: { destruct Nm' as (l' & a' & [= <-] & Hn' & _). cbn in Hn'. destruct m; discriminate. }
  apply (num1_iff _ 0 0 (degree sx)%nat) in Nm'; [| reflexivity]. destruct Nm' as (i & -> & Hi & _).
  assert (L : length sx = (degree sx + 1)%nat) by (destruct Hx; unfold degree; lia).
  apply (independent_edges sx Hx (fun i => rcoef (cochain a) (ln_m1n1k1 (degree sx)) 0 [i])); [exact F | cbn [fst]; lia].
Qed.

Lemma definite_2d_k0 J sx sy qx wx qy wy M a : nodes_ok sx -> nodes_ok sy -> good_rule sx qx wx -> good_rule sy qy wy ->
  on_rule2 qx qy (fun x y => 0 < determinant 2 (J x y)) ->
  mm_m2n2k0 J sx sy qx wx qy wy = Some M -> length a = nd_m2n2k0 (degree sx) (degree sy) -> nonzero (nd_m2n2k0 (degree sx) (degree sy)) a -> 0 < bilinear M a a.
Proof.
  intros Hx Hy Gx Gy D EM La (n & Hn & Nz).
  assert (Dn : on_rule2 qx qy (fun x y => determinant 2 (J x y) <> 0)) by (intros p q Hp Hq; specialize (D p q Hp Hq); cbn beta in D; lra).
  destruct (rc_2d_k0 sx sy qx qy a Hx Hy La) as (u & Er & Gu).
  destruct (mass_2d_k0 J sx sy qx wx qy wy Hx Hy (good_len _ _ _ Gx) (good_len _ _ _ Gy) a a M u u La La EM Er Er) as [_ E].
  destruct Gu as [_ Gu].
  apply Rnot_le_lt. intros N. rewrite E in N.
  pose proof (rule2_sign sx sy qx wx qy wy Gx Gy _ (fun p q => at_2d u (length qx) p q * at_2d u (length qx) p q) D (fun _ _ _ _ => sq_nonneg _) N) as Z. cbn beta in Z.
  assert (P : forall p q, (p < length qx)%nat -> (q < length qy)%nat -> form2 (cochain a) (ln_m2n2k0 (degree sx) (degree sy)) 0 (nodal sx) (nodal sy) (nth p qx 0) (nth q qy 0) = 0).
  { intros p q Hp Hq. specialize (Z p q Hp Hq). specialize (Dn p q Hp Hq). cbn beta in Dn.
    rewrite <- (Gu p q Hp Hq). apply Rmult_integral in Z. tauto. }
  assert (F0 : forall x y, form2 (cochain a) (ln_m2n2k0 (degree sx) (degree sy)) 0 (nodal sx) (nodal sy) x y = 0).
  { apply (form2_zero _ _ _ _ _ qx qy); [exact (good_inc _ _ _ Gx) | exact (good_inc _ _ _ Gy) | exact (small_nodal sx qx wx Hx Gx) | exact (small_nodal sy qy wy Hy Gy) |]. intros p q Hp Hq. apply (P p q Hp Hq). }
  apply Nz. apply (null_cochain _ _ a (bij_m2n2k0 (degree sx) (degree sy))); [| exact Hn]. intros m ix r Nm. assert (Nm' := Nm). rewrite ln_m2n2k0_eq in Nm'.
  assert (Lx : length sx = (degree sx + 1)%nat) by (destruct Hx; unfold degree; lia). assert (Ly : length sy = (degree sy + 1)%nat) by (destruct Hy; unfold degree; lia).
  destruct (nums1 _ m ix r _ _ _ _ eq_refl eq_refl Nm') as (i & j & -> & -> & Hi & Hj & _).
  apply (independent2 _ _ _ (nodal sx) (nodal sy)); [exact (independent_nodal sx Hx) | exact (independent_nodal sy Hy) | exact F0 | cbn [fst]; lia..].
Qed.

Lemma definite_2d_inner J sx sy qx wx qy wy linear M a : nodes_ok sx -> nodes_ok sy -> good_rule sx qx wx -> good_rule sy qy wy ->
  on_rule2 qx qy (fun x y => 0 < determinant 2 (J x y)) ->
  linear = false \/ on_rule2 qx qy (fun x y => diagonal 2 (J x y)) ->
  mm_m2n2k1_inner J sx sy qx wx qy wy linear = Some M -> length a = nd_m2n2k1 (degree sx) (degree sy) -> nonzero (nd_m2n2k1 (degree sx) (degree sy)) a -> 0 < bilinear M a a.
Proof.
  intros Hx Hy Gx Gy D Dl EM La (n & Hn & Nz).
  assert (Dn : on_rule2 qx qy (fun x y => determinant 2 (J x y) <> 0)) by (intros p q Hp Hq; specialize (D p q Hp Hq); cbn beta in D; lra).
  destruct (rc_2d_k1_inner sx sy qx qy a Hx Hy La) as (u & v & Er & Gu & Gv).
  destruct (vector2_grid push_inner2 J qx qy u v _ _ Gu Gv) as (p0 & p1 & Ep & [_ K0] & [_ K1]).
  destruct (mass_2d_inner J sx sy qx wx qy wy Hx Hy (good_len _ _ _ Gx) (good_len _ _ _ Gy) linear a a M u v u v p0 p1 p0 p1 La La Dl EM Er Er Ep Ep) as [_ E].
  apply Rnot_le_lt. intros N. rewrite E in N.
  pose proof (rule2_sign sx sy qx wx qy wy Gx Gy _ (fun p q => at_2d p0 (length qx) p q * at_2d p0 (length qx) p q + at_2d p1 (length qx) p q * at_2d p1 (length qx) p q) D (fun _ _ _ _ => Rplus_le_le_0_compat _ _ (sq_nonneg _) (sq_nonneg _)) N) as Z. cbn beta in Z.
  assert (P : forall p q, (p < length qx)%nat -> (q < length qy)%nat -> form2 (cochain a) (ln_m2n2k1_inner (degree sx) (degree sy)) 0 (edges sx) (nodal sy) (nth p qx 0) (nth q qy 0) = 0 /\ form2 (cochain a) (ln_m2n2k1_inner (degree sx) (degree sy)) 1 (nodal sx) (edges sy) (nth p qx 0) (nth q qy 0) = 0).
  { intros p q Hp Hq. specialize (Z p q Hp Hq). specialize (Dn p q Hp Hq). cbn beta in Dn.
    rewrite (K0 p q Hp Hq), (K1 p q Hp Hq) in Z. apply sq2 in Z. destruct Z as [Z0 Z1].
    destruct (push_inner_cancel (J (nth p qx 0) (nth q qy 0)) (form2 (cochain a) (ln_m2n2k1_inner (degree sx) (degree sy)) 0 (edges sx) (nodal sy) (nth p qx 0) (nth q qy 0)) (form2 (cochain a) (ln_m2n2k1_inner (degree sx) (degree sy)) 1 (nodal sx) (edges sy) (nth p qx 0) (nth q qy 0)) Dn) as [A B]. rewrite Z0, Z1 in A, B. split; lra. }
  assert (F0 : forall x y, form2 (cochain a) (ln_m2n2k1_inner (degree sx) (degree sy)) 0 (edges sx) (nodal sy) x y = 0).
  { apply (form2_zero _ _ _ _ _ qx qy); [exact (good_inc _ _ _ Gx) | exact (good_inc _ _ _ Gy) | exact (small_edges sx qx wx Hx Gx) | exact (small_nodal sy qy wy Hy Gy) |]. intros p q Hp Hq. apply (P p q Hp Hq). }
  assert (F1 : forall x y, form2 (cochain a) (ln_m2n2k1_inner (degree sx) (degree sy)) 1 (nodal sx) (edges sy) x y = 0).
  { apply (form2_zero _ _ _ _ _ qx qy); [exact (good_inc _ _ _ Gx) | exact (good_inc _ _ _ Gy) | exact (small_nodal sx qx wx Hx Gx) | exact (small_edges sy qy wy Hy Gy) |]. intros p q Hp Hq. apply (P p q Hp Hq). }
  apply Nz. apply (null_cochain _ _ a (bij_m2n2k1i (degree sx) (degree sy))); [| exact Hn]. intros m ix r Nm. assert (Nm' := Nm). rewrite ln_m2n2k1_inner_eq in Nm'.
  assert (Lx : length sx = (degree sx + 1)%nat) by (destruct Hx; unfold degree; lia). assert (Ly : length sy = (degree sy + 1)%nat) by (destruct Hy; unfold degree; lia).
  destruct (nums2 _ m ix r _ _ _ _ _ _ _ _ eq_refl eq_refl eq_refl Nm') as [(i & j & -> & -> & Hi & Hj & _) | (i & j & -> & -> & Hi & Hj & _)].
  - apply (independent2 _ _ _ (edges sx) (nodal sy)); [exact (independent_edges sx Hx) | exact (independent_nodal sy Hy) | exact F0 | cbn [fst]; lia..].
  - apply (independent2 _ _ _ (nodal sx) (edges sy)); [exact (independent_nodal sx Hx) | exact (independent_edges sy Hy) | exact F1 | cbn [fst]; lia..].
Qed.

Lemma definite_2d_outer J sx sy qx wx qy wy linear M a : nodes_ok sx -> nodes_ok sy -> good_rule sx qx wx -> good_rule sy qy wy ->
  on_rule2 qx qy (fun x y => 0 < determinant 2 (J x y)) ->
  linear = false \/ on_rule2 qx qy (fun x y => diagonal 2 (J x y)) ->
  mm_m2n2k1_outer J sx sy qx wx qy wy linear = Some M -> length a = nd_m2n2k1 (degree sx) (degree sy) -> nonzero (nd_m2n2k1 (degree sx) (degree sy)) a -> 0 < bilinear M a a.
Proof.
  intros Hx Hy Gx Gy D Dl EM La (n & Hn & Nz).
  assert (Dn : on_rule2 qx qy (fun x y => determinant 2 (J x y) <> 0)) by (intros p q Hp Hq; specialize (D p q Hp Hq); cbn beta in D; lra).
  destruct (rc_2d_k1_outer sx sy qx qy a Hx Hy La) as (u & v & Er & Gu & Gv).
  destruct (vector2_grid push_outer2 J qx qy u v _ _ Gu Gv) as (p0 & p1 & Ep & [_ K0] & [_ K1]).
  destruct (mass_2d_outer J sx sy qx wx qy wy Hx Hy (good_len _ _ _ Gx) (good_len _ _ _ Gy) linear a a M u v u v p0 p1 p0 p1 La La Dl EM Er Er Ep Ep) as [_ E].
  apply Rnot_le_lt. intros N. rewrite E in N.
  pose proof (rule2_sign sx sy qx wx qy wy Gx Gy _ (fun p q => at_2d p0 (length qx) p q * at_2d p0 (length qx) p q + at_2d p1 (length qx) p q * at_2d p1 (length qx) p q) D (fun _ _ _ _ => Rplus_le_le_0_compat _ _ (sq_nonneg _) (sq_nonneg _)) N) as Z. cbn beta in Z.
  assert (P : forall p q, (p < length qx)%nat -> (q < length qy)%nat -> form2 (cochain a) (ln_m2n2k1_outer (degree sx) (degree sy)) 0 (nodal sx) (edges sy) (nth p qx 0) (nth q qy 0) = 0 /\ form2 (cochain a) (ln_m2n2k1_outer (degree sx) (degree sy)) 1 (edges sx) (nodal sy) (nth p qx 0) (nth q qy 0) = 0).
  { intros p q Hp Hq. specialize (Z p q Hp Hq). specialize (Dn p q Hp Hq). cbn beta in Dn.
    rewrite (K0 p q Hp Hq), (K1 p q Hp Hq) in Z. apply sq2 in Z. destruct Z as [Z0 Z1].
    destruct (push_outer_cancel (J (nth p qx 0) (nth q qy 0)) (form2 (cochain a) (ln_m2n2k1_outer (degree sx) (degree sy)) 0 (nodal sx) (edges sy) (nth p qx 0) (nth q qy 0)) (form2 (cochain a) (ln_m2n2k1_outer (degree sx) (degree sy)) 1 (edges sx) (nodal sy) (nth p qx 0) (nth q qy 0)) Dn) as [A B]. rewrite Z0, Z1 in A, B. split; lra. }
  assert (F0 : forall x y, form2 (cochain a) (ln_m2n2k1_outer (degree sx) (degree sy)) 0 (nodal sx) (edges sy) x y = 0).
  { apply (form2_zero _ _ _ _ _ qx qy); [exact (good_inc _ _ _ Gx) | exact (good_inc _ _ _ Gy) | exact (small_nodal sx qx wx Hx Gx) | exact (small_edges sy qy wy Hy Gy) |]. intros p q Hp Hq. apply (P p q Hp Hq). }
  assert (F1 : forall x y, form2 (cochain a) (ln_m2n2k1_outer (degree sx) (degree sy)) 1 (edges sx) (nodal sy) x y = 0).
  { apply (form2_zero _ _ _ _ _ qx qy); [exact (good_inc _ _ _ Gx) | exact (good_inc _ _ _ Gy) | exact (small_edges sx qx wx Hx Gx) | exact (small_nodal sy qy wy Hy Gy) |]. intros p q Hp Hq. apply (P p q Hp Hq). }
  apply Nz. apply (null_cochain _ _ a (bij_m2n2k1o (degree sx) (degree sy))); [| exact Hn]. intros m ix r Nm. assert (Nm' := Nm). rewrite ln_m2n2k1_outer_eq in Nm'.
  assert (Lx : length sx = (degree sx + 1)%nat) by (destruct Hx; unfold degree; lia). assert (Ly : length sy = (degree sy + 1)%nat) by (destruct Hy; unfold degree; lia).
  destruct (nums2 _ m ix r _ _ _ _ _ _ _ _ eq_refl eq_refl eq_refl Nm') as [(i & j & -> & -> & Hi & Hj & _) | (i & j & -> & -> & Hi & Hj & _)].
  - apply (independent2 _ _ _ (nodal sx) (edges sy)); [exact (independent_nodal sx Hx) | exact (independent_edges sy Hy) | exact F0 | cbn [fst]; lia..].
  - apply (independent2 _ _ _ (edges sx) (nodal sy)); [exact (independent_edges sx Hx) | exact (independent_nodal sy Hy) | exact F1 | cbn [fst]; lia..].
Qed.

Lemma definite_2d_k2 J sx sy qx wx qy wy M a : nodes_ok sx -> nodes_ok sy -> good_rule sx qx wx -> good_rule sy qy wy ->
  on_rule2 qx qy (fun x y => 0 < determinant 2 (J x y)) ->
  mm_m2n2k2 J sx sy qx wx qy wy = Some M -> length a = nd_m2n2k2 (degree sx) (degree sy) -> nonzero (nd_m2n2k2 (degree sx) (degree sy)) a -> 0 < bilinear M a a.
Proof.
  intros Hx Hy Gx Gy D EM La (n & Hn & Nz).
  assert (Dn : on_rule2 qx qy (fun x y => determinant 2 (J x y) <> 0)) by (intros p q Hp Hq; specialize (D p q Hp Hq); cbn beta in D; lra).
  destruct (rc_2d_k2 sx sy qx qy a Hx Hy La) as (u & Er & Gu).
  destruct (density2_grid J qx qy u _ Gu) as (p0 & Ep & _ & Gp). destruct (mass_2d_k2 J sx sy qx wx qy wy Hx Hy (good_len _ _ _ Gx) (good_len _ _ _ Gy) a a M u u p0 p0 La La Dn EM Er Er Ep Ep) as [_ E].
  apply Rnot_le_lt. intros N. rewrite E in N.
  pose proof (rule2_sign sx sy qx wx qy wy Gx Gy _ (fun p q => at_2d p0 (length qx) p q * at_2d p0 (length qx) p q) D (fun _ _ _ _ => sq_nonneg _) N) as Z. cbn beta in Z.
  assert (P : forall p q, (p < length qx)%nat -> (q < length qy)%nat -> form2 (cochain a) (ln_m2n2k2 (degree sx) (degree sy)) 0 (edges sx) (edges sy) (nth p qx 0) (nth q qy 0) = 0).
  { intros p q Hp Hq. specialize (Z p q Hp Hq). specialize (Dn p q Hp Hq). cbn beta in Dn.
    rewrite (Gp p q Hp Hq), jac_inv_det_spec in Z by (lia || exact Dn). apply Rmult_integral in Z.
    assert (Y : form2 (cochain a) (ln_m2n2k2 (degree sx) (degree sy)) 0 (edges sx) (edges sy) (nth p qx 0) (nth q qy 0) * (1 / determinant 2 (J (nth p qx 0) (nth q qy 0))) = 0) by tauto.
    apply Rmult_integral in Y. destruct Y as [Y | Y]; [exact Y |]. exfalso. revert Y. unfold Rdiv. rewrite Rmult_1_l. now apply Rinv_neq_0_compat. }
  assert (F0 : forall x y, form2 (cochain a) (ln_m2n2k2 (degree sx) (degree sy)) 0 (edges sx) (edges sy) x y = 0).
  { apply (form2_zero _ _ _ _ _ qx qy); [exact (good_inc _ _ _ Gx) | exact (good_inc _ _ _ Gy) | exact (small_edges sx qx wx Hx Gx) | exact (small_edges sy qy wy Hy Gy) |]. intros p q Hp Hq. apply (P p q Hp Hq). }
  apply Nz. apply (null_cochain _ _ a (bij_m2n2k2 (degree sx) (degree sy))); [| exact Hn]. intros m ix r Nm. assert (Nm' := Nm). rewrite ln_m2n2k2_eq in Nm'.
  assert (Lx : length sx = (degree sx + 1)%nat) by (destruct Hx; unfold degree; lia). assert (Ly : length sy = (degree sy + 1)%nat) by (destruct Hy; unfold degree; lia).
  destruct (nums1 _ m ix r _ _ _ _ eq_refl eq_refl Nm') as (i & j & -> & -> & Hi & Hj & _).
  apply (independent2 _ _ _ (edges sx) (edges sy)); [exact (independent_edges sx Hx) | exact (independent_edges sy Hy) | exact F0 | cbn [fst]; lia..].
Qed.

Lemma definite_3d_k0 J sx sy sz qx wx qy wy qz wz M a : nodes_ok sx -> nodes_ok sy -> nodes_ok sz -> good_rule sx qx wx -> good_rule sy qy wy -> good_rule sz qz wz ->
  on_rule3 qx qy qz (fun x y z => 0 < determinant 3 (J x y z)) ->
  mm_m3n3k0 J sx sy sz qx wx qy wy qz wz = Some M -> length a = nd_m3n3k0 (degree sx) (degree sy) (degree sz) -> nonzero (nd_m3n3k0 (degree sx) (degree sy) (degree sz)) a -> 0 < bilinear M a a.
Proof.
  intros Hx Hy Hz Gx Gy Gz D EM La (n & Hn & Nz).
  assert (Dn : on_rule3 qx qy qz (fun x y z => determinant 3 (J x y z) <> 0)) by (intros p q r Hp Hq Hr; specialize (D p q r Hp Hq Hr); cbn beta in D; lra).
  destruct (rc_3d_k0 sx sy sz qx qy qz a Hx Hy Hz La) as (u & Er & Gu).
  destruct (mass_3d_k0 J sx sy sz qx wx qy wy qz wz Hx Hy Hz (good_len _ _ _ Gx) (good_len _ _ _ Gy) (good_len _ _ _ Gz) a a M u u La La EM Er Er) as [_ E].
  destruct Gu as [_ Gu].
  apply Rnot_le_lt. intros N. rewrite E in N.
  pose proof (rule3_sign sx sy sz qx wx qy wy qz wz Gx Gy Gz _ (fun p q r => at_3d u (length qx) (length qy) p q r * at_3d u (length qx) (length qy) p q r) D (fun _ _ _ _ _ _ => sq_nonneg _) N) as Z. cbn beta in Z.
  assert (P : forall p q r, (p < length qx)%nat -> (q < length qy)%nat -> (r < length qz)%nat -> form3 (cochain a) (ln_m3n3k0 (degree sx) (degree sy) (degree sz)) 0 (nodal sx) (nodal sy) (nodal sz) (nth p qx 0) (nth q qy 0) (nth r qz 0) = 0).
  { intros p q r Hp Hq Hr. specialize (Z p q r Hp Hq Hr). specialize (Dn p q r Hp Hq Hr). cbn beta in Dn.
    rewrite <- (Gu p q r Hp Hq Hr). apply Rmult_integral in Z. tauto. }
  assert (F0 : forall x y z, form3 (cochain a) (ln_m3n3k0 (degree sx) (degree sy) (degree sz)) 0 (nodal sx) (nodal sy) (nodal sz) x y z = 0).
  { apply (form3_zero _ _ _ _ _ _ qx qy qz); [exact (good_inc _ _ _ Gx) | exact (good_inc _ _ _ Gy) | exact (good_inc _ _ _ Gz) | exact (small_nodal sx qx wx Hx Gx) | exact (small_nodal sy qy wy Hy Gy) | exact (small_nodal sz qz wz Hz Gz) |]. intros p q r Hp Hq Hr. apply (P p q r Hp Hq Hr). }
  apply Nz. apply (null_cochain _ _ a (bij_m3n3k0 (degree sx) (degree sy) (degree sz))); [| exact Hn]. intros m ix r Nm. assert (Nm' := Nm). rewrite ln_m3n3k0_eq in Nm'.
  assert (Lx : length sx = (degree sx + 1)%nat) by (destruct Hx; unfold degree; lia). assert (Ly : length sy = (degree sy + 1)%nat) by (destruct Hy; unfold degree; lia). assert (Lz : length sz = (degree sz + 1)%nat) by (destruct Hz; unfold degree; lia).
  destruct (nums3_1 _ m ix r _ _ _ _ eq_refl Nm') as (i & j & k & -> & -> & Hi & Hj & Hk).
  apply (independent3 _ _ _ (nodal sx) (nodal sy) (nodal sz)); [exact (independent_nodal sx Hx) | exact (independent_nodal sy Hy) | exact (independent_nodal sz Hz) | exact F0 | cbn [fst]; lia..].
Qed.

Lemma definite_3d_k1 J sx sy sz qx wx qy wy qz wz linear M a : nodes_ok sx -> nodes_ok sy -> nodes_ok sz -> good_rule sx qx wx -> good_rule sy qy wy -> good_rule sz qz wz ->
  on_rule3 qx qy qz (fun x y z => 0 < determinant 3 (J x y z)) ->
  linear = false \/ on_rule3 qx qy qz (fun x y z => diagonal 3 (J x y z)) ->
  mm_m3n3k1 J sx sy sz qx wx qy wy qz wz linear = Some M -> length a = nd_m3n3k1 (degree sx) (degree sy) (degree sz) -> nonzero (nd_m3n3k1 (degree sx) (degree sy) (degree sz)) a -> 0 < bilinear M a a.
Proof.
  intros Hx Hy Hz Gx Gy Gz D Dl EM La (n & Hn & Nz).
  assert (Dn : on_rule3 qx qy qz (fun x y z => determinant 3 (J x y z) <> 0)) by (intros p q r Hp Hq Hr; specialize (D p q r Hp Hq Hr); cbn beta in D; lra).
  destruct (rc_3d_k1 sx sy sz qx qy qz a Hx Hy Hz La) as (u & v & w & Er & Gu & Gv & Gw).
  destruct (vector3_grid push1_3 J qx qy qz u v w _ _ _ Gu Gv Gw) as (p0 & p1 & p2 & Ep & [_ K0] & [_ K1] & [_ K2]).
  destruct (mass_3d_k1 J sx sy sz qx wx qy wy qz wz Hx Hy Hz (good_len _ _ _ Gx) (good_len _ _ _ Gy) (good_len _ _ _ Gz) linear a a M u v w u v w p0 p1 p2 p0 p1 p2 La La Dl EM Er Er Ep Ep) as [_ E].
  apply Rnot_le_lt. intros N. rewrite E in N.
  pose proof (rule3_sign sx sy sz qx wx qy wy qz wz Gx Gy Gz _ (fun p q r => at_3d p0 (length qx) (length qy) p q r * at_3d p0 (length qx) (length qy) p q r + at_3d p1 (length qx) (length qy) p q r * at_3d p1 (length qx) (length qy) p q r + at_3d p2 (length qx) (length qy) p q r * at_3d p2 (length qx) (length qy) p q r) D (fun _ _ _ _ _ _ => Rplus_le_le_0_compat _ _ (Rplus_le_le_0_compat _ _ (sq_nonneg _) (sq_nonneg _)) (sq_nonneg _)) N) as Z. cbn beta in Z.
  assert (P : forall p q r, (p < length qx)%nat -> (q < length qy)%nat -> (r < length qz)%nat -> form3 (cochain a) (ln_m3n3k1 (degree sx) (degree sy) (degree sz)) 0 (edges sx) (nodal sy) (nodal sz) (nth p qx 0) (nth q qy 0) (nth r qz 0) = 0 /\ form3 (cochain a) (ln_m3n3k1 (degree sx) (degree sy) (degree sz)) 1 (nodal sx) (edges sy) (nodal sz) (nth p qx 0) (nth q qy 0) (nth r qz 0) = 0 /\ form3 (cochain a) (ln_m3n3k1 (degree sx) (degree sy) (degree sz)) 2 (nodal sx) (nodal sy) (edges sz) (nth p qx 0) (nth q qy 0) (nth r qz 0) = 0).
  { intros p q r Hp Hq Hr. specialize (Z p q r Hp Hq Hr). specialize (Dn p q r Hp Hq Hr). cbn beta in Dn.
    rewrite (K0 p q r Hp Hq Hr), (K1 p q r Hp Hq Hr), (K2 p q r Hp Hq Hr) in Z. apply sq3 in Z. destruct Z as (Z0 & Z1 & Z2).
    destruct (push1_cancel (J (nth p qx 0) (nth q qy 0) (nth r qz 0)) (form3 (cochain a) (ln_m3n3k1 (degree sx) (degree sy) (degree sz)) 0 (edges sx) (nodal sy) (nodal sz) (nth p qx 0) (nth q qy 0) (nth r qz 0)) (form3 (cochain a) (ln_m3n3k1 (degree sx) (degree sy) (degree sz)) 1 (nodal sx) (edges sy) (nodal sz) (nth p qx 0) (nth q qy 0) (nth r qz 0)) (form3 (cochain a) (ln_m3n3k1 (degree sx) (degree sy) (degree sz)) 2 (nodal sx) (nodal sy) (edges sz) (nth p qx 0) (nth q qy 0) (nth r qz 0)) Dn) as (A & B & C).
    revert Z0 Z1 Z2 A B C. destruct (push1_3 _ _) as [[c0 c1] c2]. cbn [fst snd]. intros -> -> -> A B C. cbn [fst snd] in A, B, C. refine (conj _ (conj _ _)); lra. }
  assert (F0 : forall x y z, form3 (cochain a) (ln_m3n3k1 (degree sx) (degree sy) (degree sz)) 0 (edges sx) (nodal sy) (nodal sz) x y z = 0).
  { apply (form3_zero _ _ _ _ _ _ qx qy qz); [exact (good_inc _ _ _ Gx) | exact (good_inc _ _ _ Gy) | exact (good_inc _ _ _ Gz) | exact (small_edges sx qx wx Hx Gx) | exact (small_nodal sy qy wy Hy Gy) | exact (small_nodal sz qz wz Hz Gz) |]. intros p q r Hp Hq Hr. apply (P p q r Hp Hq Hr). }
  assert (F1 : forall x y z, form3 (cochain a) (ln_m3n3k1 (degree sx) (degree sy) (degree sz)) 1 (nodal sx) (edges sy) (nodal sz) x y z = 0).
  { apply (form3_zero _ _ _ _ _ _ qx qy qz); [exact (good_inc _ _ _ Gx) | exact (good_inc _ _ _ Gy) | exact (good_inc _ _ _ Gz) | exact (small_nodal sx qx wx Hx Gx) | exact (small_edges sy qy wy Hy Gy) | exact (small_nodal sz qz wz Hz Gz) |]. intros p q r Hp Hq Hr. apply (P p q r Hp Hq Hr). }
  assert (F2 : forall x y z, form3 (cochain a) (ln_m3n3k1 (degree sx) (degree sy) (degree sz)) 2 (nodal sx) (nodal sy) (edges sz) x y z = 0).
  { apply (form3_zero _ _ _ _ _ _ qx qy qz); [exact (good_inc _ _ _ Gx) | exact (good_inc _ _ _ Gy) | exact (good_inc _ _ _ Gz) | exact (small_nodal sx qx wx Hx Gx) | exact (small_nodal sy qy wy Hy Gy) | exact (small_edges sz qz wz Hz Gz) |]. intros p q r Hp Hq Hr. apply (P p q r Hp Hq Hr). }
  apply Nz. apply (null_cochain _ _ a (bij_m3n3k1 (degree sx) (degree sy) (degree sz))); [| exact Hn]. intros m ix r Nm. assert (Nm' := Nm). rewrite ln_m3n3k1_eq in Nm'.
  assert (Lx : length sx = (degree sx + 1)%nat) by (destruct Hx; unfold degree; lia). assert (Ly : length sy = (degree sy + 1)%nat) by (destruct Hy; unfold degree; lia). assert (Lz : length sz = (degree sz + 1)%nat) by (destruct Hz; unfold degree; lia).
  destruct (nums3 _ m ix r _ _ _ _ _ _ _ _ _ _ _ _ eq_refl Nm') as [(i & j & k & -> & -> & Hi & Hj & Hk) | [(i & j & k & -> & -> & Hi & Hj & Hk) | (i & j & k & -> & -> & Hi & Hj & Hk)]].
  - apply (independent3 _ _ _ (edges sx) (nodal sy) (nodal sz)); [exact (independent_edges sx Hx) | exact (independent_nodal sy Hy) | exact (independent_nodal sz Hz) | exact F0 | cbn [fst]; lia..].
  - apply (independent3 _ _ _ (nodal sx) (edges sy) (nodal sz)); [exact (independent_nodal sx Hx) | exact (independent_edges sy Hy) | exact (independent_nodal sz Hz) | exact F1 | cbn [fst]; lia..].
  - apply (independent3 _ _ _ (nodal sx) (nodal sy) (edges sz)); [exact (independent_nodal sx Hx) | exact (independent_nodal sy Hy) | exact (independent_edges sz Hz) | exact F2 | cbn [fst]; lia..].
Qed.

Lemma definite_3d_k2 J sx sy sz qx wx qy wy qz wz linear M a : nodes_ok sx -> nodes_ok sy -> nodes_ok sz -> good_rule sx qx wx -> good_rule sy qy wy -> good_rule sz qz wz ->
  on_rule3 qx qy qz (fun x y z => 0 < determinant 3 (J x y z)) ->
  linear = false \/ on_rule3 qx qy qz (fun x y z => diagonal 3 (J x y z)) ->
  mm_m3n3k2 J sx sy sz qx wx qy wy qz wz linear = Some M -> length a = nd_m3n3k2 (degree sx) (degree sy) (degree sz) -> nonzero (nd_m3n3k2 (degree sx) (degree sy) (degree sz)) a -> 0 < bilinear M a a.
Proof.
  intros Hx Hy Hz Gx Gy Gz D Dl EM La (n & Hn & Nz).
  assert (Dn : on_rule3 qx qy qz (fun x y z => determinant 3 (J x y z) <> 0)) by (intros p q r Hp Hq Hr; specialize (D p q r Hp Hq Hr); cbn beta in D; lra).
  destruct (rc_3d_k2 sx sy sz qx qy qz a Hx Hy Hz La) as (u & v & w & Er & Gu & Gv & Gw).
  destruct (vector3_grid push2_3 J qx qy qz u v w _ _ _ Gu Gv Gw) as (p0 & p1 & p2 & Ep & [_ K0] & [_ K1] & [_ K2]).
  destruct (mass_3d_k2 J sx sy sz qx wx qy wy qz wz Hx Hy Hz (good_len _ _ _ Gx) (good_len _ _ _ Gy) (good_len _ _ _ Gz) linear a a M u v w u v w p0 p1 p2 p0 p1 p2 La La Dl EM Er Er Ep Ep) as [_ E].
  apply Rnot_le_lt. intros N. rewrite E in N.
  pose proof (rule3_sign sx sy sz qx wx qy wy qz wz Gx Gy Gz _ (fun p q r => at_3d p0 (length qx) (length qy) p q r * at_3d p0 (length qx) (length qy) p q r + at_3d p1 (length qx) (length qy) p q r * at_3d p1 (length qx) (length qy) p q r + at_3d p2 (length qx) (length qy) p q r * at_3d p2 (length qx) (length qy) p q r) D (fun _ _ _ _ _ _ => Rplus_le_le_0_compat _ _ (Rplus_le_le_0_compat _ _ (sq_nonneg _) (sq_nonneg _)) (sq_nonneg _)) N) as Z. cbn beta in Z.
  assert (P : forall p q r, (p < length qx)%nat -> (q < length qy)%nat -> (r < length qz)%nat -> form3 (cochain a) (ln_m3n3k2 (degree sx) (degree sy) (degree sz)) 0 (nodal sx) (edges sy) (edges sz) (nth p qx 0) (nth q qy 0) (nth r qz 0) = 0 /\ form3 (cochain a) (ln_m3n3k2 (degree sx) (degree sy) (degree sz)) 1 (edges sx) (nodal sy) (edges sz) (nth p qx 0) (nth q qy 0) (nth r qz 0) = 0 /\ form3 (cochain a) (ln_m3n3k2 (degree sx) (degree sy) (degree sz)) 2 (edges sx) (edges sy) (nodal sz) (nth p qx 0) (nth q qy 0) (nth r qz 0) = 0).
  { intros p q r Hp Hq Hr. specialize (Z p q r Hp Hq Hr). specialize (Dn p q r Hp Hq Hr). cbn beta in Dn.
    rewrite (K0 p q r Hp Hq Hr), (K1 p q r Hp Hq Hr), (K2 p q r Hp Hq Hr) in Z. apply sq3 in Z. destruct Z as (Z0 & Z1 & Z2).
    destruct (push2_cancel (J (nth p qx 0) (nth q qy 0) (nth r qz 0)) (form3 (cochain a) (ln_m3n3k2 (degree sx) (degree sy) (degree sz)) 0 (nodal sx) (edges sy) (edges sz) (nth p qx 0) (nth q qy 0) (nth r qz 0)) (form3 (cochain a) (ln_m3n3k2 (degree sx) (degree sy) (degree sz)) 1 (edges sx) (nodal sy) (edges sz) (nth p qx 0) (nth q qy 0) (nth r qz 0)) (form3 (cochain a) (ln_m3n3k2 (degree sx) (degree sy) (degree sz)) 2 (edges sx) (edges sy) (nodal sz) (nth p qx 0) (nth q qy 0) (nth r qz 0)) Dn) as (A & B & C).
    revert Z0 Z1 Z2 A B C. destruct (push2_3 _ _) as [[c0 c1] c2]. cbn [fst snd]. intros -> -> -> A B C. cbn [fst snd] in A, B, C. refine (conj _ (conj _ _)); lra. }
  assert (F0 : forall x y z, form3 (cochain a) (ln_m3n3k2 (degree sx) (degree sy) (degree sz)) 0 (nodal sx) (edges sy) (edges sz) x y z = 0).
  { apply (form3_zero _ _ _ _ _ _ qx qy qz); [exact (good_inc _ _ _ Gx) | exact (good_inc _ _ _ Gy) | exact (good_inc _ _ _ Gz) | exact (small_nodal sx qx wx Hx Gx) | exact (small_edges sy qy wy Hy Gy) | exact (small_edges sz qz wz Hz Gz) |]. intros p q r Hp Hq Hr. apply (P p q r Hp Hq Hr). }
  assert (F1 : forall x y z, form3 (cochain a) (ln_m3n3k2 (degree sx) (degree sy) (degree sz)) 1 (edges sx) (nodal sy) (edges sz) x y z = 0).
  { apply (form3_zero _ _ _ _ _ _ qx qy qz); [exact (good_inc _ _ _ Gx) | exact (good_inc _ _ _ Gy) | exact (good_inc _ _ _ Gz) | exact (small_edges sx qx wx Hx Gx) | exact (small_nodal sy qy wy Hy Gy) | exact (small_edges sz qz wz Hz Gz) |]. intros p q r Hp Hq Hr. apply (P p q r Hp Hq Hr). }
  assert (F2 : forall x y z, form3 (cochain a) (ln_m3n3k2 (degree sx) (degree sy) (degree sz)) 2 (edges sx) (edges sy) (nodal sz) x y z = 0).
  { apply (form3_zero _ _ _ _ _ _ qx qy qz); [exact (good_inc _ _ _ Gx) | exact (good_inc _ _ _ Gy) | exact (good_inc _ _ _ Gz) | exact (small_edges sx qx wx Hx Gx) | exact (small_edges sy qy wy Hy Gy) | exact (small_nodal sz qz wz Hz Gz) |]. intros p q r Hp Hq Hr. apply (P p q r Hp Hq Hr). }
  apply Nz. apply (null_cochain _ _ a (bij_m3n3k2 (degree sx) (degree sy) (degree sz))); [| exact Hn]. intros m ix r Nm. assert (Nm' := Nm). rewrite ln_m3n3k2_eq in Nm'.
  assert (Lx : length sx = (degree sx + 1)%nat) by (destruct Hx; unfold degree; lia). assert (Ly : length sy = (degree sy + 1)%nat) by (destruct Hy; unfold degree; lia). assert (Lz : length sz = (degree sz + 1)%nat) by (destruct Hz; unfold degree; lia).
  destruct (nums3 _ m ix r _ _ _ _ _ _ _ _ _ _ _ _ eq_refl Nm') as [(i & j & k & -> & -> & Hi & Hj & Hk) | [(i & j & k & -> & -> & Hi & Hj & Hk) | (i & j & k & -> & -> & Hi & Hj & Hk)]].
  - apply (independent3 _ _ _ (nodal sx) (edges sy) (edges sz)); [exact (independent_nodal sx Hx) | exact (independent_edges sy Hy) | exact (independent_edges sz Hz) | exact F0 | cbn [fst]; lia..].
  - apply (independent3 _ _ _ (edges sx) (nodal sy) (edges sz)); [exact (independent_edges sx Hx) | exact (independent_nodal sy Hy) | exact (independent_edges sz Hz) | exact F1 | cbn [fst]; lia..].
  - apply (independent3 _ _ _ (edges sx) (edges sy) (nodal sz)); [exact (independent_edges sx Hx) | exact (independent_edges sy Hy) | exact (independent_nodal sz Hz) | exact F2 | cbn [fst]; lia..].
Qed.

Lemma definite_3d_k3 J sx sy sz qx wx qy wy qz wz M a : nodes_ok sx -> nodes_ok sy -> nodes_ok sz -> good_rule sx qx wx -> good_rule sy qy wy -> good_rule sz qz wz ->
  on_rule3 qx qy qz (fun x y z => 0 < determinant 3 (J x y z)) ->
  mm_m3n3k3 J sx sy sz qx wx qy wy qz wz = Some M -> length a = nd_m3n3k3 (degree sx) (degree sy) (degree sz) -> nonzero (nd_m3n3k3 (degree sx) (degree sy) (degree sz)) a -> 0 < bilinear M a a.
Proof.
  intros Hx Hy Hz Gx Gy Gz D EM La (n & Hn & Nz).
  assert (Dn : on_rule3 qx qy qz (fun x y z => determinant 3 (J x y z) <> 0)) by (intros p q r Hp Hq Hr; specialize (D p q r Hp Hq Hr); cbn beta in D; lra).
  destruct (rc_3d_k3 sx sy sz qx qy qz a Hx Hy Hz La) as (u & Er & Gu).
  destruct (density3_grid J qx qy qz u _ Gu) as (p0 & Ep & _ & Gp). destruct (mass_3d_k3 J sx sy sz qx wx qy wy qz wz Hx Hy Hz (good_len _ _ _ Gx) (good_len _ _ _ Gy) (good_len _ _ _ Gz) a a M u u p0 p0 La La Dn EM Er Er Ep Ep) as [_ E].
  apply Rnot_le_lt. intros N. rewrite E in N.
  pose proof (rule3_sign sx sy sz qx wx qy wy qz wz Gx Gy Gz _ (fun p q r => at_3d p0 (length qx) (length qy) p q r * at_3d p0 (length qx) (length qy) p q r) D (fun _ _ _ _ _ _ => sq_nonneg _) N) as Z. cbn beta in Z.
  assert (P : forall p q r, (p < length qx)%nat -> (q < length qy)%nat -> (r < length qz)%nat -> form3 (cochain a) (ln_m3n3k3 (degree sx) (degree sy) (degree sz)) 0 (edges sx) (edges sy) (edges sz) (nth p qx 0) (nth q qy 0) (nth r qz 0) = 0).
  { intros p q r Hp Hq Hr. specialize (Z p q r Hp Hq Hr). specialize (Dn p q r Hp Hq Hr). cbn beta in Dn.
    rewrite (Gp p q r Hp Hq Hr), jac_inv_det_spec in Z by (lia || exact Dn). apply Rmult_integral in Z.
    assert (Y : form3 (cochain a) (ln_m3n3k3 (degree sx) (degree sy) (degree sz)) 0 (edges sx) (edges sy) (edges sz) (nth p qx 0) (nth q qy 0) (nth r qz 0) * (1 / determinant 3 (J (nth p qx 0) (nth q qy 0) (nth r qz 0))) = 0) by tauto.
    apply Rmult_integral in Y. destruct Y as [Y | Y]; [exact Y |]. exfalso. revert Y. unfold Rdiv. rewrite Rmult_1_l. now apply Rinv_neq_0_compat. }
  assert (F0 : forall x y z, form3 (cochain a) (ln_m3n3k3 (degree sx) (degree sy) (degree sz)) 0 (edges sx) (edges sy) (edges sz) x y z = 0).
  { apply (form3_zero _ _ _ _ _ _ qx qy qz); [exact (good_inc _ _ _ Gx) | exact (good_inc _ _ _ Gy) | exact (good_inc _ _ _ Gz) | exact (small_edges sx qx wx Hx Gx) | exact (small_edges sy qy wy Hy Gy) | exact (small_edges sz qz wz Hz Gz) |]. intros p q r Hp Hq Hr. apply (P p q r Hp Hq Hr). }
  apply Nz. apply (null_cochain _ _ a (bij_m3n3k3 (degree sx) (degree sy) (degree sz))); [| exact Hn]. intros m ix r Nm. assert (Nm' := Nm). rewrite ln_m3n3k3_eq in Nm'.
  assert (Lx : length sx = (degree sx + 1)%nat) by (destruct Hx; unfold degree; lia). assert (Ly : length sy = (degree sy + 1)%nat) by (destruct Hy; unfold degree; lia). assert (Lz : length sz = (degree sz + 1)%nat) by (destruct Hz; unfold degree; lia).
  destruct (nums3_1 _ m ix r _ _ _ _ eq_refl Nm') as (i & j & k & -> & -> & Hi & Hj & Hk).
  apply (independent3 _ _ _ (edges sx) (edges sy) (edges sz)); [exact (independent_edges sx Hx) | exact (independent_edges sy Hy) | exact (independent_edges sz Hz) | exact F0 | cbn [fst]; lia..].
Qed.
