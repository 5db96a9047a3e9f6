(** Elements, rules and calls for which the mass matrix is not the inner product. *)
From Coq Require Import List Arith String Reals Lia Lra.
From Coquelicot Require Import Coquelicot.
From Verif Require Import PolyModel PolySpec PolyProofs PolyCalc NdArray LocalNumberingModel IncidenceModel IncidenceSpec IncidenceThms TensorModel TensorSpec TensorAct TensorThms MappingModel MappingSpec JacobianModel JacobianSpec JacobianProofs ReduceModel ReduceSpec ReduceProofs ReduceForms ReduceRound ReduceRound3 MassModel MassSpec MassProofs MassThms MassPos MassExact ReduceTri.
Import List ListNotations.
Local Open Scope R_scope.
Local Notation i0 := 0%nat.
Local Notation i1 := 1%nat.
Local Notation i2 := 2%nat.
Local Notation mat := MappingModel.mat.

Definition unit_cochain (n k : nat) : list R := map (fun i => if Nat.eqb i k then 1 else 0) (seq 0 n).
Lemma unit_length n k : length (unit_cochain n k) = n.
Proof. unfold unit_cochain. now rewrite map_length, seq_length. Qed.
Lemma unit_nth n k i : (i < n)%nat -> nth i (unit_cochain n k) 0 = if Nat.eqb i k then 1 else 0.
Proof. intros H. unfold unit_cochain. now rewrite nth_map_seq. Qed.
Lemma bilinear_unit M n i j : square M n -> (i < n)%nat -> (j < n)%nat -> bilinear M (unit_cochain n i) (unit_cochain n j) = fm_at M i j.
Proof.
  intros [Er Ec] Hi Hj. unfold bilinear. rewrite Er, Ec.
  rewrite (total_ext n _ (fun i' => total n (fun j' => fm_at M i' j' * kronecker j' j) * kronecker i' i)).
  2: { intros a Ha. rewrite unit_nth, Rmult_comm, <- total_scal by assumption. apply total_ext. intros b Hb. rewrite unit_nth by assumption. unfold kronecker. ring. }
  rewrite (total_kronecker n (fun i' => total n (fun j' => fm_at M i' j' * kronecker j' j)) i Hi). now apply (total_kronecker n (fm_at M i)).
Qed.

(** a sheared cube *)
Definition shear : mat := mat3 1 1 0 0 1 0 0 0 1.
Lemma shear_det : determinant 3 shear = 1.
Proof. rewrite det_expand3. unfold shear, mat3; cbn. ring. Qed.
Lemma nodes_two : nodes_ok [-1; 1].
Proof. split; [|cbn; lia]. intros i j H. cbn in H. destruct i as [|[|]], j as [|[|]]; cbn; try lia; lra. Qed.
Lemma simpson : exact_rule 4 [-1; 0; 1] [1/3; 4/3; 1/3].
Proof. intros k Hk. apply pow_RInt_eq. do 4 (destruct k as [| k]; [unfold total; cbn; field |]). lia. Qed.

Lemma some_sym' {A} (x y : A) : Some x = Some y -> x = y.
Proof. congruence. Qed.
Lemma shear_det3 qx qy qz m : det3 (fun _ _ _ : R => shear) qx qy qz m = 1.
Proof. unfold det3, at3. destruct (nth m _ _) as [[x y] z]. rewrite det_at_eq by lia. apply shear_det. Qed.
Lemma shear_g01 qx qy qz m : g3 (fun _ _ _ : R => shear) qx qy qz 0 1 m = -1.
Proof. unfold g3, at3. destruct (nth m _ _) as [[x y] z]. unfold shear, mat3. cbn. field. Qed.
Lemma c01 : c_i_div_cj 1 [-1; 1] 0 1 = -1.
Proof. unfold c_i_div_cj, transpose. cbn. field. Qed.
Lemma c10 : c_i_div_cj 1 [-1; 1] 1 0 = -1.
Proof. unfold c_i_div_cj, transpose. cbn. field. Qed.
Lemma shear_g12 qx qy qz m : g3 (fun _ _ _ : R => shear) qx qy qz 1 2 m = 0.
Proof. unfold g3, at3. destruct (nth m _ _) as [[x y] z]. unfold shear, mat3. cbn. field. Qed.
Lemma shear_g10 qx qy qz m : g3 (fun _ _ _ : R => shear) qx qy qz 1 0 m = -1.
Proof. unfold g3, at3. destruct (nth m _ _) as [[x y] z]. unfold shear, mat3. cbn. field. Qed.
Lemma shear_g22 qx qy qz m : g3 (fun _ _ _ : R => shear) qx qy qz 2 2 m = 1.
Proof. unfold g3, at3. destruct (nth m _ _) as [[x y] z]. unfold shear, mat3. cbn. field. Qed.
Lemma hexahedron_k1_wrong : exists J sx qx wx M a b u1 v1 w1 u2 v2 w2 p1 q1 r1 p2 q2 r2,
  nodes_ok sx /\ length wx = length qx /\ exact_rule (2 * length sx) qx wx /\ (forall x y z, 0 < determinant 3 (J x y z)) /\
  mm331_unique_hexahedron J sx sx sx qx wx qx wx qx wx = Some M /\
  rc_m3n3k1 sx sx sx qx qx qx a = Some [u1; v1; w1] /\ rc_m3n3k1 sx sx sx qx qx qx b = Some [u2; v2; w2] /\
  rc_vector3 push1_3 J qx qx qx (Some [u1; v1; w1]) = Some [p1; q1; r1] /\ rc_vector3 push1_3 J qx qx qx (Some [u2; v2; w2]) = Some [p2; q2; r2] /\
  bilinear M a b <> rule3 qx wx qx wx qx wx (fun x y z p q r => determinant 3 (J x y z) *
    (at_3d p1 (length qx) (length qx) p q r * at_3d p2 (length qx) (length qx) p q r + at_3d q1 (length qx) (length qx) p q r * at_3d q2 (length qx) (length qx) p q r + at_3d r1 (length qx) (length qx) p q r * at_3d r2 (length qx) (length qx) p q r)).
Proof.
  pose (J := fun _ _ _ : R => shear).
  pose (sx := [-1; 1]). pose (qx := [-1; 0; 1]). pose (wx := [1/3; 4/3; 1/3]).
  pose (a := unit_cochain 12 0). pose (b := unit_cochain 12 4).
  pose proof nodes_two as Hx. fold sx in Hx.
  assert (La : length a = nd_m3n3k1 (degree sx) (degree sx) (degree sx)) by apply unit_length.
  assert (Lb : length b = nd_m3n3k1 (degree sx) (degree sx) (degree sx)) by apply unit_length.
  destruct (rc_3d_k1 sx sx sx qx qx qx a Hx Hx Hx La) as (u1 & v1 & w1 & Ea & G1 & G2 & G3).
  destruct (rc_3d_k1 sx sx sx qx qx qx b Hx Hx Hx Lb) as (u2 & v2 & w2 & Eb & G4 & G5 & G6).
  destruct (vector3_grid push1_3 J qx qx qx u1 v1 w1 _ _ _ G1 G2 G3) as (p1 & q1 & r1 & Pa & _).
  destruct (vector3_grid push1_3 J qx qx qx u2 v2 w2 _ _ _ G4 G5 G6) as (p2 & q2 & r2 & Pb & _).
  destruct (mm_m3n3k1 J sx sx sx qx wx qx wx qx wx false) as [M' |] eqn:EM'; [| discriminate EM'].
  destruct (mm331_unique_hexahedron J sx sx sx qx wx qx wx qx wx) as [M |] eqn:EM; [| discriminate EM].
  exists J, sx, qx, wx, M, a, b, u1, v1, w1, u2, v2, w2, p1, q1, r1, p2, q2, r2.
  refine (conj Hx (conj eq_refl (conj simpson (conj _ (conj EM (conj Ea (conj Eb (conj Pa (conj Pb _))))))))).
  { intros. unfold J. rewrite shear_det. lra. }
  destruct (mass_3d_k1 J sx sx sx qx wx qx wx qx wx Hx Hx Hx eq_refl eq_refl eq_refl false a b M' u1 v1 w1 u2 v2 w2 p1 q1 r1 p2 q2 r2 La Lb (or_introl eq_refl) EM' Ea Eb Pa Pb) as [S E].
  rewrite <- E. clear - EM EM' S. unfold a, b. rewrite (bilinear_unit M' 12) by (try exact S; lia).
  assert (S' : square M 12) by (apply some_sym' in EM; rewrite <- EM; split; reflexivity).
  rewrite (bilinear_unit M 12) by (try exact S'; lia).
  assert (Z : fm_at M 0 4 = 0) by (apply some_sym' in EM; rewrite <- EM; reflexivity). rewrite Z.
  assert (Z' : fm_at M' 0 4 = -1/6).
  { apply some_sym' in EM'. rewrite <- EM'. change (np_sum 27 (fun m => qw3 wx wx wx m * det3 J qx qx qx m * g3 J qx qx qx 0 1 m *
      fm_at (kron (kron (node_m sx qx) (node_m sx qx)) (edge_m sx qx)) 0 m * fm_at (kron (kron (node_m sx qx) (edge_m sx qx)) (node_m sx qx)) 0 m) = -1/6).
    rewrite np_sum_total, (total_ext 27 _ (fun m => - (qw3 wx wx wx m *
      fm_at (kron (kron (node_m sx qx) (node_m sx qx)) (edge_m sx qx)) 0 m * fm_at (kron (kron (node_m sx qx) (edge_m sx qx)) (node_m sx qx)) 0 m))) by (intros m _; rewrite shear_det3, shear_g01; ring).
    cbn -[c_i_div_cj]. unfold sx. rewrite c01, c10. field. }
  rewrite Z'. lra.
Qed.
Lemma hexahedron_k2_wrong : exists J sx qx wx M a b u1 v1 w1 u2 v2 w2 p1 q1 r1 p2 q2 r2,
  nodes_ok sx /\ length wx = length qx /\ exact_rule (2 * length sx) qx wx /\ (forall x y z, 0 < determinant 3 (J x y z)) /\
  mm332_unique_hexahedron J sx sx sx qx wx qx wx qx wx = Some M /\
  rc_m3n3k2 sx sx sx qx qx qx a = Some [u1; v1; w1] /\ rc_m3n3k2 sx sx sx qx qx qx b = Some [u2; v2; w2] /\
  rc_vector3 push2_3 J qx qx qx (Some [u1; v1; w1]) = Some [p1; q1; r1] /\ rc_vector3 push2_3 J qx qx qx (Some [u2; v2; w2]) = Some [p2; q2; r2] /\
  bilinear M a b <> rule3 qx wx qx wx qx wx (fun x y z p q r => determinant 3 (J x y z) *
    (at_3d p1 (length qx) (length qx) p q r * at_3d p2 (length qx) (length qx) p q r + at_3d q1 (length qx) (length qx) p q r * at_3d q2 (length qx) (length qx) p q r + at_3d r1 (length qx) (length qx) p q r * at_3d r2 (length qx) (length qx) p q r)).
Proof.
  pose (J := fun _ _ _ : R => shear).
  pose (sx := [-1; 1]). pose (qx := [-1; 0; 1]). pose (wx := [1/3; 4/3; 1/3]).
  pose (a := unit_cochain 6 0). pose (b := unit_cochain 6 2).
  pose proof nodes_two as Hx. fold sx in Hx.
  assert (La : length a = nd_m3n3k2 (degree sx) (degree sx) (degree sx)) by apply unit_length.
  assert (Lb : length b = nd_m3n3k2 (degree sx) (degree sx) (degree sx)) by apply unit_length.
  destruct (rc_3d_k2 sx sx sx qx qx qx a Hx Hx Hx La) as (u1 & v1 & w1 & Ea & G1 & G2 & G3).
  destruct (rc_3d_k2 sx sx sx qx qx qx b Hx Hx Hx Lb) as (u2 & v2 & w2 & Eb & G4 & G5 & G6).
  destruct (vector3_grid push2_3 J qx qx qx u1 v1 w1 _ _ _ G1 G2 G3) as (p1 & q1 & r1 & Pa & _).
  destruct (vector3_grid push2_3 J qx qx qx u2 v2 w2 _ _ _ G4 G5 G6) as (p2 & q2 & r2 & Pb & _).
  destruct (mm_m3n3k2 J sx sx sx qx wx qx wx qx wx false) as [M' |] eqn:EM'; [| discriminate EM'].
  destruct (mm332_unique_hexahedron J sx sx sx qx wx qx wx qx wx) as [M |] eqn:EM; [| discriminate EM].
  exists J, sx, qx, wx, M, a, b, u1, v1, w1, u2, v2, w2, p1, q1, r1, p2, q2, r2.
  refine (conj Hx (conj eq_refl (conj simpson (conj _ (conj EM (conj Ea (conj Eb (conj Pa (conj Pb _))))))))).
  { intros. unfold J. rewrite shear_det. lra. }
  destruct (mass_3d_k2 J sx sx sx qx wx qx wx qx wx Hx Hx Hx eq_refl eq_refl eq_refl false a b M' u1 v1 w1 u2 v2 w2 p1 q1 r1 p2 q2 r2 La Lb (or_introl eq_refl) EM' Ea Eb Pa Pb) as [S E].
  rewrite <- E. clear - EM EM' S. unfold a, b. rewrite (bilinear_unit M' 6) by (try exact S; lia).
  assert (S' : square M 6) by (apply some_sym' in EM; rewrite <- EM; split; reflexivity).
  rewrite (bilinear_unit M 6) by (try exact S'; lia).
  assert (Z : fm_at M 0 2 = 0) by (apply some_sym' in EM; rewrite <- EM; reflexivity). rewrite Z.
  assert (Z' : fm_at M' 0 2 = 1/8).
  { apply some_sym' in EM'. rewrite <- EM'. change (np_sum 27 (fun m => qw3 wx wx wx m * det3 J qx qx qx m * (g3 J qx qx qx 1 2 m * g3 J qx qx qx 2 0 m - g3 J qx qx qx 1 0 m * g3 J qx qx qx 2 2 m) *
      fm_at (kron (kron (edge_m sx qx) (edge_m sx qx)) (node_m sx qx)) 0 m * fm_at (kron (kron (edge_m sx qx) (node_m sx qx)) (edge_m sx qx)) 0 m) = 1/8).
    rewrite np_sum_total, (total_ext 27 _ (fun m => qw3 wx wx wx m *
      fm_at (kron (kron (edge_m sx qx) (edge_m sx qx)) (node_m sx qx)) 0 m * fm_at (kron (kron (edge_m sx qx) (node_m sx qx)) (edge_m sx qx)) 0 m)) by (intros m _; rewrite shear_det3, shear_g12, shear_g10, shear_g22; ring).
    cbn -[c_i_div_cj]. unfold sx. rewrite c01, c10. field. }
  rewrite Z'. lra.
Qed.

(** the Lobatto rule with the nodes of the basis functions: the mass matrix of
    nodal functions is lumped *)
Lemma lobatto_k0_wrong : exists J sx wx M a A l, nodes_ok sx /\ exact_rule (2 * length sx - 2) sx wx /\ determinant 1 J = 1 /\
  mm_m1n1k0 (fun _ => J) sx sx wx = Some M /\ length a = nd_m1n1k0 (degree sx) /\
  (forall x, rc_m1n1k0 sx [x] a = Some [[A x]]) /\ is_RInt (fun x => determinant 1 J * (A x * A x)) (-1) 1 l /\ bilinear M a a <> l.
Proof.
  pose (sx := [-1; 1]). pose (wx := [1; 1]). pose (J := fun _ _ : nat => 1).
  assert (DJ : determinant 1 J = 1) by (rewrite det_expand1; reflexivity).
  destruct (mm_m1n1k0 (fun _ => J) sx sx wx) as [M |] eqn:EM; [| discriminate EM].
  destruct (mm_m1n1k0 (fun _ => J) sx [-1; 0; 1] [1/3; 4/3; 1/3]) as [M' |] eqn:EM'; [| discriminate EM'].
  assert (HA : forall x, rc_m1n1k0 sx [x] [1; 0] = Some [[(1 - x) / 2]]).
  { intros x. destruct (rc_1d_k0 sx [x] [1; 0] nodes_two eq_refl) as (u & E & G). rewrite E. apply grid1_point in G. subst u. do 3 f_equal. cbn. field. }
  exists J, sx, wx, M, [1; 0], (fun x => (1 - x) / 2), (bilinear M' [1; 0] [1; 0]).
  refine (conj nodes_two (conj _ (conj DJ (conj EM (conj eq_refl (conj HA (conj _ _))))))).
  - intros k Hk. apply pow_RInt_eq. do 2 (destruct k as [| k]; [unfold total; cbn; field |]). cbn in Hk. lia.
  - apply (exact_1d_k0 J sx [-1; 0; 1] [1/3; 4/3; 1/3] M' [1; 0] [1; 0] (fun x => (1 - x) / 2) (fun x => (1 - x) / 2) nodes_two eq_refl simpson EM' eq_refl eq_refl HA HA).
  - apply some_sym' in EM, EM'. assert (E1 : bilinear M [1; 0] [1; 0] = 1) by (rewrite <- EM; unfold bilinear, total; cbn; unfold J, sx, wx; cbn; field).
    assert (E2 : bilinear M' [1; 0] [1; 0] = 2/3) by (rewrite <- EM'; unfold bilinear, total; cbn; unfold J, sx; cbn; field). lra.
Qed.

(** a call with [high_accuracy] after one without finds the matrix of the first *)
Lemma cached_mass_wrong : exists (build : string -> list nat * string -> string) degree p ntype,
  let cache := snd (mm_call build true [] false degree p ntype) in
  fst (mm_call build true cache true degree p ntype) <> build degree (quad_choice true true p ntype).
Proof. exists (fun _ q => snd q), "3"%string, [3]%nat, "Lobatto"%string. discriminate. Qed.
