(** C60: what is computed from a Jacobian matrix.  Only statements and references to proofs; vocabulary in JacobianSpec.v, models in JacobianModel.v. *)
From Coq Require Import List Arith Reals Lra Lia.
From Coquelicot Require Import Coquelicot.
From Verif Require Import MappingModel MappingSpec MappingProofs JacobianModel JacobianSpec JacobianProofs.
Import ListNotations.
Local Open Scope R_scope.


Theorem jacobian_determinant n J : (1 <= n <= 3)%nat -> jac_det n J = Some (determinant n J).
Proof. exact (jac_det_spec n J). Qed.
Print Assumptions jacobian_determinant.

Theorem jacobian_other_dimensions n J : (n = 0 \/ 4 <= n)%nat -> jac_det n J = None.
Proof. exact (jac_det_refuse n J). Qed.
Print Assumptions jacobian_other_dimensions.

(** the metric is the determinant of J^T J *)
Theorem jacobian_metric n J : (1 <= n <= 3)%nat -> jac_metric n J = Some (determinant n (product n (transposed J) J)).
Proof. exact (jac_metric_spec n J). Qed.
Print Assumptions jacobian_metric.

Theorem jacobian_inverse_exists n J : (1 <= n <= 3)%nat -> exists K, jac_inv n J = Some K.
Proof. exact (jac_inv_some n J). Qed.
Print Assumptions jacobian_inverse_exists.

Theorem jacobian_inverse n J K : determinant n J <> 0 -> jac_inv n J = Some K ->
  same_matrix n (product n J K) identity /\ same_matrix n (product n K J) identity.
Proof. exact (jac_inv_inverse n J K). Qed.
Print Assumptions jacobian_inverse.

Theorem jacobian_inverse_determinant n J : (1 <= n <= 3)%nat -> determinant n J <> 0 -> jac_inv_det n J = Some (1 / determinant n J).
Proof. exact (jac_inv_det_spec n J). Qed.
Print Assumptions jacobian_inverse_determinant.

Theorem jacobian_metric_matrix n J : (1 <= n)%nat -> forall i j, jac_G n J i j = product n (transposed J) J i j.
Proof. exact (jac_G_spec n J). Qed.
Print Assumptions jacobian_metric_matrix.

Theorem jacobian_inverse_metric_matrix n K : (1 <= n)%nat -> forall i j, jac_iG n K i j = product n K (transposed K) i j.
Proof. exact (jac_iG_spec n K). Qed.
Print Assumptions jacobian_inverse_metric_matrix.

Theorem jacobian_metric_matrices_inverse n J K : determinant n J <> 0 -> jac_inv n J = Some K ->
  same_matrix n (product n (jac_G n J) (jac_iG n K)) identity.
Proof. exact (jac_iG_inverse n J K). Qed.
Print Assumptions jacobian_metric_matrices_inverse.

(** the metric matrix gives the inner products of images of vectors *)
Theorem jacobian_metric_lengths n J v w : (1 <= n)%nat ->
  dot n (image n J v) (image n J w) = dot n v (image n (jac_G n J) w).
Proof. exact (jac_G_lengths n J v w). Qed.
Print Assumptions jacobian_metric_lengths.

Theorem jacobian_metric_positive n J v : determinant n J <> 0 -> (1 <= n <= 3)%nat -> (exists i, (i < n)%nat /\ v i <> 0) ->
  0 < dot n v (image n (jac_G n J) v).
Proof. exact (jac_G_positive n J v). Qed.
Print Assumptions jacobian_metric_positive.

(** the inverse of the Jacobian matrix is the Jacobian matrix of the inverse mapping *)
Theorem jacobian_of_inverse_mapping f J g K x y iJ :
  determinant 2 (J x y) <> 0 -> jac_inv 2 (J x y) = Some iJ ->
  jacobian_of2 f J x y -> jacobian_of2 g K (fst (f x y)) (snd (f x y)) ->
  (forall u v, g (fst (f u v)) (snd (f u v)) = (u, v)) ->
  same_matrix 2 (K (fst (f x y)) (snd (f x y))) iJ.
Proof. exact (inverse_mapping2 f J g K x y iJ). Qed.
Print Assumptions jacobian_of_inverse_mapping.

(** the constants stored for orthogonal elements are the results of the general formulas *)
Theorem jacobian_orthogonal_rectangle rx ry : rx <> 0 -> ry <> 0 -> let o := or_constants rx ry in
  jac_det 2 (k_JM o) = Some (k_J o) /\ jac_metric 2 (k_JM o) = Some (k_metric o) /\
  jac_inv_det 2 (k_JM o) = Some (k_iJ o) /\
  (exists K, jac_inv 2 (k_JM o) = Some K /\ same_matrix 2 (k_iJM o) K /\ same_matrix 2 (k_imm o) (jac_iG 2 K)) /\
  same_matrix 2 (k_mm o) (jac_G 2 (k_JM o)).
Proof. exact (or_constants_spec rx ry). Qed.
Print Assumptions jacobian_orthogonal_rectangle.

Theorem jacobian_orthogonal_hexahedron rx ry rz : rx <> 0 -> ry <> 0 -> rz <> 0 -> let o := oh_constants rx ry rz in
  jac_det 3 (k_JM o) = Some (k_J o) /\ jac_metric 3 (k_JM o) = Some (k_metric o) /\
  jac_inv_det 3 (k_JM o) = Some (k_iJ o) /\
  (exists K, jac_inv 3 (k_JM o) = Some K /\ same_matrix 3 (k_iJM o) K /\ same_matrix 3 (k_imm o) (jac_iG 3 K)) /\
  same_matrix 3 (k_mm o) (jac_G 3 (k_JM o)).
Proof. exact (oh_constants_spec rx ry rz). Qed.
Print Assumptions jacobian_orthogonal_hexahedron.


(** but an orthogonal rectangle with a side below 1e-8 gets Jacobian zero *)
Theorem jacobian_tiny_rectangle_refuted (rd8 : R -> R) dx dy : (forall v, Rabs v < 5 / 10 ^ 9 -> rd8 v = 0) -> 0 < dx < 1 / 10 ^ 8 ->
  jac_det 2 (ortho_rect_J rd8 dx dy) = Some 0.
Proof. exact (tiny_rectangle rd8 dx dy). Qed.
Print Assumptions jacobian_tiny_rectangle_refuted.

(** * Examples *)
Definition example_J : nat -> nat -> R := mat3 1 2 0 0 1 3 1 0 1.
Example example_J_det : determinant 3 example_J = 7.
Proof. rewrite det_expand3. cbn. ring. Qed.
Example example_J_inverse : exists K, jac_inv 3 example_J = Some K /\ K 0%nat 1%nat = -2/7.
Proof. eexists. split; [reflexivity |]. cbn. field. Qed.
Example example_polar : (* the affine map (x + 2 y, 3 y) and its inverse *)
  let f := fun x y : R => (x + 2 * y, 3 * y) in
  let g := fun u v : R => (u - 2 * v / 3, v / 3) in
  jacobian_of2 f (fun _ _ => mat2 1 2 0 3) 0 0 /\ jacobian_of2 g (fun _ _ => mat2 1 (-2/3) 0 (1/3)) 0 0 /\
  (forall u v, g (fst (f u v)) (snd (f u v)) = (u, v)) /\ determinant 2 (mat2 1 2 0 3) <> 0.
Proof.
  refine (conj (conj _ _) (conj (conj _ _) (conj _ _))); cbn.
  - apply (D2_ext (fun u v => 1 * u + 2 * v)); [intros; ring | apply D2_linear].
  - apply (D2_ext (fun u v => 0 * u + 3 * v)); [intros; ring | apply D2_linear].
  - apply (D2_ext (fun u v => 1 * u + (-2/3) * v)); [intros; field | apply D2_linear].
  - apply (D2_ext (fun u v => 0 * u + (1/3) * v)); [intros; field | apply D2_linear].
  - intros. f_equal; field.
  - unfold minor. cbn. lra.
Qed.
Example example_tiny : let rd8 := fun v => if Rlt_dec (Rabs v) (5 / 10 ^ 9) then 0 else v in
  (forall v, Rabs v < 5 / 10 ^ 9 -> rd8 v = 0) /\ 0 < 1 / 10 ^ 9 < 1 / 10 ^ 8.
Proof. cbn zeta. split; [intros v H; destruct (Rlt_dec _ _); [reflexivity | contradiction] | lra]. Qed.

