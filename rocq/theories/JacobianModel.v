(** Model of what is computed from the Jacobian matrix of an element: its
    determinant and inverse, the metric and the metric matrices.

    /repo/msepy/mesh/coordinate_transformation.py 169-396 and
    /repo/msehtt/static/mesh/great/elements/types/base.py 639-860 (the same
    formulas; the caches keyed by the metric signature are not in this file),
    /repo/msehtt/static/mesh/great/elements/types/orthogonal_rectangle.py 326-369,
    orthogonal_hexahedron.py 357-409.

    Division is division of reals: where the code divides by zero the
    theorems assume that the Jacobian is not zero. *)
From Coq Require Import List Arith Reals.
From Verif Require Import MappingModel.
Import ListNotations.
Local Open Scope R_scope.

Local Notation i0 := 0%nat.
Local Notation i1 := 1%nat.
Local Notation i2 := 2%nat.

(** Jacobian, inverse_Jacobian: coordinate_transformation.py 169-198, 290-320; base.py 703-727, 762-786 *)
Definition jac_det (n : nat) (J : mat) : option R :=
  match n with
  | 1%nat => Some (J i0 i0)
  | 2%nat => Some (J i0 i0 * J i1 i1 - J i0 i1 * J i1 i0)
  | 3%nat => Some (J i0 i0 * J i1 i1 * J i2 i2 + J i0 i1 * J i1 i2 * J i2 i0
               + J i0 i2 * J i1 i0 * J i2 i1 - J i0 i0 * J i1 i2 * J i2 i1
               - J i0 i1 * J i1 i0 * J i2 i2 - J i0 i2 * J i1 i1 * J i2 i0)
  | _ => None
  end.

(** metric: 200-225; base.py 744-750 *)
Definition jac_metric (n : nat) (J : mat) : option R := option_map (fun d => d ^ 2) (jac_det n J).

(** inverse_Jacobian_matrix: 227-288; base.py 639-686 *)
Definition jac_inv (n : nat) (J : mat) : option mat :=
  match n with
  | 1%nat => Some (mat1 (1 / J i0 i0))
  | 2%nat => let r := 1 / (J i0 i0 * J i1 i1 - J i0 i1 * J i1 i0) in
         Some (mat2 (r * J i1 i1) (- r * J i0 i1) (- r * J i1 i0) (r * J i0 i0))
  | 3%nat => let d := J i0 i0 * J i1 i1 * J i2 i2 + J i0 i1 * J i1 i2 * J i2 i0
               + J i0 i2 * J i1 i0 * J i2 i1 - J i0 i0 * J i1 i2 * J i2 i1
               - J i0 i1 * J i1 i0 * J i2 i2 - J i0 i2 * J i1 i1 * J i2 i0 in
         let r := 1 / d in
         Some (mat3 (r * (J i1 i1 * J i2 i2 - J i1 i2 * J i2 i1)) (r * (J i2 i1 * J i0 i2 - J i2 i2 * J i0 i1)) (r * (J i0 i1 * J i1 i2 - J i0 i2 * J i1 i1))
                    (r * (J i1 i2 * J i2 i0 - J i1 i0 * J i2 i2)) (r * (J i2 i2 * J i0 i0 - J i2 i0 * J i0 i2)) (r * (J i0 i2 * J i1 i0 - J i0 i0 * J i1 i2))
                    (r * (J i1 i0 * J i2 i1 - J i1 i1 * J i2 i0)) (r * (J i2 i0 * J i0 i1 - J i2 i1 * J i0 i0)) (r * (J i0 i0 * J i1 i1 - J i0 i1 * J i1 i0)))
  | _ => None
  end.

(** inverse_Jacobian: the determinant of the inverse *)
Definition jac_inv_det (n : nat) (J : mat) : option R :=
  match jac_inv n J with Some K => jac_det n K | None => None end.

(** [t = f 0; for L in range(1, n): t += f L] *)
Definition acc_sum (n : nat) (f : nat -> R) : R := fold_left (fun t L => t + f L) (seq 1 (n - 1)) (f 0%nat).

(** metric_matrix: 322-356; base.py 802-815.  Only the entries with i <= j are
    computed, [G[j][i] = G[i][j]] *)
Definition jac_G (m : nat) (J : mat) : mat := fun i j =>
  acc_sum m (fun L => J L (Nat.min i j) * J L (Nat.max i j)).
(** inverse_metric_matrix: 358-396; base.py 831-844 *)
Definition jac_iG (n : nat) (K : mat) : mat := fun i j =>
  acc_sum n (fun L => K (Nat.min i j) L * K (Nat.max i j) L).

(** * the constants of orthogonal elements *)
Record constants := { k_J : R; k_metric : R; k_iJ : R; k_JM : mat; k_iJM : mat; k_mm : mat; k_imm : mat }.
(** orthogonal_rectangle.py 340-369 *)
Definition or_constants (rx ry : R) : constants :=
  let jac := rx * ry in
  let r := 1 / jac in
  let i00 := r * ry in
  let i11 := r * rx in
  {| k_J := jac; k_metric := jac ^ 2; k_iJ := i00 * i11;
     k_JM := mat2 rx 0 0 ry; k_iJM := mat2 i00 0 0 i11;
     k_mm := mat2 (rx ^ 2) 0 0 (ry ^ 2); k_imm := mat2 (i00 ^ 2) 0 0 (i11 ^ 2) |}.
(** orthogonal_hexahedron.py 373-409 *)
Definition oh_constants (rx ry rz : R) : constants :=
  let jac := rx * ry * rz in
  let r := 1 / jac in
  let i00 := r * ry * rz in
  let i11 := r * rz * rx in
  let i22 := r * rx * ry in
  {| k_J := jac; k_metric := jac ^ 2; k_iJ := i00 * i11 * i22;
     k_JM := mat3 rx 0 0 0 ry 0 0 0 rz; k_iJM := mat3 i00 0 0 0 i11 0 0 0 i22;
     k_mm := mat3 (rx ^ 2) 0 0 0 (ry ^ 2) 0 0 0 (rz ^ 2); k_imm := mat3 (i00 ^ 2) 0 0 0 (i11 ^ 2) 0 0 0 (i22 ^ 2) |}.
