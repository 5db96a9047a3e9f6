(** What a user means by an incidence matrix: its action on cochains.
    Nothing here mentions how the matrix is filled. *)
From Coq Require Import ZArith List Arith.
From Verif Require Import NdArray LocalNumberingModel IncidenceModel Sums.
Import ListNotations.
Local Open Scope Z_scope.

(** matrix-vector and matrix-matrix products *)
Definition matvec (E : mat) (x : nat -> Z) (r : nat) : Z :=
  sumn (m_cols E) (fun c => entry E r c * x c).
Definition matmul (E F : mat) (r c : nat) : Z :=
  sumn (m_cols E) (fun m => entry E r m * entry F m c).
Definition fmatmul (n : nat) (E F : nat -> nat -> Z) (r c : nat) : Z :=
  sumn n (fun m => E r m * F m c).

(** basis function [ix] of component [c] of a numbering has number [r] *)
Definition num (ln : option (list arr)) (c : nat) (ix : list nat) (r : nat) : Prop :=
  exists l a, ln = Some l /\ nth_error l c = Some a /\ aget a ix = Some r.

(** the cochain coefficient of a basis function; only meaningful when the basis
    function exists, which the theorems assert separately through [num] *)
Definition coef (x : nat -> Z) (ln : option (list arr)) (c : nat) (ix : list nat) : Z :=
  match ln with
  | Some l => match nth_error l c with
              | Some a => match aget a ix with Some r => x r | None => 0 end
              | None => 0
              end
  | None => 0
  end.
Definition exists_dof (ln : option (list arr)) (c : nat) (ix : list nat) : Prop :=
  exists r, num ln c ix r.

(** numbering is a bijection between the basis functions and 0..N-1 *)
Definition numbering_bijective (ln : option (list arr)) (N : nat) : Prop :=
  (forall c ix r, num ln c ix r -> (r < N)%nat) /\
  (forall c ix c' ix' r, num ln c ix r -> num ln c' ix' r -> c = c' /\ ix = ix') /\
  (forall r, (r < N)%nat -> exists c ix, num ln c ix r).

(** component c holds exactly the numbers  offset .. offset + size - 1 *)
Definition component_blocks (ln : option (list arr)) (sizes : list nat) : Prop :=
  (forall l, ln = Some l -> length l = length sizes) /\
  forall c n, nth_error sizes c = Some n ->
    forall r, (exists ix, num ln c ix r) <->
      (fold_right Nat.add 0 (firstn c sizes) <= r < fold_right Nat.add 0 (firstn c sizes) + n)%nat.

(** applying the exterior derivative twice gives zero *)
Definition annihilates (E1 E0 : mat) : Prop :=
  m_cols E1 = m_rows E0 /\
  forall r c, (r < m_rows E1)%nat -> (c < m_cols E0)%nat -> matmul E1 E0 r c = 0.

(** the coefficient at a node of a triangle element *)
Definition tri_coef (px py : nat) (x : nat -> Z) (i j : nat) : Z :=
  match ln_m2n2k0_tri px py [i; j] with Some r => x r | None => 0 end.
Definition tri_node (px py : nat) (i j : nat) : Prop :=
  exists r, ln_m2n2k0_tri px py [i; j] = Some r /\ (r < px * (py+1) + 1)%nat.
