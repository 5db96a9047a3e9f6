(** What a user means by a mass matrix: the matrix of the inner product of
    discrete forms, computed with the quadrature rule. *)
From Coq Require Import List Arith Reals.
From Verif Require Import PolySpec TensorModel.
Local Open Scope R_scope.

(** [a^T M b] *)
Definition bilinear (M : fm) (a b : list R) : R :=
  total (fm_rows M) (fun i => total (fm_cols M) (fun j => nth i a 0 * fm_at M i j * nth j b 0)).
Definition square (M : fm) (n : nat) : Prop := fm_rows M = n /\ fm_cols M = n.
Definition symmetric (M : fm) : Prop :=
  fm_rows M = fm_cols M /\
  forall i j, (i < fm_rows M)%nat -> (j < fm_rows M)%nat -> fm_at M i j = fm_at M j i.

(** the sums a tensor product rule computes for a function of the point *)
Definition rule1 (qx wx : list R) (f : R -> nat -> R) : R :=
  total (length qx) (fun p => nth p wx 0 * f (nth p qx 0) p).
Definition rule2 (qx wx qy wy : list R) (f : R -> R -> nat -> nat -> R) : R :=
  total (length qx) (fun p => total (length qy) (fun q =>
    nth p wx 0 * nth q wy 0 * f (nth p qx 0) (nth q qy 0) p q)).
Definition rule3 (qx wx qy wy qz wz : list R) (f : R -> R -> R -> nat -> nat -> nat -> R) : R :=
  total (length qx) (fun p => total (length qy) (fun q => total (length qz) (fun r =>
    nth p wx 0 * nth q wy 0 * nth r wz 0 * f (nth p qx 0) (nth q qy 0) (nth r qz 0) p q r))).

(** a rule that sees polynomials of the size of the nodes: as many increasing
    points, positive weights *)
Definition good_rule (xs qx wx : list R) : Prop :=
  increasing qx /\
  length wx = length qx /\ (length xs <= length qx)%nat /\
  (forall p, (p < length qx)%nat -> 0 < nth p wx 0).
(** at all points of a rule *)
Definition on_rule2 (qx qy : list R) (P : R -> R -> Prop) : Prop :=
  forall p q, (p < length qx)%nat -> (q < length qy)%nat -> P (nth p qx 0) (nth q qy 0).
Definition on_rule3 (qx qy qz : list R) (P : R -> R -> R -> Prop) : Prop :=
  forall p q r, (p < length qx)%nat -> (q < length qy)%nat -> (r < length qz)%nat -> P (nth p qx 0) (nth q qy 0) (nth r qz 0).
Definition on_rule1 (qx : list R) (P : R -> Prop) : Prop := forall p, (p < length qx)%nat -> P (nth p qx 0).

(** a cochain of size [n] that is not zero *)
Definition nonzero (n : nat) (a : list R) : Prop := exists i, (i < n)%nat /\ nth i a 0 <> 0.

(** the coordinate lines of the element are parallel to the axes *)
Definition diagonal (n : nat) (J : nat -> nat -> R) : Prop :=
  forall i j, (i < n)%nat -> (j < n)%nat -> i <> j -> J i j = 0.
