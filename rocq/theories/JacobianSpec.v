(** Matrices: product, identity, transpose, determinant by Laplace expansion. *)
From Coq Require Import List Arith Reals.
Local Open Scope R_scope.

Fixpoint sum_n (n : nat) (f : nat -> R) : R := match n with O => 0 | S n => sum_n n f + f n end.
Definition product (n : nat) (A B : nat -> nat -> R) : nat -> nat -> R := fun i j => sum_n n (fun l => A i l * B l j).
Definition identity : nat -> nat -> R := fun i j => if (i =? j)%nat then 1 else 0.
Definition transposed (A : nat -> nat -> R) : nat -> nat -> R := fun i j => A j i.
Definition same_matrix (n : nat) (A B : nat -> nat -> R) : Prop := forall i j, (i < n)%nat -> (j < n)%nat -> A i j = B i j.
(** A without its first row and its column c *)
Definition minor (A : nat -> nat -> R) (c : nat) : nat -> nat -> R := fun i j => A (S i) (if (j <? c)%nat then j else S j).
Fixpoint determinant (n : nat) (A : nat -> nat -> R) : R :=
  match n with
  | O => 1
  | S n' => sum_n (S n') (fun c => (-1) ^ c * A 0%nat c * determinant n' (minor A c))
  end.
(** the matrix applied to a vector, inner products of vectors *)
Definition image (n : nat) (A : nat -> nat -> R) (v : nat -> R) : nat -> R := fun i => sum_n n (fun l => A i l * v l).
Definition dot (n : nat) (v w : nat -> R) : R := sum_n n (fun i => v i * w i).
