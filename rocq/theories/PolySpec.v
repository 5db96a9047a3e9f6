(** What a user means by nodal and edge basis polynomials.  Nothing here mentions
    how they are computed: sums, polynomials given by coefficients, derivatives
    and integrals (Coquelicot's [is_derive], [is_RInt]). *)
From Coq Require Import List Arith Reals.
From Coquelicot Require Import Coquelicot.
Import ListNotations.
Local Open Scope R_scope.

(** f 0 + ... + f (n-1) *)
Fixpoint total (n : nat) (f : nat -> R) : R :=
  match n with O => 0 | S m => total m f + f m end.

Definition kronecker (i j : nat) : R := if Nat.eqb i j then 1 else 0.

(** the points are different and in increasing order *)
Definition increasing (xs : list R) : Prop :=
  forall i j, (i < j < length xs)%nat -> nth i xs 0 < nth j xs 0.

(** c0 + c1 x + c2 x^2 + ... *)
Fixpoint poly (c : list R) (x : R) : R :=
  match c with [] => 0 | a :: r => a + x * poly r x end.
(** f is a polynomial with at most n coefficients, i.e. degree < n *)
Definition poly_of_size (n : nat) (f : R -> R) : Prop :=
  exists c, (length c <= n)%nat /\ forall x, f x = poly c x.

(** a cochain (one coefficient per basis function) as a function *)
Definition combine_basis (n : nat) (basis : nat -> R -> R) (c : nat -> R) (x : R) : R :=
  total n (fun i => c i * basis i x).
