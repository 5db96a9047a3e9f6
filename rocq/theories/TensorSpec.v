(** What a user means by a discrete form on a tensor product element.

    The coefficient of the basis function with multi-index (i, j, k) is the
    cochain entry with the number the local numbering gives it; the form is the
    sum of the coefficients times products of one-dimensional polynomials. *)
From Coq Require Import ZArith List Arith Reals.
From Coquelicot Require Import Coquelicot.
From Verif Require Import NdArray LocalNumberingModel IncidenceModel IncidenceSpec PolySpec.
Import ListNotations.
Local Open Scope R_scope.

(** a one-dimensional basis: number of functions, the functions *)
Notation basis := (nat * (nat -> R -> R))%type.

(** the coefficient of a basis function, for real cochains (as IncidenceSpec.coef) *)
Definition rcoef (x : nat -> R) (ln : option (list arr)) (c : nat) (ix : list nat) : R :=
  match ln with
  | Some l => match nth_error l c with
              | Some a => match aget a ix with Some r => x r | None => 0 end
              | None => 0
              end
  | None => 0
  end.

(** component [c] of the form with cochain [x] as a function of reference coordinates *)
Definition form1 (x : nat -> R) ln c (bx : basis) (xi : R) : R :=
  total (fst bx) (fun i => rcoef x ln c [i] * snd bx i xi).
Definition form2 (x : nat -> R) ln c (bx by' : basis) (xi et : R) : R :=
  total (fst bx) (fun i => total (fst by') (fun j => rcoef x ln c [i; j] * (snd bx i xi * snd by' j et))).
Definition form3 (x : nat -> R) ln c (bx by' bz : basis) (xi et sg : R) : R :=
  total (fst bx) (fun i => total (fst by') (fun j => total (fst bz) (fun k =>
    rcoef x ln c [i; j; k] * (snd bx i xi * snd by' j et * snd bz k sg)))).

(** the incidence matrix times a real cochain *)
Definition apply (E : mat) (x : nat -> R) (r : nat) : R :=
  total (m_cols E) (fun c => IZR (entry E r c) * x c).

(** a list as a cochain *)
Definition cochain (l : list R) (r : nat) : R := nth r l 0.

(** integrals over a rectangle and a box, one variable after the other *)
Definition integral2 (f : R -> R -> R) (a b c d l : R) : Prop :=
  exists g, (forall y, is_RInt (fun x => f x y) a b (g y)) /\ is_RInt g c d l.
Definition integral3 (f : R -> R -> R -> R) (a b c d e h l : R) : Prop :=
  exists g, (forall z, integral2 (fun x y => f x y z) a b c d (g z)) /\ is_RInt g e h l.
