(** What a user means by a Jacobian matrix: the derivative of the mapping.
    Coquelicot's [is_derive] and [differentiable_pt_lim] (the linear map with
    the two given coefficients approximates the function to first order). *)
From Coq Require Import List Arith Reals.
From Coquelicot Require Import Coquelicot.
Import ListNotations.
Local Open Scope R_scope.

Definition jacobian_of1 (f : R -> R) (J : R -> nat -> nat -> R) (x : R) : Prop :=
  is_derive f x (J x 0%nat 0%nat).

(** the mapping of the plane is differentiable at (x, y) and J is its derivative *)
Definition jacobian_of2 (f : R -> R -> R * R) (J : R -> R -> nat -> nat -> R) (x y : R) : Prop :=
  differentiable_pt_lim (fun u v => fst (f u v)) x y (J x y 0%nat 0%nat) (J x y 0%nat 1%nat) /\
  differentiable_pt_lim (fun u v => snd (f u v)) x y (J x y 1%nat 0%nat) (J x y 1%nat 1%nat).

(** the three coordinates of the image, and J is the matrix of the nine partial derivatives *)
Definition coordinate3 (m : nat) (p : R * R * R) : R :=
  match m with 0%nat => fst (fst p) | 1%nat => snd (fst p) | _ => snd p end.
Definition jacobian_of3 (f : R -> R -> R -> R * R * R) (J : R -> R -> R -> nat -> nat -> R) (x y z : R) : Prop :=
  forall m, (m < 3)%nat ->
    is_derive (fun u => coordinate3 m (f u y z)) x (J x y z m 0%nat) /\
    is_derive (fun v => coordinate3 m (f x v z)) y (J x y z m 1%nat) /\
    is_derive (fun w => coordinate3 m (f x y w)) z (J x y z m 2%nat).

(** a curve and its velocity *)
Definition velocity_of (g dg : R -> R * R) : Prop :=
  forall o, is_derive (fun t => fst (g t)) o (fst (dg o)) /\ is_derive (fun t => snd (g t)) o (snd (dg o)).
