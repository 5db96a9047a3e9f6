(** Outward unit normals. *)
From Coq Require Import List Arith Reals.
From Verif Require Import JacobianSpec.
Local Open Scope R_scope.

Definition vec2 (p : R * R) : nat -> R := fun i => match i with 0%nat => fst p | _ => snd p end.
Definition vec3 (p : R * R * R) : nat -> R := fun i => match i with 0%nat => fst (fst p) | 1%nat => snd (fst p) | _ => snd p end.
(** the end of the axis on which the face is: -1 or 1 *)
Definition end_sign (n : nat) : R := match n with 0%nat => -1 | _ => 1 end.
(** v is a unit vector; moving in the reference element with velocity w moves in space with velocity J w, and
    v is orthogonal to this exactly if w is along the face, positive if w leads out of the element *)
Definition outward (d : nat) (J : nat -> nat -> R) (axis side : nat) (v : nat -> R) : Prop :=
  dot d v v = 1 /\ exists c, 0 < c /\ forall w, dot d v (image d J w) = c * (end_sign side * w axis).
Definition inward (d : nat) (J : nat -> nat -> R) (axis side : nat) (v : nat -> R) : Prop :=
  dot d v v = 1 /\ exists c, 0 < c /\ forall w, dot d v (image d J w) = - (c * (end_sign side * w axis)).
(** the image of a face lies in a line or plane *)
Definition in_line (S : R * R -> Prop) : Prop := exists a b c, (a <> 0 \/ b <> 0) /\ forall p, S p -> a * fst p + b * snd p = c.
Definition in_plane (S : R * R * R -> Prop) : Prop :=
  exists a b c d, (a <> 0 \/ b <> 0 \/ c <> 0) /\ forall p, S p -> a * fst (fst p) + b * snd (fst p) + c * snd p = d.
(** twice the signed area of a triangle *)
Definition turn (A B C : R * R) : R := (fst B - fst A) * (snd C - snd A) - (snd B - snd A) * (fst C - fst A).
Definition ref (x : R) : Prop := -1 <= x <= 1.
Definition along (v p q : R * R) : R := fst v * (fst p - fst q) + snd v * (snd p - snd q).
