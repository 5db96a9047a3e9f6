(** Regions that fit together. *)
From Coq Require Import List Arith Reals.
Import ListNotations.
Local Open Scope R_scope.

(** faces: x-, x+, y-, y+, z-, z+; the points of a face of the unit square or cube *)
Definition opposite (f : nat) : nat := if Nat.even f then S f else Nat.pred f.
Definition side1 (f : nat) : R := match f with 0%nat => 0 | _ => 1 end.
Definition side2 (f : nat) (t : R) : R * R :=
  match f with 0%nat => (0, t) | 1%nat => (1, t) | 2%nat => (t, 0) | _ => (t, 1) end.
Definition side3 (f : nat) (t u : R) : R * R * R :=
  match f with
  | 0%nat => (0, t, u) | 1%nat => (1, t, u) | 2%nat => (t, 0, u) | 3%nat => (t, 1, u) | 4%nat => (t, u, 0) | _ => (t, u, 1)
  end.
Definition at2 (phi : R -> R -> R * R) (p : R * R) : R * R := phi (fst p) (snd p).
Definition at3 (phi : R -> R -> R -> R * R * R) (p : R * R * R) : R * R * R := phi (fst (fst p)) (snd (fst p)) (snd p).
(** moving along the axis of the face f by z *)
Definition moved2 (f : nat) (z : R) (p : R * R) : R * R :=
  match (f / 2)%nat with 0%nat => (fst p + z, snd p) | _ => (fst p, snd p + z) end.
Definition moved3 (f : nat) (z : R) (p : R * R * R) : R * R * R :=
  match (f / 2)%nat with
  | 0%nat => (fst (fst p) + z, snd (fst p), snd p) | 1%nat => (fst (fst p), snd (fst p) + z, snd p)
  | _ => (fst (fst p), snd (fst p), snd p + z)
  end.

(** Neighbours: the region r' across face f of r has r across the opposite
    face, and the mappings agree on the common face, point by point; in a
    periodic domain up to the period along the axis of the face ([period m]
    is the period of axis m, 0 if the domain is not periodic there). *)
Definition shift_of (f : nat) (period : nat -> R) (z : R) : Prop :=
  z = 0 \/ z = (if Nat.even f then -1 else 1) * period (f / 2)%nat.
Definition glued1 (N : nat) (nb : nat -> nat -> option nat) (phi : nat -> R -> R) (period : nat -> R) : Prop :=
  forall r f r', (r < N)%nat -> (f < 2)%nat -> nb r f = Some r' ->
    (r' < N)%nat /\ nb r' (opposite f) = Some r /\
    exists z, shift_of f period z /\ phi r (side1 f) = phi r' (side1 (opposite f)) + z.
Definition glued2 (N : nat) (nb : nat -> nat -> option nat) (phi : nat -> R -> R -> R * R) (period : nat -> R) : Prop :=
  forall r f r', (r < N)%nat -> (f < 4)%nat -> nb r f = Some r' ->
    (r' < N)%nat /\ nb r' (opposite f) = Some r /\
    exists z, shift_of f period z /\ forall t, at2 (phi r) (side2 f t) = moved2 f z (at2 (phi r') (side2 (opposite f) t)).
Definition glued3 (N : nat) (nb : nat -> nat -> option nat) (phi : nat -> R -> R -> R -> R * R * R) (period : nat -> R) : Prop :=
  forall r f r', (r < N)%nat -> (f < 6)%nat -> nb r f = Some r' ->
    (r' < N)%nat /\ nb r' (opposite f) = Some r /\
    exists z, shift_of f period z /\ forall t u, at3 (phi r) (side3 f t u) = moved3 f z (at3 (phi r') (side3 (opposite f) t u)).
(** the faces without a neighbour lie on the boundary of the domain, given as a set of points *)
Definition walls1 (N : nat) (nb : nat -> nat -> option nat) (phi : nat -> R -> R) (wall : R -> Prop) : Prop :=
  forall r f, (r < N)%nat -> (f < 2)%nat -> nb r f = None -> wall (phi r (side1 f)).
Definition walls2 (N : nat) (nb : nat -> nat -> option nat) (phi : nat -> R -> R -> R * R) (wall : nat -> nat -> R * R -> Prop) : Prop :=
  forall r f, (r < N)%nat -> (f < 4)%nat -> nb r f = None -> forall t, wall r f (at2 (phi r) (side2 f t)).
Definition walls3 (N : nat) (nb : nat -> nat -> option nat) (phi : nat -> R -> R -> R -> R * R * R) (wall : nat -> nat -> R * R * R -> Prop) : Prop :=
  forall r f, (r < N)%nat -> (f < 6)%nat -> nb r f = None -> forall t u, wall r f (at3 (phi r) (side3 f t u)).
(** the walls of a box; face f *)
Definition box2 (a b c d : R) (f : nat) (p : R * R) : Prop :=
  match f with 0%nat => fst p = a | 1%nat => fst p = b | 2%nat => snd p = c | _ => snd p = d end.
Definition box3 (a b c d e g : R) (f : nat) (p : R * R * R) : Prop :=
  match f with
  | 0%nat => fst (fst p) = a | 1%nat => fst (fst p) = b | 2%nat => snd (fst p) = c | 3%nat => snd (fst p) = d
  | 4%nat => snd p = e | _ => snd p = g
  end.
(** the corners 0, 1, 2, 3 of the unit square, anticlockwise, and the edge from one to another *)
Definition corner2 (n : nat) : R * R := match n with 0%nat => (0, 0) | 1%nat => (1, 0) | 2%nat => (1, 1) | _ => (0, 1) end.
Definition edge2 (p q : nat) (t : R) : R * R :=
  ((1 - t) * fst (corner2 p) + t * fst (corner2 q), (1 - t) * snd (corner2 p) + t * snd (corner2 q)).
