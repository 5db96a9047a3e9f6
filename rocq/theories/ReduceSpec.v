(** Quadrature rules, and integrals of fields along curves, through curves and
    surfaces, and of densities. *)
From Coq Require Import List Arith Reals.
From Coquelicot Require Import Coquelicot.
From Verif Require Import PolySpec.
Import List ListNotations.
Local Open Scope R_scope.

(** the rule with points [qn] in [-1, 1] and weights [qw], moved to [a, b] *)
Definition rule_sum (qn qw : list R) (a b : R) (f : R -> R) : R :=
  (b - a) / 2 * total (length qw) (fun r => nth r qw 0 * f (a + (b - a) / 2 * (nth r qn 0 + 1))).
(** the rule is exact for polynomials with at most d coefficients *)
Definition exact_rule (d : nat) (qn qw : list R) : Prop :=
  forall k, (k < d)%nat -> is_RInt (fun x => x ^ k) (-1) 1 (total (length qw) (fun r => nth r qw 0 * nth r qn 0 ^ k)).
Definition proper_rule (d : nat) (qn qw : list R) : Prop :=
  length qn = length qw /\ List.Forall (fun x => -1 <= x <= 1) qn /\ exact_rule d qn qw.
Definition in_reference (s : list R) : Prop := List.Forall (fun x => -1 <= x <= 1) s.

(** velocity of a moving point *)
Definition velocity2 (c : R -> R * R) (t : R) (v : R * R) : Prop :=
  is_derive (fun s => fst (c s)) t (fst v) /\ is_derive (fun s => snd (c s)) t (snd v).
Definition velocity3 (c : R -> R * R * R) (t : R) (v : R * R * R) : Prop :=
  is_derive (fun s => fst (fst (c s))) t (fst (fst v)) /\ is_derive (fun s => snd (fst (c s))) t (snd (fst v)) /\ is_derive (fun s => snd (c s)) t (snd v).
(** a vector times the velocity; times the velocity turned to the left, to the right *)
Definition along2 (f v : R * R) : R := fst f * fst v + snd f * snd v.
Definition to_left (f v : R * R) : R := - (fst f * snd v) + snd f * fst v.
Definition to_right (f v : R * R) : R := fst f * snd v - snd f * fst v.
Definition along3 (f v : R * R * R) : R := fst (fst f) * fst (fst v) + snd (fst f) * snd (fst v) + snd f * snd v.
Definition cross (a b : R * R * R) : R * R * R :=
  (snd (fst a) * snd b - snd a * snd (fst b), snd a * fst (fst b) - fst (fst a) * snd b, fst (fst a) * snd (fst b) - snd (fst a) * fst (fst b)).
(** flux through a surface with the tangent vectors a and b *)
Definition through (f a b : R * R * R) : R := along3 f (cross a b).
(** signed area and volume spanned by velocities *)
Definition area2 (a b : R * R) : R := fst a * snd b - snd a * fst b.
Definition volume3 (a b c : R * R * R) : R := along3 a (cross b c).

(** velocities of the images of the coordinate lines, on the reference element *)
Definition ref (x : R) : Prop := -1 <= x <= 1.
Definition moves2 (phi : R -> R -> R * R) (vx vy : R -> R -> R * R) : Prop :=
  forall x y, ref x -> ref y -> velocity2 (fun s => phi s y) x (vx x y) /\ velocity2 (fun s => phi x s) y (vy x y).
Definition moves3 (phi : R -> R -> R -> R * R * R) (vx vy vz : R -> R -> R -> R * R * R) : Prop :=
  forall x y z, ref x -> ref y -> ref z ->
    velocity3 (fun s => phi s y z) x (vx x y z) /\ velocity3 (fun s => phi x s z) y (vy x y z) /\ velocity3 (fun s => phi x y s) z (vz x y z).

(** the rule in two and three variables *)
Definition rule_sum2 (qx wx qy wy : list R) (a b c d : R) (f : R -> R -> R) : R :=
  rule_sum qy wy c d (fun y => rule_sum qx wx a b (fun x => f x y)).
Definition rule_sum3 (qx wx qy wy qz wz : list R) (a b c d e h : R) (f : R -> R -> R -> R) : R :=
  rule_sum qz wz e h (fun z => rule_sum2 qx wx qy wy a b c d (fun x y => f x y z)).
(** iterated integrals over a rectangle and a box; only the values there matter *)
Definition integral_on2 (f : R -> R -> R) (a b c d l : R) : Prop :=
  exists g, (forall y, c <= y <= d -> is_RInt (fun x => f x y) a b (g y)) /\ is_RInt g c d l.
Definition integral_on3 (f : R -> R -> R -> R) (a b c d e h l : R) : Prop :=
  exists g, (forall z, e <= z <= h -> integral_on2 (fun x y => f x y z) a b c d (g z)) /\ is_RInt g e h l.
