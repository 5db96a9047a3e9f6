(** What the axis-parallel geometries should mean: sets of points. *)
From Coq Require Import QArith Qabs List.
From Verif Require Import AxisModel.
Import ListNotations.
Local Open Scope Q_scope.

(** c lies between a and b, in whichever order they are; strictly between. *)
Definition between (a b c : Q) : Prop := (a <= c /\ c <= b) \/ (b <= c /\ c <= a).
Definition strictly (a b c : Q) : Prop := (a < c /\ c < b) \/ (b < c /\ c < a).

(** The coordinate along an axis. *)
Definition coo (a : axis) (p : point3) : Q :=
  match a with AX => px p | AY => py p | AZ => pz p end.

(** A segment of signed length len from o along the axis a: its points, and those
    that are not end points. *)
Definition seg_points (a : axis) (o : point3) (len : Q) (p : point3) : Prop :=
  between (coo a o) (coo a o + len) (coo a p) /\ forall b, b <> a -> coo b p == coo b o.
Definition seg_inner (a : axis) (o : point3) (len : Q) (p : point3) : Prop :=
  strictly (coo a o) (coo a o + len) (coo a p) /\ forall b, b <> a -> coo b p == coo b o.

(** A rectangle perpendicular to a with corner o and sides d. *)
Definition rect_points (a : axis) (o d p : point3) : Prop :=
  coo a p == coo a o /\ forall b, b <> a -> between (coo b o) (coo b o + coo b d) (coo b p).
Definition rect_inner (a : axis) (o d p : point3) : Prop :=
  coo a p == coo a o /\ forall b, b <> a -> strictly (coo b o) (coo b o + coo b d) (coo b p).

(** A box with corner o and sides d. *)
Definition box_points (o d p : point3) : Prop :=
  forall b, between (coo b o) (coo b o + coo b d) (coo b p).
Definition box_inner (o d p : point3) : Prop :=
  forall b, strictly (coo b o) (coo b o + coo b d) (coo b p).

(** Two points differ by at most t in every coordinate; every point of A has such
    a point of B beside it. *)
Definition near (t : Q) (p q : point3) : Prop := forall b, Qabs (coo b p - coo b q) <= t.
Definition within (t : Q) (A B : point3 -> Prop) : Prop :=
  forall p, A p -> exists q, B q /\ near t p q.

(** Same set of points. *)
Definition same_points (A B : point3 -> Prop) : Prop := forall p, A p <-> B p.

(** Entries at different places have no inner point in common. *)
Definition separate {T} (inner : T -> point3 -> Prop) (l : list T) : Prop :=
  forall i j x y, i <> j -> nth_error l i = Some x -> nth_error l j = Some y ->
  forall p, ~ (inner x p /\ inner y p).

(** A part of the list has the points of A as its union. *)
Definition union_of_part {T} (points : T -> point3 -> Prop) (A : point3 -> Prop) (l : list T) : Prop :=
  exists part, incl part l /\ same_points A (fun p => exists x, In x part /\ points x p).

(** Numbers that differ by at most t are equal. *)
Definition apart (t : Q) (l : list Q) : Prop :=
  forall x y, In x l -> In y l -> Qabs (x - y) <= t -> x == y.

(** The two ends along an axis. *)
Definition ends (b : axis) (o d : point3) : list Q := [coo b o; coo b o + coo b d].

(** The sides of a segment of length len along a. *)
Definition along (a : axis) (len : Q) : point3 :=
  match a with AX => mkP len 0 0 | AY => mkP 0 len 0 | AZ => mkP 0 0 len end.

(** All coordinates along b of a list of corner/side pairs keep the distance t. *)
Definition corners_apart (t : Q) (l : list (point3 * point3)) : Prop :=
  forall b, apart t (flat_map (fun od => ends b (fst od) (snd od)) l).
