(** What stream functions and operations on data sets are for. *)
From Coq Require Import List ZArith QArith Qcanon.
From Verif Require Import DdsModel.
Import ListNotations.
Local Open Scope Qc_scope.

(** the trapezoidal rule for u dy - v dx on the straight segment from node (a, b) to node (c, d) *)
Definition flux (r : region) (a b c d : nat) : Qc :=
  (U r a b + U r c d) / qc_of 2 * (Y r c d - Y r a b) - (V r a b + V r c d) / qc_of 2 * (X r c d - X r a b).
(** the differences of f are the fluxes: between neighbours in all lines along the first axis, and in the first line along the second *)
Definition integrates (r : region) (f : arr) : Prop :=
  (forall i j, (i < l0 r)%nat -> (j <= l1 r)%nat -> f (S i) j - f i j = flux r i j (S i) j) /\
  (forall j, (j < l1 r)%nat -> f 0%nat (S j) - f 0%nat j = flux r 0 j 0 (S j)).
Definition in_region (r : region) (i j : nat) : Prop := (i <= l0 r)%nat /\ (j <= l1 r)%nat.
(** all fluxes between neighbours are differences of one function of the point *)
Definition potential (psi : Qc -> Qc -> Qc) (r : region) : Prop :=
  let P := fun i j => psi (X r i j) (Y r i j) in
  (forall i j, (i < l0 r)%nat -> (j <= l1 r)%nat -> P (S i) j - P i j = flux r i j (S i) j) /\
  (forall i j, (i <= l0 r)%nat -> (j < l1 r)%nat -> P i (S j) - P i j = flux r i j i (S j)).
(** the velocity of the quadratic stream function c0 + c1 x + c2 y + c3 x^2 + c4 x y + c5 y^2 *)
Definition quadratic (c0 c1 c2 c3 c4 c5 x y : Qc) : Qc := c0 + c1 * x + c2 * y + c3 * x * x + c4 * x * y + c5 * y * y.
Definition linear_flow (c0 c1 c2 c3 c4 c5 : Qc) (r : region) : Prop := forall i j,
  U r i j = c2 + c4 * X r i j + qc_of 2 * c5 * Y r i j /\
  V r i j = - (c1 + qc_of 2 * c3 * X r i j + c4 * Y r i j).

(** corners, by their coordinates; regions that are reached from some texts of coordinates over common corners *)
Definition corner_point (r : region) (c : corner) : Qc * Qc := let (i, j) := corner_ij r c in (X r i j, Y r i j).
Inductive reached (rs : list region) (K : pkey -> Prop) : region -> Prop :=
| reach_start r c : In r rs -> K (corner_key r c) -> reached rs K r
| reach_next r c r' c' : reached rs K r -> In r' rs -> corner_key r c = corner_key r' c' -> reached rs K r'.
(** equal texts only for equal points *)
Definition faithful (rs : list region) : Prop := forall r c r' c', In r rs -> In r' rs ->
  corner_key r c = corner_key r' c' -> corner_point r c = corner_point r' c'.
Definition first (rs : list region) (r : region) : Prop := In r rs /\ forall r', In r' rs -> (name r <= name r')%Z.

(** values of a data set *)
Definition value_at (d : dds) (n : Z) (i k : nat) (q : Qc) : Prop :=
  exists b v, In b d /\ bname b = n /\ nth_error (val b) i = Some v /\ nth_error v k = Some q.
Definition same_nodes (a c : dds) : Prop := map bname a = map bname c /\ map coo a = map coo c /\ map shape a = map shape c.
(** as the constructor accepts it: names differ, all arrays of a region have the same number of entries *)
Definition dds_ok (d : dds) : Prop := NoDup (map bname d) /\
  forall b, In b d -> exists n, (forall v, In v (coo b) -> length v = n) /\ (forall v, In v (val b) -> length v = n).

(** coordinates that count as equal, relative to the second *)
Definition near (p q : Qc) : Prop := absq (p - q) <= Q2Qc (1 # 100000000) + absq q / qc_of 100000.
Definition matching (a b : dds) : Prop :=
  (forall n, In n (map bname a) <-> In n (map bname b)) /\
  forall x y, In x a -> In y b -> bname x = bname y -> Forall2 (Forall2 near) (coo x) (coo y) /\ length (val x) = length (val y).
Fixpoint total (l : list Qc) : Qc := match l with [] => 0 | a :: l => a + total l end.
Definition column (b : block) (k : nat) : list Qc := map (fun v => nth k v 0) (val b).
(** m is the largest (smallest) of l *)
Definition is_max (l : list Qc) (m : Qc) : Prop := In m l /\ forall x, In x l -> x <= m.
Definition is_min (l : list Qc) (m : Qc) : Prop := In m l /\ forall x, In x l -> m <= x.
(** the area of the smallest rectangle around the nodes of a region in two dimensions *)
Definition box_area (b : block) (s : Qc) : Prop := exists cx cy x0 x1 y0 y1,
  coo b = [cx; cy] /\ is_min cx x0 /\ is_max cx x1 /\ is_min cy y0 /\ is_max cy y1 /\ s = (x1 - x0) * (y1 - y0).
