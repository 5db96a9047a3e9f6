(** C84: polygons of the plane. *)
From Coq Require Import Reals Bool List Arith Lra Lia.
From Verif Require Import SgModel SgSpec SgThms SgPoly SgPolyThms.
Import ListNotations.
Local Open Scope R_scope.

(** the i-th edge goes from the i-th vertex to the next one around the polygon, and exists exactly if it is longer than 1e-3 *)
Theorem sgp_edges v i s : edge v i = Some s <->
  (i < length v)%nat /\ s = mkSeg (nth i v (mkPt 0 0)) (next v i) /\ / 10 ^ 3 < dist (nth i v (mkPt 0 0)) (next v i).
Proof. exact (edge_is v i s). Qed.
Print Assumptions sgp_edges.
(** a point is in the polygon exactly if it is found on an edge or matplotlib finds it inside *)
Theorem sgp_points path v p : edges_long v -> exists b, in_poly path v p = Some b /\
  (b = true <-> (exists j, (j < length v)%nat /\ on_seg p (mkSeg (nth j v (mkPt 0 0)) (next v j)) = true) \/ path v p = true).
Proof. exact (in_poly_value path v p). Qed.
Print Assumptions sgp_points.
(** every point of every edge is in the polygon, whatever matplotlib says *)
Theorem sgp_edge_points path v j t : edges_long v -> (j < length v)%nat -> 0 <= t <= 1 ->
  in_poly path v (at_ (mkSeg (nth j v (mkPt 0 0)) (next v j)) t) = Some true.
Proof. exact (edge_point path v j t). Qed.
Print Assumptions sgp_edge_points.
(** a polygon is contained exactly if it is equal or all its vertices are in the polygon *)
Theorem sgp_contain path v w : edges_long v -> exists b, poly_contain path v w = Some b /\
  (b = true <-> poly_eq v w = true \/ forall p, In p w -> in_poly path v p = Some true).
Proof. exact (contain_value path v w). Qed.
Print Assumptions sgp_contain.
(** polygons on some of the vertices are contained *)
Theorem sgp_vertices path v w : edges_long v -> incl w v -> poly_contain path v w = Some true.
Proof. exact (contain_vertices path v w). Qed.
Print Assumptions sgp_vertices.
(** REFUTED: contained polygons are subsets; the convex hull of an arrow is contained in the arrow *)
Theorem sgp_contained_refuted path :
  poly_contain path [mkPt 0 0; mkPt 2 1; mkPt 4 0; mkPt 2 4] [mkPt 0 0; mkPt 4 0; mkPt 2 4] = Some true /\
  in_tri (mkPt 0 0) (mkPt 4 0) (mkPt 2 4) (mkPt 2 (/ 2)) /\
  ~ in_tri (mkPt 0 0) (mkPt 2 1) (mkPt 2 4) (mkPt 2 (/ 2)) /\ ~ in_tri (mkPt 2 1) (mkPt 4 0) (mkPt 2 4) (mkPt 2 (/ 2)).
Proof. exact (concave path). Qed.
Print Assumptions sgp_contained_refuted.
(** REFUTED: the test of points works for polygons of any size; an edge not longer than 1e-3 makes it raise
    unless the point is found on an earlier edge *)
Theorem sgp_short_refuted path v p j : (j < length v)%nat -> dist (nth j v (mkPt 0 0)) (next v j) <= / 10 ^ 3 ->
  (forall m, (m < j)%nat -> on_seg p (mkSeg (nth m v (mkPt 0 0)) (next v m)) = false) -> in_poly path v p = None.
Proof. exact (short_edge path v p j). Qed.
Print Assumptions sgp_short_refuted.
(** REFUTED: polygons made by union and intersection are as good as others; a ring that repeats its first vertex
    at the end, as shapely gives it, has no last edge *)
Theorem sgp_ring_refuted v p : edge (p :: v ++ [p]) (S (length v)) = None.
Proof. exact (closed_ring v p). Qed.
Print Assumptions sgp_ring_refuted.
(** polygons are equal exactly if they have equally many vertices, equal one by one *)
Theorem sgp_equal v w : poly_eq v w = true <-> length v = length w /\
  forall i, (i < length v)%nat -> pt_eq (nth i v (mkPt 0 0)) (nth i w (mkPt 0 0)) = true.
Proof. exact (poly_eq_is v w). Qed.
Print Assumptions sgp_equal.
(** REFUTED: equality does not depend on the vertex from which the polygon is given *)
Theorem sgp_equal_refuted : poly_eq [mkPt 0 0; mkPt 4 0; mkPt 2 4] [mkPt 4 0; mkPt 2 4; mkPt 0 0] = false.
Proof. exact rotated. Qed.
Print Assumptions sgp_equal_refuted.

Example sgp_long : edges_long [mkPt 0 0; mkPt 2 1; mkPt 4 0; mkPt 2 4].
Proof. exact arrow_long. Qed.
Example sgp_small path p : in_poly path [mkPt 0 0; mkPt (/ 1000) 0; mkPt (/ 1000) (/ 1000); mkPt 0 (/ 1000)] p = None.
Proof. exact (small_raises path p). Qed.
Example sgp_self v : poly_eq v v = true.
Proof. exact (poly_eq_refl v). Qed.
