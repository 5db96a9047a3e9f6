(** C83: straight lines and segments in the plane. *)
From Coq Require Import Reals Bool Lra List.
From Verif Require Import SgModel SgSpec SgThms SgThms2 SgUnion.
Import ListNotations.
Local Open Scope R_scope.

(** the crossing of two lines is on both and is the only such point *)
Theorem sg_crossing s o p : line_inter s o = Some p ->
  on_line p s /\ on_line p o /\ forall q, on_line q s -> on_line q o -> q = p.
Proof. exact (inter_on s o p). Qed.
Print Assumptions sg_crossing.
(** ParallelLinesError comes exactly for small determinants *)
Theorem sg_crossing_raises s o : line_inter s o = None <-> Rabs (det s o) <= / 10 ^ 9.
Proof. exact (inter_raises s o). Qed.
Print Assumptions sg_crossing_raises.
(** REFUTED: whether lines cross does not depend on the points that give them *)
Theorem sg_crossing_refuted : exists s o s' o',
  new_seg (sA s) (sB s) = Some s /\ new_seg (sA o) (sB o) = Some o /\
  new_seg (sA s') (sB s') = Some s' /\ new_seg (sA o') (sB o') = Some o' /\
  (forall p, on_line p s <-> on_line p s') /\ (forall p, on_line p o <-> on_line p o') /\
  line_inter s o = None /\ line_inter s' o' <> None.
Proof. exact near_parallel. Qed.
Print Assumptions sg_crossing_refuted.
(** every point between the ends is found on the segment *)
Theorem sg_points_found s t : 0 <= t <= 1 -> on_seg (at_ s t) s = true.
Proof. exact (on_seg_at s t). Qed.
Print Assumptions sg_points_found.
(** points found on a segment of length at most ten are within 1/4000 of its line *)
Theorem sg_points_near p s : on_seg p s = true -> 0 < dist (sA s) (sB s) <= 10 ->
  exists q, on_line q s /\ dist p q <= / 4000.
Proof. exact (on_seg_near p s). Qed.
Print Assumptions sg_points_near.
(** REFUTED: the tolerance of 1e-8 bounds how far off the line a point may be *)
Theorem sg_points_refuted : on_seg (mkPt (/ 2) (/ 20000)) (mkSeg (mkPt 0 0) (mkPt 1 0)) = true /\
  forall q, on_line q (mkSeg (mkPt 0 0) (mkPt 1 0)) -> / 20000 <= dist (mkPt (/ 2) (/ 20000)) q.
Proof. exact off_line. Qed.
Print Assumptions sg_points_refuted.
(** every part is contained, in either direction *)
Theorem sg_parts_contained s g : part_of g s -> contain s g = true.
Proof. exact (contain_part s g). Qed.
Print Assumptions sg_parts_contained.
(** a part has the key of the whole, whichever end comes first *)
Theorem sg_parts_keys s g : part_of g s -> sA g <> sB g -> steep_or_clear s -> steep_or_clear g -> level_or_clear s ->
  group_key g = group_key s.
Proof. exact (key_part s g). Qed.
Print Assumptions sg_parts_keys.
(** REFUTED: all parts have the key of the whole, so that looking them up by key finds them *)
Theorem sg_keys_refuted : exists s g, new_seg (sA s) (sB s) = Some s /\ new_seg (sA g) (sB g) = Some g /\
  part_of g s /\ contain s g = true /\ exists x y k, group_key g = KInf x /\ group_key s = KSlope y k.
Proof. exact (ex_intro _ steep (ex_intro _ steep_half key_differs)). Qed.
Print Assumptions sg_keys_refuted.
(** the intersection of parallel segments is in both; there is none only if no end is on the other *)
Theorem sg_intersection s o r : par_inter s o = Some r ->
  match r with
  | INone => on_seg (sA s) o = false /\ on_seg (sB s) o = false /\ on_seg (sA o) s = false /\ on_seg (sB o) s = false
  | IPoint p => on_seg p s = true /\ on_seg p o = true
  | ISeg g => on_seg (sA g) s = true /\ on_seg (sB g) s = true /\ on_seg (sA g) o = true /\ on_seg (sB g) o = true
  end.
Proof. exact (par_inter_both s o r). Qed.
Print Assumptions sg_intersection.
(** overlapping segments of the x axis meet in their overlap if it is longer than 1e-3;
    REFUTED: parallel segments always have an intersection or none, shorter overlaps raise *)
Theorem sg_overlap a b c d : -50 <= a -> d <= 50 -> a + / 10 ^ 4 <= c -> c + / 10 ^ 4 <= b -> b + / 10 ^ 4 <= d ->
  (/ 10 ^ 3 < b - c -> par_inter (xs a b) (xs c d) = Some (ISeg (xs b c))) /\
  (b - c <= / 10 ^ 3 -> par_inter (xs a b) (xs c d) = None).
Proof. exact (overlap_cases a b c d). Qed.
Print Assumptions sg_overlap.
(** segments with the same key are on the same line *)
Theorem sg_keys_lines s g : steep_or_clear s -> level_or_clear s -> sA s <> sB s ->
  steep_or_clear g -> level_or_clear g -> sA g <> sB g -> group_key s = group_key g ->
  forall p, on_line p s <-> on_line p g.
Proof. exact (keys_lines s g). Qed.
Print Assumptions sg_keys_lines.
(** a segment equals itself and itself reversed *)
Theorem sg_reversed s : seg_eq s s = true /\ seg_eq s (mkSeg (sB s) (sA s)) = true.
Proof. exact (seg_eq_reversed s). Qed.
Print Assumptions sg_reversed.
(** equal points of the unit square are near in both coordinates *)
Theorem sg_equal_points p q : Rabs (ptx p) <= 1 -> Rabs (pty p) <= 1 -> Rabs (ptx q) <= 1 -> Rabs (pty q) <= 1 ->
  pt_eq p q = true -> Rabs (ptx p - ptx q) <= / 10 ^ 9 /\ Rabs (pty p - pty q) <= / 10 ^ 9.
Proof. exact (pt_eq_near p q). Qed.
Print Assumptions sg_equal_points.
(** on the x axis: touching segments meet in the point, separate ones nowhere, inner ones in themselves *)
Theorem sg_touch a b d : -50 <= a -> d <= 50 -> a + / 10 ^ 4 <= b -> b + / 10 ^ 4 <= d ->
  par_inter (xs a b) (xs b d) = Some (IPoint (mkPt b 0)) /\ par_inter (xs b d) (xs a b) = Some (IPoint (mkPt b 0)).
Proof. exact (fun Ha Hd H1 H2 => conj (touch_right a b d Ha Hd H1 H2) (touch_left a b d Ha Hd H1 H2)). Qed.
Print Assumptions sg_touch.
Theorem sg_overlap_swapped a b c d : -50 <= a -> d <= 50 -> a + / 10 ^ 4 <= c -> c + / 10 ^ 3 < b -> b + / 10 ^ 4 <= d ->
  par_inter (xs c d) (xs a b) = Some (ISeg (xs c b)).
Proof. exact (overlap_left a b c d). Qed.
Print Assumptions sg_overlap_swapped.
Theorem sg_apart a b c d : -50 <= a -> d <= 50 -> a < b -> c < d -> b + / 10 ^ 4 <= c ->
  par_inter (xs a b) (xs c d) = Some INone /\ par_inter (xs c d) (xs a b) = Some INone.
Proof. exact (apart a b c d). Qed.
Print Assumptions sg_apart.
Theorem sg_inside a b c d : -50 <= a -> b <= 50 -> a + / 10 ^ 4 <= c -> c < d -> d + / 10 ^ 4 <= b ->
  par_inter (xs a b) (xs c d) = Some (ISeg (xs c d)) /\ par_inter (xs c d) (xs a b) = Some (ISeg (xs c d)).
Proof. exact (inside a b c d). Qed.
Print Assumptions sg_inside.
(** segments that stick out by 1e-4 are not contained *)
Theorem sg_sticking_out a b c d : -50 <= a <= 50 -> -50 <= b <= 50 -> -50 <= c <= 50 -> -50 <= d <= 50 ->
  a + / 10 ^ 4 <= b -> c + / 10 ^ 4 <= d -> c + / 10 ^ 4 <= a \/ b + / 10 ^ 4 <= d -> contain (xs a b) (xs c d) = false.
Proof. exact (sticking_out a b c d). Qed.
Print Assumptions sg_sticking_out.

(** a segment is the union of the pieces between successive cuts *)
Theorem sg_union_pieces a c cuts : -50 <= a -> spaced a (c :: cuts) ->
  union (xs a (last (c :: cuts) a)) (segs (pieces a (c :: cuts))) = Some true.
Proof. exact (union_pieces a c cuts). Qed.
Print Assumptions sg_union_pieces.
(** for separate stretches, inside or clearly outside, the lengths inside decide *)
Theorem sg_union_lengths a b lo l : -50 <= a -> b <= 50 -> a + / 10 ^ 4 <= b -> -50 <= lo -> chain lo l ->
  List.Forall (clear_cut a b) l ->
  union (xs a b) (segs l) = Some (ltb (Rabs (b - a - total (filter (inb a b) l))) (/ 10 ^ 8)).
Proof. exact (union_total a b lo l). Qed.
Print Assumptions sg_union_lengths.
(** a union with a gap is not the segment *)
Theorem sg_union_gap a b lo l : -50 <= a -> b <= 50 -> a + / 10 ^ 4 <= b -> -50 <= lo -> chain lo l ->
  List.Forall (clear_cut a b) l -> total (filter (inb a b) l) <= b - a - / 10 ^ 8 -> union (xs a b) (segs l) = Some false.
Proof. exact (union_missing a b lo l). Qed.
Print Assumptions sg_union_gap.
(** the documented demand that the others be separate is checked for all parallel ones, also for those far away *)
Theorem sg_union_far : union (xs 0 1) [xs 0 1; mkSeg (mkPt 0 5) (mkPt 1 5); mkSeg (mkPt 0 5) (mkPt 1 5)] = None.
Proof. exact union_far. Qed.
Print Assumptions sg_union_far.

Example sg_cross : exists p, line_inter (xs 0 1) (mkSeg (mkPt 0 (-1)) (mkPt 1 1)) = Some p /\ p = mkPt (/ 2) 0.
Proof. exact cross_example. Qed.
Example sg_part : part_of (mkSeg (mkPt 2 4) (mkPt 1 2)) (mkSeg (mkPt 0 0) (mkPt 3 6)).
Proof. exists (2 / 3), (1 / 3); unfold at_; cbn [sA sB ptx pty]; repeat split; try lra; f_equal; lra. Qed.
Example sg_part_clear : steep_or_clear (mkSeg (mkPt 2 4) (mkPt 1 2)) /\ steep_or_clear (mkSeg (mkPt 0 0) (mkPt 3 6)) /\
  level_or_clear (mkSeg (mkPt 0 0) (mkPt 3 6)).
Proof. exact part_clear. Qed.
Example sg_short : par_inter (xs 0 1) (xs (1 - / 2000) 2) = None.
Proof. apply (proj2 (sg_overlap 0 1 (1 - / 2000) 2 ltac:(lra) ltac:(lra) ltac:(lra) ltac:(lra) ltac:(lra))); lra. Qed.
Example sg_long : par_inter (xs 0 1) (xs (/ 2) 2) = Some (ISeg (xs 1 (/ 2))).
Proof. apply (proj1 (sg_overlap 0 1 (/ 2) 2 ltac:(lra) ltac:(lra) ltac:(lra) ltac:(lra) ltac:(lra))); lra. Qed.
Example sg_out : contain (xs 0 1) (xs (/ 2) 2) = false.
Proof. apply sg_sticking_out; try lra. Qed.
Example sg_touching : par_inter (xs 0 1) (xs 1 2) = Some (IPoint (mkPt 1 0)).
Proof. apply sg_touch; lra. Qed.
Example sg_three : spaced 0 [1; 2; 4].
Proof. cbn [spaced]; repeat split; lra. Qed.
Example sg_gap : chain 0 [(0, 1); (2, 3); (5, 7)] /\ List.Forall (clear_cut 0 3) [(0, 1); (2, 3); (5, 7)] /\
  total (filter (inb 0 3) [(0, 1); (2, 3); (5, 7)]) <= 3 - 0 - / 10 ^ 8.
Proof. exact gap_example. Qed.
