(** Straight lines and segments in the plane.

    Cites /repo/tools/miscellaneous/geometries/m2n2.py.  Numbers are reals (floats
    without rounding); an assertion or exception is [None]. *)
From Coq Require Import Reals Bool List.
Local Open Scope R_scope.

(** Point2 (26-50) *)
Record pt := mkPt { ptx : R; pty : R }.

(** a < b, a <= b and a == b on floats *)
Definition ltb (a b : R) : bool := if Rlt_dec a b then true else false.
Definition leb (a b : R) : bool := if Rle_dec a b then true else false.
Definition eqb (a b : R) : bool := if Req_EM_T a b then true else false.

(** math.isclose(a, b, abs_tol=tol): the default rel_tol=1e-9 stays in force *)
Definition isclose (a b tol : R) : bool :=
  leb (Rabs (a - b)) (Rmax (/ 10 ^ 9 * Rmax (Rabs a) (Rabs b)) tol).

(** Point2.__eq__ (74-85) *)
Definition pt_eq (p q : pt) : bool :=
  isclose (ptx p) (ptx q) (/ 10 ^ 9) && isclose (pty p) (pty q) (/ 10 ^ 9).

(** distance2 of two points (356-368) *)
Definition dist (p q : pt) : R := sqrt ((ptx q - ptx p) ^ 2 + (pty q - pty p) ^ 2).

(** StraightLine2 and StraightSegment2 (126-141, 162-183): both refuse points that are
    not more than 1e-3 apart.  ___check_cache___ (185-198) is left out. *)
Record seg := mkSeg { sA : pt; sB : pt }.
Definition new_seg (A B : pt) : option seg :=
  if ltb (/ 10 ^ 3) (dist A B) then Some (mkSeg A B) else None.

(** StraightSegment2.__eq__ (229-243) *)
Definition seg_eq (s o : seg) : bool :=
  if pt_eq (sA s) (sA o) && pt_eq (sB s) (sB o) then true
  else pt_eq (sA s) (sB o) && pt_eq (sB s) (sA o).

(** StraightSegment2.slope (211-222): None for the two infinities, whose sign the key drops *)
Definition slope (s : seg) : option R :=
  if ltb (Rabs (ptx (sA s) - ptx (sB s))) (/ 10 ^ 8) then None
  else Some ((pty (sB s) - pty (sA s)) / (ptx (sB s) - ptx (sA s))).

(** StraightSegment2.___possible_subset_group_key___ (245-259): the numbers in the key
    before they are rounded and printed.  A text "ss:inf..." is never a text "ss...:..." whose
    first part is a printed number. *)
Inductive key := KInf (x : R) | KSlope (y k : R).
Definition group_key (s : seg) : key :=
  match slope s with
  | None => KInf (ptx (sA s))
  | Some k =>
      let k := if ltb (Rabs k) (/ 10 ^ 8) then 0 else k in
      KSlope (pty (sA s) - k * ptx (sA s)) k
  end.

(** whether_point_on_straight_segment (408-428) *)
Definition on_seg (p : pt) (s : seg) : bool :=
  let d1 := dist (sA s) p in
  if ltb d1 (/ 10 ^ 8) then true
  else
    let d2 := dist (sB s) p in
    if ltb d2 (/ 10 ^ 8) then true
    else isclose (d1 + d2) (dist (sA s) (sB s)) (/ 10 ^ 8).

(** StraightSegment2.whether_contain__input__as_a_part_of_same_type (261-272), geo a segment *)
Definition contain (s g : seg) : bool :=
  if seg_eq s g then true
  else if on_seg (sA g) s then on_seg (sB g) s else false.

(** the determinant of lines 486-499 and 525-539 *)
Definition det (s o : seg) : R :=
  let a1 := pty (sB s) - pty (sA s) in
  let b1 := ptx (sA s) - ptx (sB s) in
  let a2 := pty (sB o) - pty (sA o) in
  let b2 := ptx (sA o) - ptx (sB o) in
  a1 * b2 - a2 * b1.

(** whether_two_lines_or_segments_parallel (486-505) *)
Definition parallel (s o : seg) : bool := isclose (det s o) 0 (/ 10 ^ 9).

(** line2_line2_intersection (508-547) *)
Definition line_inter (s o : seg) : option pt :=
  let a1 := pty (sB s) - pty (sA s) in
  let b1 := ptx (sA s) - ptx (sB s) in
  let c1 := a1 * ptx (sA s) + b1 * pty (sA s) in
  let a2 := pty (sB o) - pty (sA o) in
  let b2 := ptx (sA o) - ptx (sB o) in
  let c2 := a2 * ptx (sA o) + b2 * pty (sA o) in
  if isclose (det s o) 0 (/ 10 ^ 9) then None
  else Some (mkPt ((b2 * c1 - b1 * c2) / det s o) ((a1 * c2 - a2 * c1) / det s o)).

(** what find_intersection_of_two_parallel_straight_segments returns *)
Inductive inter := INone | IPoint (p : pt) | ISeg (s : seg).
Definition iseg (A B : pt) : option inter :=
  match new_seg A B with Some s => Some (ISeg s) | None => None end.

(** find_intersection_of_two_parallel_straight_segments (440-483) *)
Definition par_inter (s o : seg) : option inter :=
  if parallel s o then
    let A0 := sA s in let B0 := sB s in let A1 := sA o in let B1 := sB o in
    let a0 := on_seg A0 o in let b0 := on_seg B0 o in
    let a1 := on_seg A1 s in let b1 := on_seg B1 s in
    if a0 && b0 then Some (ISeg s)
    else if a1 && b1 then Some (ISeg o)
    else if negb a0 && negb b0 && negb a1 && negb b1 then Some INone
    else if a0 then
      if pt_eq A0 A1 || pt_eq A0 B1 then Some (IPoint A0)
      else if a1 then iseg A0 A1
      else if b1 then iseg A0 B1 else None
    else if b0 then
      if pt_eq B0 A1 || pt_eq B0 B1 then Some (IPoint B0)
      else if a1 then iseg B0 A1
      else if b1 then iseg B0 B1 else None
    else None
  else None.

(** the double loop (300-307): every pair i < j of the list has no intersection or a point;
    an exception of find_intersection_of_two_parallel_straight_segments is one of the loop *)
Fixpoint separate (gs : list seg) : bool :=
  match gs with
  | nil => true
  | cons g r => forallb (fun h => match par_inter g h with
                                | Some INone => true
                                | Some (IPoint _) => true
                                | _ => false
                                end) r && separate r
  end.

(** StraightSegment2.is_equal_to_a_union_of_a_part_of_separate_geometries_of_same_type (274-323) *)
Definition union (s : seg) (gs : list seg) : option bool :=
  let par := filter (fun g => parallel s g) gs in
  if separate par then
    let possible := filter (fun g => contain s g) par in
    Some (ltb (Rabs (dist (sA s) (sB s) - fold_right Rplus 0 (map (fun g => dist (sA g) (sB g)) possible))) (/ 10 ^ 8))
  else None.
