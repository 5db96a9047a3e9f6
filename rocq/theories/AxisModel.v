(** Axis-parallel geometries: points, segments, rectangles and boxes in space.

    Cites /repo/tools/miscellaneous/geometries/m3n3.py.  Numbers are rationals
    (floats without rounding of the sums and products); an assertion that fails
    is [None]. *)
From Coq Require Import QArith Qabs Qround ZArith List Bool.
Import ListNotations.
Local Open Scope Q_scope.

(** The tolerances written in the file: 1e-4, 1e-7 and 1e-8. *)
Definition tol4 : Q := 1 # 10000.
Definition tol7 : Q := 1 # 10000000.
Definition tol8 : Q := 1 # 100000000.

(** a < b and a > b on floats. *)
Definition qlt (a b : Q) : bool := negb (Qle_bool b a).
Definition qgt (a b : Q) : bool := negb (Qle_bool a b).

Inductive axis := AX | AY | AZ.

Definition axis_eqb (a b : axis) : bool :=
  match a, b with AX, AX => true | AY, AY => true | AZ, AZ => true | _, _ => false end.

(** list.sort of two numbers (m3n3.py 229, 397-398, 510-512). *)
Definition sort2 (a b : Q) : Q * Q := if Qle_bool a b then (a, b) else (b, a).

(** sum([...]) *)
Definition qsum (l : list Q) : Q := fold_right Qplus 0 l.

(** Point3 (m3n3.py 9-43) *)
Record point3 := mkP { px : Q; py : Q; pz : Q }.

(** Point3.__eq__ (45-57) *)
Definition point_eq (s o : point3) : bool :=
  qlt (Qabs (px s - px o)) tol8 && qlt (Qabs (py s - py o)) tol8 && qlt (Qabs (pz s - pz o)) tol8.

(** Point3.whether_contain__input__as_a_part_of_same_type (65-70), geo a Point3 *)
Definition point_contain (s g : point3) : bool := point_eq s g.

(** The double loop of lines 86-95: raises as soon as two entries i < j are equal. *)
Fixpoint points_separate (gs : list point3) : bool :=
  match gs with
  | [] => true
  | g :: r => negb (existsb (fun G => point_eq g G) r) && points_separate r
  end.

(** Point3.is_equal_to_a_union_of_a_part_of_separate_geometries_of_same_type (72-101) *)
Definition point_union (s : point3) (gs : list point3) : option bool :=
  if points_separate gs then Some (existsb (fun g => point_eq g s) gs) else None.

(** OrthogonalSegment3 (208-230): axis, bounds, line, length *)
Record seg3 := mkSeg { sg_axis : axis; sg_bounds : Q * Q; sg_line : Q * Q; sg_length : Q }.

Definition new_seg (a : axis) (o : point3) (len : Q) : option seg3 :=
  if qgt (Qabs len) tol4 then
    let x := px o in let y := py o in let z := pz o in
    Some match a with
         | AX => mkSeg a (sort2 x (x + len)) (y, z) len
         | AY => mkSeg a (sort2 y (y + len)) (z, x) len
         | AZ => mkSeg a (sort2 z (z + len)) (x, y) len
         end
  else None.

(** OrthogonalSegment3.__eq__ (236-256) *)
Definition seg_eq (s o : seg3) : bool :=
  if negb (axis_eqb (sg_axis s) (sg_axis o)) then false else
  let '(sc0, sc1) := sg_line s in let '(os0, os1) := sg_line o in
  if qgt (Qabs (sc0 - os0)) tol8 || qgt (Qabs (sc1 - os1)) tol8 then false else
  let '(sb0, sb1) := sg_bounds s in let '(ob0, ob1) := sg_bounds o in
  if qgt (Qabs (sb0 - ob0)) tol8 || qgt (Qabs (ob1 - sb1)) tol8 then false else true.

(** OrthogonalSegment3.whether_contain__input__as_a_part_of_same_type (264-284) *)
Definition seg_contain (s g : seg3) : bool :=
  if negb (axis_eqb (sg_axis s) (sg_axis g)) then false else
  let '(sc0, sc1) := sg_line s in let '(os0, os1) := sg_line g in
  if qgt (Qabs (sc0 - os0)) tol8 || qgt (Qabs (sc1 - os1)) tol8 then false else
  let '(sb0, sb1) := sg_bounds s in let '(ob0, ob1) := sg_bounds g in
  if qgt (sb0 - ob0) tol8 || qgt (ob1 - sb1) tol8 then false else true.

(** OrthogonalSegment3.is_equal_to_a_union_... (286-337) *)
Definition seg_union (s : seg3) (gs : list seg3) : bool :=
  let parallel := filter (fun g => axis_eqb (sg_axis g) (sg_axis s)) gs in
  let possible := filter (seg_contain s) parallel in
  qlt (Qabs (sg_length s - qsum (map sg_length possible))) tol8.

(** PerpRectangle (354-402) *)
Record rect3 := mkRect { rc_axis : axis; rc_face : Q; rc_b0 : Q * Q; rc_b1 : Q * Q; rc_area : Q }.

Definition rect_of (a : axis) (face : Q) (b0 b1 : Q * Q) : rect3 :=
  mkRect a face b0 b1 ((snd b0 - fst b0) * (snd b1 - fst b1)).

Definition new_rect (a : axis) (o d : point3) : option rect3 :=
  let x0 := px o in let y0 := py o in let z0 := pz o in
  let dx := px d in let dy := py d in let dz := pz d in
  match a with
  | AX => if Qeq_bool dx 0 && (qgt (Qabs dy) tol4 && qgt (Qabs dz) tol4)
          then Some (rect_of a x0 (sort2 y0 (y0 + dy)) (sort2 z0 (z0 + dz))) else None
  | AY => if Qeq_bool dy 0 && (qgt (Qabs dx) tol4 && qgt (Qabs dz) tol4)
          then Some (rect_of a y0 (sort2 z0 (z0 + dz)) (sort2 x0 (x0 + dx))) else None
  | AZ => if Qeq_bool dz 0 && (qgt (Qabs dx) tol4 && qgt (Qabs dy) tol4)
          then Some (rect_of a z0 (sort2 x0 (x0 + dx)) (sort2 y0 (y0 + dy))) else None
  end.

(** PerpRectangle.__eq__ (408-426) *)
Definition rect_eq (s o : rect3) : bool :=
  if negb (axis_eqb (rc_axis s) (rc_axis o)) || qgt (Qabs (rc_face s - rc_face o)) tol8 then false else
  let '(sL0, sU0) := rc_b0 s in let '(sL1, sU1) := rc_b1 s in
  let '(oL0, oU0) := rc_b0 o in let '(oL1, oU1) := rc_b1 o in
  if qgt (Qabs (sL0 - oL0)) tol8 || qgt (Qabs (oU0 - sU0)) tol8 then false else
  if qgt (Qabs (sL1 - oL1)) tol8 || qgt (Qabs (oU1 - sU1)) tol8 then false else true.

(** PerpRectangle.whether_contain__input__as_a_part_of_same_type (434-451) *)
Definition rect_contain (s g : rect3) : bool :=
  if negb (axis_eqb (rc_axis s) (rc_axis g)) || qgt (Qabs (rc_face s - rc_face g)) tol8 then false else
  let '(sL0, sU0) := rc_b0 s in let '(sL1, sU1) := rc_b1 s in
  let '(oL0, oU0) := rc_b0 g in let '(oL1, oU1) := rc_b1 g in
  if qgt (sL0 - oL0) tol8 || qgt (oU0 - sU0) tol8 then false else
  if qgt (sL1 - oL1) tol8 || qgt (oU1 - sU1) tol8 then false else true.

(** PerpRectangle.is_equal_to_a_union_... (453-489) *)
Definition rect_union (s : rect3) (gs : list rect3) : bool :=
  let parallel := filter (fun g => axis_eqb (rc_axis g) (rc_axis s) && qlt (Qabs (rc_face s - rc_face g)) tol8) gs in
  let possible := filter (rect_contain s) parallel in
  qlt (Qabs (rc_area s - qsum (map rc_area possible))) tol7.

(** OrthogonalHexahedron (492-520).  Line 506 reads [x0, x0 + dy]. *)
Record hexa3 := mkHexa { hx_center : point3; hx_d : point3;
  hx_b0 : Q * Q; hx_b1 : Q * Q; hx_b2 : Q * Q; hx_volume : Q }.

Definition new_hexa (o d : point3) : option hexa3 :=
  let x0 := px o in let y0 := py o in let z0 := pz o in
  let dx := px d in let dy := py d in let dz := pz d in
  if qgt (Qabs dx) tol4 && qgt (Qabs dy) tol4 && qgt (Qabs dz) tol4 then
    let b0 := sort2 x0 (x0 + dy) in
    let b1 := sort2 y0 (y0 + dy) in
    let b2 := sort2 z0 (z0 + dz) in
    Some (mkHexa (mkP (x0 + dx / 2) (y0 + dy / 2) (z0 + dz / 2))
                 (mkP (Qabs dx) (Qabs dy) (Qabs dz)) b0 b1 b2
                 ((snd b0 - fst b0) * (snd b1 - fst b1) * (snd b2 - fst b2)))
  else None.

(** OrthogonalHexahedron.__eq__ (527-544) *)
Definition hexa_eq (s o : hexa3) : bool :=
  let c0 := hx_center s in let c1 := hx_center o in
  let d0 := hx_d s in let d1 := hx_d o in
  qlt (Qabs (px c0 - px c1)) tol8 && qlt (Qabs (py c0 - py c1)) tol8 && qlt (Qabs (pz c0 - pz c1)) tol8 &&
  qlt (Qabs (px d0 - px d1)) tol8 && qlt (Qabs (py d0 - py d1)) tol8 && qlt (Qabs (pz d0 - pz d1)) tol8.

(** OrthogonalHexahedron.whether_contain__input__as_a_part_of_same_type (546-564) *)
Definition hexa_contain (s g : hexa3) : bool :=
  let '(sL0, sU0) := hx_b0 s in let '(sL1, sU1) := hx_b1 s in let '(sL2, sU2) := hx_b2 s in
  let '(oL0, oU0) := hx_b0 g in let '(oL1, oU1) := hx_b1 g in let '(oL2, oU2) := hx_b2 g in
  if qgt (sL0 - oL0) tol8 || qgt (oU0 - sU0) tol8 then false else
  if qgt (sL1 - oL1) tol8 || qgt (oU1 - sU1) tol8 then false else
  if qgt (sL2 - oL2) tol8 || qgt (oU2 - sU2) tol8 then false else true.

(** OrthogonalHexahedron.is_equal_to_a_union_... (566-595) *)
Definition hexa_union (s : hexa3) (gs : list hexa3) : bool :=
  let possible := filter (hexa_contain s) gs in
  qlt (Qabs (hx_volume s - qsum (map hx_volume possible))) tol7.

(** '%.nf' % round(x, n): the sign that is printed and the digits as one number,
    rounding to the nearest, halves to even.  A negative number that rounds to
    nothing is printed as -0.000000. *)
Definition round_half_even (x : Q) : Z :=
  let f := Qfloor x in
  let r := x - inject_Z f in
  if qlt r (1 # 2) then f else if qgt r (1 # 2) then (f + 1)%Z
  else if Z.even f then f else (f + 1)%Z.

Definition fmt (n : Z) (x : Q) : bool * Z :=
  (qlt x 0, round_half_even (Qabs x * inject_Z (10 ^ n))).

(** ___possible_subset_group_key___: 59-63, 258-262 and 428-432; the parts of the
    key strings, which are read off the strings without ambiguity. *)
Definition point_key (s : point3) : (bool * Z) * (bool * Z) := (fmt 6 (px s), fmt 6 (py s)).
Definition seg_key (s : seg3) : axis * ((bool * Z) * (bool * Z)) :=
  (sg_axis s, (fmt 5 (fst (sg_line s)), fmt 5 (snd (sg_line s)))).
Definition rect_key (s : rect3) : axis * (bool * Z) := (rc_axis s, fmt 6 (rc_face s)).
