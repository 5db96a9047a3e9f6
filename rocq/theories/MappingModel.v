(** Model of the coordinate transformations of regions and elements: the
    functions [mapping] and [Jacobian_matrix].

    /repo/msepy/manifold/predefined/crazy.py 194-343, _helpers.py 11-122,
    /repo/msepy/mesh/coordinate_transformation.py 21-162 (one element),
    /repo/tools/functions/space/_2d/: transfinite.py, angle.py, distance.py,
    geometrical_functions/*.py,
    /repo/msehtt/static/manifold/predefined/: chaotic.py, quad.py, rectangle.py,
    /repo/msehtt/static/mesh/great/elements/types/*.py,
    /repo/msehtt/static/mesh/great/config/msehtt_.py 481-519, msehtt_trf.py 804-885,
    /repo/msehtt/static/mesh/great/main.py 1565-1665.

    A float is a real number, an array of coordinates is one coordinate (all
    operations are entrywise).  [pi] is the real number.  A Jacobian matrix is
    the function (row, column) -> entry; an entry that is the integer 0 in the
    code is 0 here. *)
From Coq Require Import List Arith Reals.
Import ListNotations.
Local Open Scope R_scope.

Notation mat := (nat -> nat -> R).
Notation pt2 := (R * R)%type.
Notation pt3 := (R * R * R)%type.

(** python list displays [[a, b], [c, d]] and ((..), (..), (..)) *)
Definition mat1 (a : R) : mat := fun i j => nth j (nth i [[a]] []) 0.
Definition mat2 (a b c d : R) : mat := fun i j => nth j (nth i [[a; b]; [c; d]] []) 0.
Definition mat3 (a b c d e f g h k : R) : mat :=
  fun i j => nth j (nth i [[a; b; c]; [d; e; f]; [g; h; k]] []) 0.

Definition tau (r : R) : R := 2 * PI * r.

(** * crazy.py: _MesPyRegionCrazyMapping; bounds [a, b], [c, d], [e, f], deformation k *)
(** mapping, 1-d: 217-222 *)
Definition crazy1 (a b k r : R) : R := (b - a) * (r + 1/2 * k * sin (tau r)) + a.
(** Jacobian_matrix, 1-d: 272-279 *)
Definition crazy1_J (a b k r : R) : mat :=
  mat1 (if Req_EM_T k 0 then (b - a) * 1 else (b - a) + (b - a) * 2 * PI * (1/2) * k * cos (tau r)).
(** mapping, 2-d: 224-235 *)
Definition crazy2 (a b c d k r s : R) : pt2 :=
  if Req_EM_T k 0 then ((b - a) * r + a, (d - c) * s + c)
  else ((b - a) * (r + 1/2 * k * sin (tau r) * sin (tau s)) + a,
        (d - c) * (s + 1/2 * k * sin (tau r) * sin (tau s)) + c).
(** Jacobian_matrix, 2-d: 281-299 *)
Definition crazy2_J (a b c d k r s : R) : mat :=
  if Req_EM_T k 0 then mat2 ((b - a) * 1) 0 0 ((d - c) * 1)
  else mat2 ((b - a) + (b - a) * 2 * PI * (1/2) * k * cos (tau r) * sin (tau s))
            ((b - a) * 2 * PI * (1/2) * k * sin (tau r) * cos (tau s))
            ((d - c) * 2 * PI * (1/2) * k * cos (tau r) * sin (tau s))
            ((d - c) + (d - c) * 2 * PI * (1/2) * k * sin (tau r) * cos (tau s)).
(** mapping, 3-d: 237-265 *)
Definition crazy3 (a b c d e f k r s t : R) : pt3 :=
  if Req_EM_T k 0 then ((b - a) * r + a, (d - c) * s + c, (f - e) * t + e)
  else ((b - a) * (r + 1/2 * k * sin (tau r) * sin (tau s) * sin (tau t)) + a,
        (d - c) * (s + 1/2 * k * sin (tau r) * sin (tau s) * sin (tau t)) + c,
        (f - e) * (t + 1/2 * k * sin (tau r) * sin (tau s) * sin (tau t)) + e).
(** Jacobian_matrix, 3-d: 301-343 *)
Definition crazy3_J (a b c d e f k r s t : R) : mat :=
  if Req_EM_T k 0 then mat3 ((b - a) * 1) 0 0 0 ((d - c) * 1) 0 0 0 ((f - e) * 1)
  else mat3 ((b - a) + (b - a) * 2 * PI * (1/2) * k * cos (tau r) * sin (tau s) * sin (tau t))
            ((b - a) * 2 * PI * (1/2) * k * sin (tau r) * cos (tau s) * sin (tau t))
            ((b - a) * 2 * PI * (1/2) * k * sin (tau r) * sin (tau s) * cos (tau t))
            ((d - c) * 2 * PI * (1/2) * k * cos (tau r) * sin (tau s) * sin (tau t))
            ((d - c) + (d - c) * 2 * PI * (1/2) * k * sin (tau r) * cos (tau s) * sin (tau t))
            ((d - c) * 2 * PI * (1/2) * k * sin (tau r) * sin (tau s) * cos (tau t))
            ((f - e) * 2 * PI * (1/2) * k * cos (tau r) * sin (tau s) * sin (tau t))
            ((f - e) * 2 * PI * (1/2) * k * sin (tau r) * cos (tau s) * sin (tau t))
            ((f - e) + (f - e) * 2 * PI * (1/2) * k * sin (tau r) * sin (tau s) * cos (tau t)).

(** * _helpers.py: _LinearTransformation *)
Fixpoint bounds_pairs (l : list R) : option (list (R * R)) :=
  match l with
  | [] => Some []
  | [_] => None
  | lb :: ub :: r => if Rlt_dec lb ub                      (* assert ub > lb *)
                     then option_map (cons (lb, ub - lb)) (bounds_pairs r) else None
  end.
(** __init__, 20-30: the low bounds and deltas *)
Definition linear_init (l : list R) : option (list (R * R)) :=
  if (2 <=? length l)%nat then bounds_pairs l else None.
(** mapping, 32-40 *)
Definition linear (o : list (R * R)) (rst : list R) : option (list R) :=
  if (length rst =? length o)%nat
  then Some (map (fun p => fst p * snd (snd p) + fst (snd p)) (combine rst o)) else None.
(** Jacobian_matrix, 42-50 *)
Definition linear_J (o : list (R * R)) : mat :=
  fun i j => if (i =? j)%nat then snd (nth i o (0, 0)) * 1 else 0.
(** two and three axes *)
Definition linear2 (x0 x1 y0 y1 r s : R) : pt2 := (r * (x1 - x0) + x0, s * (y1 - y0) + y0).
Definition linear3 (x0 x1 y0 y1 z0 z1 r s t : R) : pt3 :=
  (r * (x1 - x0) + x0, s * (y1 - y0) + y0, t * (z1 - z0) + z0).

(** * curves in the plane *)
Notation curve := (R -> pt2).
(** distance.py ; np.hypot *)
Definition distance (p q : pt2) : R := sqrt ((fst p - fst q) ^ 2 + (snd p - snd q) ^ 2).
(** angle.py 6-27 *)
Definition angle (o p : pt2) : R :=
  let x2 := fst p - fst o in
  let y2 := snd p - snd o in
  let inner := 1 * x2 + 0 * y2 in
  let len1 := sqrt (1 ^ 2 + 0 ^ 2) in
  let len2 := sqrt (x2 ^ 2 + y2 ^ 2) in
  if Rlt_dec y2 0 then 2 * PI - acos (inner / (len1 * len2)) else acos (inner / (len1 * len2)).
(** straight_line.py 11-17 *)
Definition line (p q : pt2) : curve := fun o => (fst p + o * (fst q - fst p), snd p + o * (snd q - snd p)).
Definition line_d (p q : pt2) : curve := fun o => ((fst q - fst p) * 1, (snd q - snd p) * 1).
(** clockwise_arc.py, anticlockwise_arc.py 12-33: the assertion is that the two
    radii differ by less than 10e-13 *)
Definition radius (c p : pt2) : R := sqrt ((fst p - fst c) ^ 2 + (snd p - snd c) ^ 2).
Definition arc_ok (c p q : pt2) : Prop := Rabs (radius c p - radius c q) < 10 / 10 ^ 13.
Definition arc_theta (clockwise : bool) (c p q : pt2) (o : R) : R :=
  let th0 := angle c p in
  let th1 := angle c q in
  let th1 := if clockwise then (if Rlt_dec th0 th1 then th1 - 2 * PI else th1)
             else (if Rlt_dec th1 th0 then th1 + 2 * PI else th1) in
  o * (th1 - th0) + th0.
Definition arc_span (clockwise : bool) (c p q : pt2) : R := arc_theta clockwise c p q 1 - arc_theta clockwise c p q 0.
Definition arc (clockwise : bool) (c p q : pt2) : curve := fun o =>
  (fst c + radius c p * cos (arc_theta clockwise c p q o), snd c + radius c p * sin (arc_theta clockwise c p q o)).
(** dgamma: (end_theta - start_theta) is [arc_span] *)
Definition arc_d (clockwise : bool) (c p q : pt2) : curve := fun o =>
  (- radius c p * sin (arc_theta clockwise c p q o) * arc_span clockwise c p q,
   radius c p * cos (arc_theta clockwise c p q o) * arc_span clockwise c p q).

(** * transfinite.py: gamma = (L, D, R, U), d_gamma their derivatives *)
(** mapping, 79-94 (x: 96-103, y: 105-112) *)
Definition tf_one (L D R' U : R -> R) (r s : R) : R :=
  (1 - r) * U s + r * D s + (1 - s) * L r + s * R' r
  - (1 - r) * ((1 - s) * L 0 + s * R' 0) - r * ((1 - s) * L 1 + s * R' 1).
Definition px (g : curve) : R -> R := fun o => fst (g o).
Definition py (g : curve) : R -> R := fun o => snd (g o).
Definition transfinite (L D R' U : curve) (r s : R) : pt2 :=
  (tf_one (px L) (px D) (px R') (px U) r s, tf_one (py L) (py D) (py R') (py U) r s).
(** dx_dr, dy_dr: 114-123, 136-145 *)
Definition tf_dr (L D R' U dL dR : R -> R) (r s : R) : R :=
  - U s + D s + (1 - s) * dL r + s * dR r + ((1 - s) * L 0 + s * R' 0) - ((1 - s) * L 1 + s * R' 1).
(** dx_ds, dy_ds: 125-134, 147-156 *)
Definition tf_ds (L R' dD dU : R -> R) (r s : R) : R :=
  (1 - r) * dU s + r * dD s - L r + R' r - (1 - r) * (- L 0 + R' 0) - r * (- L 1 + R' 1).
(** _helpers.py: _Transfinite2 65-113; arguments x0, x1, y0, y1 and their derivatives *)
Definition tf2 (x0 x1 y0 y1 : curve) (r s : R) : pt2 := transfinite y0 x1 y1 x0 r s.
Definition tf2_J (x0 x1 y0 y1 dx0 dx1 dy0 dy1 : curve) (r s : R) : mat :=
  mat2 (tf_dr (px y0) (px x1) (px y1) (px x0) (px dy0) (px dy1) r s)
       (tf_ds (px y0) (px y1) (px dx1) (px dx0) r s)
       (tf_dr (py y0) (py x1) (py y1) (py x0) (py dy0) (py dy1) r s)
       (tf_ds (py y0) (py y1) (py dx1) (py dx0) r s).

(** * elements of msepy meshes: origin o, delta d on each axis *)
(** msepy/mesh/coordinate_transformation.py 73-78; unique_msepy_curvilinear_*.py *)
Definition axis (o d xi : R) : R := (xi + 1) * (1/2) * d + o.
Definition in_element1 (f : R -> R) (o d xi : R) : R := f (axis o d xi).
Definition in_element1_J (J : R -> mat) (o d xi : R) : mat := fun i j => J (axis o d xi) i j * (d / 2).
Definition in_element2 (f : R -> R -> pt2) (o0 o1 d0 d1 xi et : R) : pt2 := f (axis o0 d0 xi) (axis o1 d1 et).
(** 139-158: jm_ij *= ref_Jacobian[j], ref_Jacobian = delta / 2 *)
Definition in_element2_J (J : R -> R -> mat) (o0 o1 d0 d1 xi et : R) : mat :=
  fun i j => J (axis o0 d0 xi) (axis o1 d1 et) i j * (nth j [d0; d1] 0 / 2).
Definition in_element3 (f : R -> R -> R -> pt3) (o0 o1 o2 d0 d1 d2 xi et sg : R) : pt3 :=
  f (axis o0 d0 xi) (axis o1 d1 et) (axis o2 d2 sg).
Definition in_element3_J (J : R -> R -> R -> mat) (o0 o1 o2 d0 d1 d2 xi et sg : R) : mat :=
  fun i j => J (axis o0 d0 xi) (axis o1 d1 et) (axis o2 d2 sg) i j * (nth j [d0; d1; d2] 0 / 2).

(** msehtt_.py: _RegionElementCT_2d_ 481-519; bounds of the element in the region *)
Definition region_ct (f : R -> R -> pt2) (xlb xub ylb yub xi et : R) : pt2 :=
  f ((xi + 1) * (1/2) * (xub - xlb) + xlb) ((et + 1) * (1/2) * (yub - ylb) + ylb).
Definition region_ct_J (J : R -> R -> mat) (xlb xub ylb yub xi et : R) : mat :=
  let K := J ((xi + 1) * (1/2) * (xub - xlb) + xlb) ((et + 1) * (1/2) * (yub - ylb) + ylb) in
  mat2 (K 0%nat 0%nat * (1/2 * (xub - xlb))) (K 0%nat 1%nat * (1/2 * (yub - ylb)))
       (K 1%nat 0%nat * (1/2 * (xub - xlb))) (K 1%nat 1%nat * (1/2 * (yub - ylb))).

(** * msehtt: rectangle.py 34-64, orthogonal_rectangle.py 270-292, orthogonal_hexahedron.py 295-323 *)
Definition rectangle (xl xu yl yu r s : R) : pt2 := (r * (xu - xl) + xl, s * (yu - yl) + yl).
Definition rectangle_J (xl xu yl yu : R) : mat := mat2 (xu - xl) 0 0 (yu - yl).
Definition ortho_rect (ox oy dx dy xi et : R) : pt2 := (ox + (xi + 1) * (dx / 2), oy + (et + 1) * (dy / 2)).
Definition ortho_hex (ox oy oz dx dy dz xi et sg : R) : pt3 :=
  (ox + (xi + 1) * (dx / 2), oy + (et + 1) * (dy / 2), oz + (sg + 1) * (dz / 2)).
(** The matrices are those of the helper made for the rounded half sizes
    ([rd8 x] is python's round(x, 8)): orthogonal_rectangle.py 326-369,
    orthogonal_hexahedron.py 357-409 *)
Definition ortho_rect_J (rd8 : R -> R) (dx dy : R) : mat := mat2 (rd8 (dx / 2)) 0 0 (rd8 (dy / 2)).
Definition ortho_hex_J (rd8 : R -> R) (dx dy dz : R) : mat :=
  mat3 (rd8 (dx / 2)) 0 0 0 (rd8 (dy / 2)) 0 0 0 (rd8 (dz / 2)).

(** * quadrilaterals (vtu cell 9): vtu_9_quad.py 22-29, 340-395; chaotic.py 12-20; quad.py *)
(** ___invA___: np.linalg.inv of ___A___, taken to be exact *)
Definition quad_A : list (list R) := [[1; 0; 0; 0]; [1; 1; 0; 0]; [1; 1; 1; 1]; [1; 0; 1; 0]].
Definition quad_invA : list (list R) := [[1; 0; 0; 0]; [-1; 1; 0; 0]; [-1; 0; 0; 1]; [1; -1; 1; -1]].
Definition dot4 (l v : list R) : R := fold_right Rplus 0 (map (fun p => fst p * snd p) (combine l v)).
Definition quad_coef (v : list R) (i : nat) : R := dot4 (nth i quad_invA []) v.
Definition bilinear (v : list R) (r s : R) : R :=
  quad_coef v 0 + quad_coef v 1 * r + quad_coef v 2 * s + quad_coef v 3 * r * s.
Definition xs_of (P : list pt2) : list R := map fst P.
Definition ys_of (P : list pt2) : list R := map snd P.
(** quad.py 71-78 *)
Definition quad_map (P : list pt2) (r s : R) : pt2 := (bilinear (xs_of P) r s, bilinear (ys_of P) r s).
(** vtu_9_quad.py 366-374 *)
Definition quad9 (P : list pt2) (xi et : R) : pt2 := quad_map P ((xi + 1) * (1/2)) ((et + 1) * (1/2)).
(** vtu_9_quad.py 376-395 *)
Definition quad9_J (P : list pt2) (xi et : R) : mat :=
  let r := (xi + 1) * (1/2) in
  let s := (et + 1) * (1/2) in
  let dr v := quad_coef v 1 + quad_coef v 3 * s in
  let ds v := quad_coef v 2 + quad_coef v 3 * r in
  mat2 (dr (xs_of P) * (1/2)) (ds (xs_of P) * (1/2)) (dr (ys_of P) * (1/2)) (ds (ys_of P) * (1/2)).

(** * chaotic.py: TotalMapping2D 236-286; domain [a, b] x [c, d], deformation k *)
(** mapping, 246-260: the last statement of the second branch is [c += c] *)
Definition chaotic_total (a b c d k p q : R) : pt2 :=
  if Req_EM_T k 0 then (p, q)
  else
    let r := (p - a) / (b - a) in
    let s := (q - c) / (d - c) in
    (r + 1/2 * k * sin (tau r) * sin (tau s) + a, s + 1/2 * k * sin (tau r) * sin (tau s)).
(** Jacobian_matrix, 262-286 *)
Definition chaotic_total_J (a b c d k p q : R) : mat :=
  if Req_EM_T k 0 then mat2 1 0 0 1
  else
    let r := (p - a) / (b - a) in
    let s := (q - c) / (d - c) in
    let xr := 1 + 1/2 * k * 2 * PI * cos (tau r) * sin (tau s) in
    let xs := 1/2 * k * sin (tau r) * 2 * PI * cos (tau s) in
    let yr := 1/2 * k * 2 * PI * cos (tau r) * sin (tau s) in
    let ys := 1 + 1/2 * k * sin (tau r) * 2 * PI * cos (tau s) in
    mat2 (xr / (b - a)) (xs / (d - c)) (yr / (b - a)) (ys / (d - c)).
(** _Single_Map_ 166-233: a quadrilateral of the domain, then the total mapping *)
Definition chaotic_region (P : list pt2) (tm : R -> R -> pt2) (r s : R) : pt2 :=
  tm (bilinear (xs_of P) r s) (bilinear (ys_of P) r s).
Definition chaotic_region_J (P : list pt2) (tJ : R -> R -> mat) (r s : R) : mat :=
  let A := quad_coef (xs_of P) in
  let B := quad_coef (ys_of P) in
  let qr := A 1%nat + A 3%nat * s in
  let qs := A 2%nat + A 3%nat * r in
  let wr := B 1%nat + B 3%nat * s in
  let ws := B 2%nat + B 3%nat * r in
  let K := tJ (bilinear (xs_of P) r s) (bilinear (ys_of P) r s) in
  let xq := K 0%nat 0%nat in let xw := K 0%nat 1%nat in
  let yq := K 1%nat 0%nat in let yw := K 1%nat 1%nat in
  mat2 (xq * qr + xw * wr) (xq * qs + xw * ws) (yq * qr + yw * wr) (yq * qs + yw * ws).
(** the corners of region m of crazy2d, 100-149: np.linspace(low, upp, 4) and the shift *)
Definition linspace4 (lo up : R) (i : nat) : R := lo + INR i * ((up - lo) / 3).
Definition rotate_left {A} (n : nat) (l : list A) : list A := skipn n l ++ firstn n l.
Definition chaotic_corners (a b c d : R) (m shift : nat) : list pt2 :=
  let i := (m mod 3)%nat in
  let j := (m / 3)%nat in
  let X := linspace4 a b in
  let Y := linspace4 c d in
  rotate_left shift [(X i, Y j); (X (S i), Y j); (X (S i), Y (S j)); (X i, Y (S j))].

(** * triangles (vtu cell 5): vtu_5_triangle.py 156-245 *)
Definition tri_invA : list (list R) := [[-1/2; 0; 1/2]; [1/4; -1/2; 1/4]; [1/4; 1/2; 1/4]].
(** one row of X @ ___invA___ *)
Definition tri_T (v : list R) (j : nat) : R :=
  fold_right Rplus 0 (map (fun p => fst p * nth j (snd p) 0) (combine v tri_invA)).
Definition tri_one (v : list R) (xi et : R) : R :=
  tri_T v 0 * xi + tri_T v 1 * (et * (xi + 1) / 2) + tri_T v 2 * 1.
Definition tri5 (P : list pt2) (xi et : R) : pt2 := (tri_one (xs_of P) xi et, tri_one (ys_of P) xi et).
(** ___Jacobian_matrix___ 222-245 *)
Definition tri_dxi (v : list R) (et : R) : R := tri_T v 0 * 1 + tri_T v 1 * (et / 2).
Definition tri_det (v : list R) (xi : R) : R := tri_T v 1 * ((xi + 1) / 2).
Definition tri5_J (P : list pt2) (xi et : R) : mat :=
  mat2 (tri_dxi (xs_of P) et) (tri_det (xs_of P) xi) (tri_dxi (ys_of P) et) (tri_det (ys_of P) xi).

(** unique_msepy_curvilinear_triangle.py 254-329: corners P in [-1, 1]^2, then the msepy element *)
Definition curv_tri (P : list pt2) (f : R -> R -> pt2) (o0 o1 d0 d1 xi et : R) : pt2 :=
  in_element2 f o0 o1 d0 d1 (tri_one (xs_of P) xi et) (tri_one (ys_of P) xi et).
Definition curv_tri_J (P : list pt2) (J : R -> R -> mat) (o0 o1 d0 d1 xi et : R) : mat :=
  let K := in_element2_J J o0 o1 d0 d1 (tri_one (xs_of P) xi et) (tri_one (ys_of P) xi et) in
  let a_xi := tri_dxi (xs_of P) et in let a_et := tri_det (xs_of P) xi in
  let b_xi := tri_dxi (ys_of P) et in let b_et := tri_det (ys_of P) xi in
  let x_a := K 0%nat 0%nat in let x_b := K 0%nat 1%nat in
  let y_a := K 1%nat 0%nat in let y_b := K 1%nat 1%nat in
  mat2 (x_a * a_xi + x_b * b_xi) (x_a * a_et + x_b * b_et) (y_a * a_xi + y_b * b_xi) (y_a * a_et + y_b * b_et).

(** msehtt_trf.py: ___TCTinUQ___ 816-885: a triangle in a quadrilateral with mapping f *)
Definition tri_in_quad (P : list pt2) (f : R -> R -> pt2) (xi et : R) : pt2 :=
  f (tri_one (xs_of P) xi et) (tri_one (ys_of P) xi et).
Definition tri_in_quad_J (P : list pt2) (J : R -> R -> mat) (xi et : R) : mat :=
  let K := J (tri_one (xs_of P) xi et) (tri_one (ys_of P) xi et) in
  let x_xi := tri_dxi (xs_of P) et in let x_et := tri_det (xs_of P) xi in
  let y_xi := tri_dxi (ys_of P) et in let y_et := tri_det (ys_of P) xi in
  mat2 (K 0%nat 0%nat * x_xi + K 0%nat 1%nat * y_xi) (K 0%nat 0%nat * x_et + K 0%nat 1%nat * y_et)
       (K 1%nat 0%nat * x_xi + K 1%nat 1%nat * y_xi) (K 1%nat 0%nat * x_et + K 1%nat 1%nat * y_et).

(** main.py: ___TSH_UCQ___ 1570-1665: the quarters NW, SW, SE, NE of a quadrilateral *)
Inductive quarter := NW | SW | SE | NE.
Definition quarter_ref (q : quarter) (xi et : R) : pt2 :=
  match q with
  | NW => ((xi + 1) / 2 - 1, (et + 1) / 2 - 1)
  | SW => ((xi + 1) / 2, (et + 1) / 2 - 1)
  | SE => ((xi + 1) / 2, (et + 1) / 2)
  | NE => ((xi + 1) / 2 - 1, (et + 1) / 2)
  end.
Definition quarter_map (q : quarter) (f : R -> R -> pt2) (xi et : R) : pt2 :=
  f (fst (quarter_ref q xi et)) (snd (quarter_ref q xi et)).
Definition quarter_J (q : quarter) (J : R -> R -> mat) (xi et : R) : mat :=
  let K := J (fst (quarter_ref q xi et)) (snd (quarter_ref q xi et)) in
  mat2 (K 0%nat 0%nat * (1/2)) (K 0%nat 1%nat * (1/2)) (K 1%nat 0%nat * (1/2)) (K 1%nat 1%nat * (1/2)).
