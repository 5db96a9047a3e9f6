(** Model of the faces of elements: mapping, Jacobian matrix, and the outward unit normal vector.

    /repo/msehtt/static/mesh/great/elements/types/: orthogonal_rectangle.py 459-540
    (also used for quadrilaterals), vtu_5_triangle.py 313-392 (also used for curvilinear
    triangles), orthogonal_hexahedron.py 519-637, unique_msepy_curvilinear_hexahedron.py
    240-357, unique_msepy_curvilinear_quadrilateral.py 331-343,
    /repo/msepy/mesh/elements/element.py 290-500.

    One point of a face at a time.  [None] is an exception.  Division by zero
    (a tangent of length zero) gives 0 here; the theorems exclude it. *)
From Coq Require Import List Arith Bool Reals.
From Verif Require Import MappingModel.
Import ListNotations.
Local Open Scope R_scope.

Local Notation i0 := 0%nat.
Local Notation i1 := 1%nat.
Local Notation i2 := 2%nat.

(** * which axis, which end *)
(** orthogonal_rectangle.py 467, orthogonal_hexahedron.py 527; msepy: given as m, n *)
Definition box_face (fid : nat) : nat * nat := ((fid / 2)%nat, (fid mod 2)%nat).
(** vtu_5_triangle.py 320-327 *)
Definition tri_face (fid : nat) : option (nat * nat) :=
  match fid with 0%nat => Some (1%nat, 0%nat) | 1%nat => Some (0%nat, 1%nat) | 2%nat => Some (1%nat, 1%nat) | _ => None end.

(** * two dimensions *)
(** the point of the reference element: orthogonal_rectangle.py 473-493; element.py 311-329 *)
Definition face_ref2 (m n : nat) (t : R) : option (R * R) :=
  match m, n with
  | 0%nat, 0%nat => Some (-1, t)
  | 0%nat, 1%nat => Some (1, t)
  | 1%nat, 0%nat => Some (t, -1)
  | 1%nat, 1%nat => Some (t, 1)
  | _, _ => None
  end.
(** vtu_5_triangle.py 334-351: the left side is not a face *)
Definition tri_ref2 (m n : nat) (t : R) : option (R * R) :=
  match m, n with 0%nat, 0%nat => None | _, _ => face_ref2 m n t end.
Definition face_map2 (phi : R -> R -> pt2) (m n : nat) (t : R) : option pt2 :=
  option_map (fun p => phi (fst p) (snd p)) (face_ref2 m n t).
(** Jacobian_matrix: orthogonal_rectangle.py 495-523, vtu_5_triangle.py 353-376, element.py 372-394 *)
Definition tangent2 (m : nat) (J : mat) : R * R :=
  match m with 0%nat => (J i0 i1, J i1 i1) | _ => (J i0 i0, J i1 i0) end.
Definition face_J2 (J : R -> R -> mat) (m n : nat) (t : R) : option (R * R) :=
  option_map (fun p => tangent2 m (J (fst p) (snd p))) (face_ref2 m n t).
Definition tri_face_J2 (J : R -> R -> mat) (m n : nat) (t : R) : option (R * R) :=
  option_map (fun p => tangent2 m (J (fst p) (snd p))) (tri_ref2 m n t).
Definition unit_of2 (v : R * R) : R * R :=
  let magnitude := sqrt (fst v ^ 2 + snd v ^ 2) in (fst v / magnitude, snd v / magnitude).
(** outward_unit_normal_vector: orthogonal_rectangle.py 525-537, element.py 458-476 *)
Definition turn2 (m n : nat) (j : R * R) : R * R :=
  let '(x, y) := j in
  if ((m =? 0) && (n =? 0))%nat then (- y, x)
  else if ((m =? 1) && (n =? 1))%nat then (- y, x)
  else (y, - x).
Definition ounv2 (J : R -> R -> mat) (m n : nat) (t : R) : option (R * R) :=
  option_map (fun j => unit_of2 (turn2 m n j)) (face_J2 J m n t).
(** vtu_5_triangle.py 378-388 *)
Definition tri_turn2 (m n : nat) (j : R * R) : R * R :=
  let '(x, y) := j in
  if ((m =? 1) && (n =? 1))%nat then (- y, x) else (y, - x).
Definition tri_ounv2 (J : R -> R -> mat) (m n : nat) (t : R) : option (R * R) :=
  option_map (fun j => unit_of2 (tri_turn2 m n j)) (tri_face_J2 J m n t).

(** * three dimensions *)
(** orthogonal_hexahedron.py 536-563: three coordinates, the one of the axis is not used *)
Definition face_ref3 (m n : nat) (xi et sg : R) : option (R * R * R) :=
  match m, n with
  | 0%nat, 0%nat => Some (-1, et, sg) | 0%nat, 1%nat => Some (1, et, sg)
  | 1%nat, 0%nat => Some (xi, -1, sg) | 1%nat, 1%nat => Some (xi, 1, sg)
  | 2%nat, 0%nat => Some (xi, et, -1) | 2%nat, 1%nat => Some (xi, et, 1)
  | _, _ => None
  end.
(** element.py 331-366, 396-440: two coordinates, in the order (y, z), (z, x), (x, y) *)
Definition face_ref3_msepy (m n : nat) (t s : R) : option (R * R * R) :=
  match m, n with
  | 0%nat, 0%nat => Some (-1, t, s) | 0%nat, 1%nat => Some (1, t, s)
  | 1%nat, 0%nat => Some (s, -1, t) | 1%nat, 1%nat => Some (s, 1, t)
  | 2%nat, 0%nat => Some (t, s, -1) | 2%nat, 1%nat => Some (t, s, 1)
  | _, _ => None
  end.
Definition at_ref3 {A} (f : R -> R -> R -> A) (p : R * R * R) : A := f (fst (fst p)) (snd (fst p)) (snd p).
(** the two columns of the Jacobian matrix: orthogonal_hexahedron.py 565-609; element.py 396-440 *)
Definition columns3 (m : nat) (J : mat) : (R * R * R) * (R * R * R) :=
  let col k := (J i0 k, J i1 k, J i2 k) in
  match m with
  | 0%nat => (col i1, col i2)
  | 1%nat => (col i2, col i0)
  | _ => (col i0, col i1)
  end.
(** outward_unit_normal_vector: orthogonal_hexahedron.py 611-632; element.py 480-497 *)
Definition normal3 (n : nat) (ab : (R * R * R) * (R * R * R)) : R * R * R :=
  let '((a0, a1, a2), (b0, b1, b2)) := ab in
  let acb0 := a1 * b2 - a2 * b1 in
  let acb1 := a2 * b0 - a0 * b2 in
  let acb2 := a0 * b1 - a1 * b0 in
  let norm := sqrt (acb0 ^ 2 + acb1 ^ 2 + acb2 ^ 2) in
  if (n =? 0)%nat then (- (acb0 / norm), - (acb1 / norm), - (acb2 / norm)) else (acb0 / norm, acb1 / norm, acb2 / norm).
Definition ounv3 (J : R -> R -> R -> mat) (m n : nat) (xi et sg : R) : option (R * R * R) :=
  option_map (fun p => normal3 n (columns3 m (at_ref3 J p))) (face_ref3 m n xi et sg).
Definition ounv3_msepy (J : R -> R -> R -> mat) (m n : nat) (t s : R) : option (R * R * R) :=
  option_map (fun p => normal3 n (columns3 m (at_ref3 J p))) (face_ref3_msepy m n t s).

(** * is_plane, is_perp_plane, area *)
(** np.isclose(a, b) with rtol = 1e-5, atol = 1e-8; np.allclose *)
Definition isclose (a b : R) : Prop := Rabs (a - b) <= 1 / 10 ^ 8 + 1 / 10 ^ 5 * Rabs b.
(** np.linspace(-1, 1, n) *)
Definition linspace_m1_1 (n : nat) : list R := map (fun i => -1 + INR i * (2 / INR (n - 1))) (seq 0 n).
(** unique_msepy_curvilinear_quadrilateral.py 331-343, unique_curvilinear_quad.py 249-261 *)
Definition is_plane2 (J : R -> R -> mat) (m n : nat) : Prop :=
  exists v0, ounv2 J m n (-1) = Some v0 /\
  forall x v, In x (linspace_m1_1 23) -> ounv2 J m n x = Some v -> isclose (fst v) (fst v0) /\ isclose (snd v) (snd v0).
(** unique_msepy_curvilinear_hexahedron.py 297-309: at the points (x, x, x) *)
Definition is_plane3 (J : R -> R -> R -> mat) (m n : nat) : Prop :=
  exists v0, ounv3 J m n (-1) (-1) (-1) = Some v0 /\
  forall x v, In x (linspace_m1_1 13) -> ounv3 J m n x x x = Some v ->
    isclose (fst (fst v)) (fst (fst v0)) /\ isclose (snd (fst v)) (snd (fst v0)) /\ isclose (snd v) (snd v0).
(** 311-324 *)
Definition is_perp_plane3 (J : R -> R -> R -> mat) (m n : nat) : Prop :=
  is_plane3 J m n /\
  ((forall x v, In x (linspace_m1_1 13) -> ounv3 J m n x x x = Some v -> isclose (fst (fst v)) 0) \/
   (forall x v, In x (linspace_m1_1 13) -> ounv3 J m n x x x = Some v -> isclose (snd (fst v)) 0) \/
   (forall x v, In x (linspace_m1_1 13) -> ounv3 J m n x x x = Some v -> isclose (snd v) 0)).
(** m3n3.py angle3 *)
Definition sub3 (p q : R * R * R) : R * R * R := (fst (fst p) - fst (fst q), snd (fst p) - snd (fst q), snd p - snd q).
Definition dot3 (p q : R * R * R) : R := fst (fst p) * fst (fst q) + snd (fst p) * snd (fst q) + snd p * snd q.
Definition norm3 (p : R * R * R) : R := sqrt (dot3 p p).
Definition angle3 (A o B : R * R * R) : R := acos (dot3 (sub3 A o) (sub3 B o) / (norm3 (sub3 A o) * norm3 (sub3 B o))).
(** is_rectangle 326-357: the corners A, B, C, D of the face *)
Definition face_corner (phi : R -> R -> R -> pt3) (m n : nat) (u v : R) : option pt3 :=
  option_map (at_ref3 phi)
    (match m with 0%nat => face_ref3 m n 0 u v | 1%nat => face_ref3 m n u 0 v | 2%nat => face_ref3 m n u v 0 | _ => None end).
Definition is_rectangle3 (phi : R -> R -> R -> pt3) (J : R -> R -> R -> mat) (m n : nat) : Prop :=
  is_plane3 J m n /\
  exists A B C D, face_corner phi m n (-1) (-1) = Some A /\ face_corner phi m n 1 (-1) = Some B /\
    face_corner phi m n 1 1 = Some C /\ face_corner phi m n (-1) 1 = Some D /\
    isclose (angle3 A B C) (PI * (1/2)) /\ isclose (angle3 C D A) (PI * (1/2)).
(** area: orthogonal_hexahedron.py 494-515 (there with ==), unique_msepy_curvilinear_hexahedron.py 248-270;
    [eq] is the comparison *)
Definition area_of (eq : R -> R -> Prop) (dec : forall a b, {eq a b} + {~ eq a b}) (p q : pt3) : option R :=
  let '(x0, y0, z0) := p in
  let '(x1, y1, z1) := q in
  if dec x0 x1 then Some ((y1 - y0) * (z1 - z0))
  else if dec y0 y1 then Some ((z1 - z0) * (x1 - x0))
  else if dec z0 z1 then Some ((x1 - x0) * (y1 - y0))
  else None.
Lemma isclose_dec a b : {isclose a b} + {~ isclose a b}.
Proof. apply Rle_dec. Defined.
Definition face_area (eq : R -> R -> Prop) (dec : forall a b, {eq a b} + {~ eq a b}) (phi : R -> R -> R -> pt3) (m n : nat) : option R :=
  match face_ref3 m n (-1) (-1) (-1), face_ref3 m n 1 1 1 with
  | Some p, Some q => area_of eq dec (at_ref3 phi p) (at_ref3 phi q)
  | _, _ => None
  end.
