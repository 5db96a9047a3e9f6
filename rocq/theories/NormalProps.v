(** C62: outward unit normal vectors of element faces; flat faces and their areas.  Only statements and references to proofs;
    vocabulary in NormalSpec.v, JacobianSpec.v, MappingSpec.v, models in NormalModel.v, MappingModel.v. *)
From Coq Require Import List Arith Reals Lra Lia.
From Coquelicot Require Import Coquelicot.
From Verif Require Import MappingModel MappingSpec JacobianSpec JacobianProofs NormalModel NormalSpec NormalProofs PlaneProofs.
Import ListNotations.
Local Open Scope R_scope.
Local Notation i0 := 0%nat.
Local Notation i1 := 1%nat.
Local Notation i2 := 2%nat.


(** * 2-d *)

Theorem normal_2d_defined (J : R -> R -> mat) m n t : (m < 2)%nat -> (n < 2)%nat -> exists v, ounv2 J m n t = Some v.
Proof. exact (ounv2_some J m n t). Qed.
Print Assumptions normal_2d_defined.

Theorem normal_2d_outward J m n t v x y : ounv2 J m n t = Some v -> face_ref2 m n t = Some (x, y) -> 0 < determinant 2 (J x y) ->
  outward 2 (J x y) m n (vec2 v).
Proof. exact (ounv2_outward J m n t v x y). Qed.
Print Assumptions normal_2d_outward.

(** on an element with a negative Jacobian (nodes in clockwise order) the vector points into the element *)
Theorem normal_2d_mirrored J m n t v x y : ounv2 J m n t = Some v -> face_ref2 m n t = Some (x, y) -> determinant 2 (J x y) < 0 ->
  inward 2 (J x y) m n (vec2 v).
Proof. exact (ounv2_inward J m n t v x y). Qed.
Print Assumptions normal_2d_mirrored.

(** what is near the face and inside is behind the face *)
Theorem normal_2d_behind phi J m n t v x y : ounv2 J m n t = Some v -> face_ref2 m n t = Some (x, y) -> 0 < determinant 2 (J x y) ->
  jacobian_of2 phi J x y -> forall w : nat -> R, end_sign n * w m < 0 ->
  exists del, 0 < del /\ forall eps, 0 < eps < del ->
    dot 2 (vec2 v) (fun i => vec2 (phi (x + eps * w i0) (y + eps * w i1)) i - vec2 (phi x y) i) < 0.
Proof. exact (ounv2_behind phi J m n t v x y). Qed.
Print Assumptions normal_2d_behind.

Theorem normal_triangle_same J m n t : (m, n) <> (0%nat, 0%nat) -> tri_ounv2 J m n t = ounv2 J m n t.
Proof. exact (tri_ounv2_same J m n t). Qed.
Print Assumptions normal_triangle_same.

Theorem normal_triangle_faces f m n : tri_face f = Some (m, n) -> (m, n) <> (0%nat, 0%nat) /\ (m < 2)%nat /\ (n < 2)%nat.
Proof. exact (tri_face_spec f m n). Qed.
Print Assumptions normal_triangle_faces.

(** on anticlockwise triangles the whole element is behind each face *)
Theorem normal_triangle_behind A B C f m n t t' v p x y : 0 < turn A B C -> tri_face f = Some (m, n) ->
  tri_ounv2 (tri5_J [A; B; C]) m n t = Some v -> face_map2 (tri5 [A; B; C]) m n t' = Some p -> ref x -> ref y ->
  dot 2 (vec2 v) (vec2 v) = 1 /\ along v (tri5 [A; B; C] x y) p <= 0 /\
  (forall t'' q, face_map2 (tri5 [A; B; C]) m n t'' = Some q -> along v q p = 0).
Proof. exact (tri_normal_behind A B C f m n t t' v p x y). Qed.
Print Assumptions normal_triangle_behind.

(** on convex anticlockwise quadrilaterals, too *)
Theorem normal_quad_behind A B C D m n t t' v p x y :
  0 < turn A B C -> 0 < turn B C D -> 0 < turn C D A -> 0 < turn D A B ->
  ounv2 (quad9_J [A; B; C; D]) m n t = Some v -> face_map2 (quad9 [A; B; C; D]) m n t' = Some p -> ref x -> ref y ->
  dot 2 (vec2 v) (vec2 v) = 1 /\ along v (quad9 [A; B; C; D] x y) p <= 0 /\
  (forall t'' q, face_map2 (quad9 [A; B; C; D]) m n t'' = Some q -> along v q p = 0).
Proof. exact (quad_normal_behind A B C D m n t t' v p x y). Qed.
Print Assumptions normal_quad_behind.

Example normal_quad_case : 0 < turn (0, 0) (3, 0) (2, 2) /\ 0 < turn (3, 0) (2, 2) (0, 1) /\ 0 < turn (2, 2) (0, 1) (0, 0) /\ 0 < turn (0, 1) (0, 0) (3, 0).
Proof. unfold turn. cbn. lra. Qed.
Example normal_2d_case : ounv2 (fun _ _ => mat2 2 0 0 3) 0 0 (1/2) = Some (unit_of2 (-3, 0)) /\ ounv2 (fun _ _ => mat2 2 0 0 3) 1 1 (1/2) = Some (unit_of2 (0, 2)) /\
  ounv2 (fun _ _ => mat2 2 0 0 3) 2 0 (1/2) = None.
Proof. unfold ounv2, face_J2, mat2; cbn. refine (conj _ (conj _ eq_refl)); do 2 f_equal; apply f_equal2; ring. Qed.


(** * 3-d *)

Theorem normal_3d_outward J m n xi et sg v p : ounv3 J m n xi et sg = Some v -> face_ref3 m n xi et sg = Some p ->
  (0 < determinant 3 (at_ref3 J p) -> outward 3 (at_ref3 J p) m n (vec3 v)) /\
  (determinant 3 (at_ref3 J p) < 0 -> inward 3 (at_ref3 J p) m n (vec3 v)).
Proof. exact (ounv3_outward J m n xi et sg v p). Qed.
Print Assumptions normal_3d_outward.

Theorem normal_3d_msepy J m n t s : (m < 3)%nat -> (n < 2)%nat ->
  ounv3_msepy J m n t s = match m with 0%nat => ounv3 J m n 0 t s | 1%nat => ounv3 J m n s 0 t | _ => ounv3 J m n t s 0 end.
Proof. exact (ounv3_msepy_same J m n t s). Qed.
Print Assumptions normal_3d_msepy.

Example normal_3d_case : ounv3 turned_J 0 1 (1/2) (1/3) (1/4) = Some (1 / sqrt 2, 1 / sqrt 2, 0) /\ determinant 3 (turned_J 1 (1/3) (1/4)) = 2.
Proof. split; [apply turned_x |]. rewrite det_expand3. unfold turned_J, mat3. cbn [nth]. ring. Qed.


(** * flat faces *)

(** a wave with the same slope at the 23 sample points counts as straight *)
Theorem normal_is_plane_2d_refuted : exists phi J, (forall x y, jacobian_of2 phi J x y) /\ (forall x y, 0 < determinant 2 (J x y)) /\
  is_plane2 J 1 1 /\ ~ in_line (face_points2 phi 1 1).
Proof. exact (is_plane2_refuted). Qed.
Print Assumptions normal_is_plane_2d_refuted.

(** in 3-d the sample points are only on a diagonal of the face *)
Theorem normal_is_plane_3d_refuted : exists phi J, (forall x y z, jacobian_of3 phi J x y z) /\ (forall x y z, 0 < determinant 3 (J x y z)) /\
  is_plane3 J 2 1 /\ ~ in_plane (face_points3 phi 2 1).
Proof. exact (is_plane3_refuted). Qed.
Print Assumptions normal_is_plane_3d_refuted.

(** one vanishing component of the normal is enough to be "perpendicular to an axis" *)
Theorem normal_perp_plane_refuted : exists J v, (forall x y z, ounv3 J 0 1 x y z = Some v) /\
  fst (fst v) <> 0 /\ snd (fst v) <> 0 /\ is_perp_plane3 J 0 1.
Proof. exact (perp_plane_refuted). Qed.
Print Assumptions normal_perp_plane_refuted.

(** a square with sides of length 2 sqrt 2, turned by 45 degrees: area 0 *)
Theorem normal_area_refuted : exists phi J, (forall x y z, jacobian_of3 phi J x y z) /\ (forall x y z, 0 < determinant 3 (J x y z)) /\
  is_perp_plane3 J 2 1 /\ is_rectangle3 phi J 2 1 /\
  face_points3 phi 2 1 (0, -2, 1) /\ face_points3 phi 2 1 (2, 0, 1) /\ face_points3 phi 2 1 (0, 2, 1) /\ face_points3 phi 2 1 (-2, 0, 1) /\ face_area isclose isclose_dec phi 2 1 = Some 0.
Proof. exact (area_refuted). Qed.
Print Assumptions normal_area_refuted.

Theorem normal_area_box (eq : R -> R -> Prop) (dec : forall a b, {eq a b} + {~ eq a b}) (ox oy oz dx dy dz : R) (m n : nat) : (forall a, eq a a) ->
  ~ eq ox (ox + dx) -> ~ eq oy (oy + dy) -> ~ eq oz (oz + dz) -> (m < 3)%nat -> (n < 2)%nat ->
  face_area eq dec (boxed ox oy oz dx dy dz) m n = Some (match m with 0%nat => dy * dz | 1%nat => dz * dx | _ => dx * dy end).
Proof. exact (area_box eq dec ox oy oz dx dy dz m n). Qed.
Print Assumptions normal_area_box.

(** numpy.isclose is relative: the sides of small boxes far away count as degenerate *)
Theorem normal_area_far_refuted : face_area isclose isclose_dec (boxed 1000 0 0 (1/1000) 1 1) 1 0 = Some 0.
Proof. exact (area_far). Qed.
Print Assumptions normal_area_far_refuted.

Example normal_area_case : face_area isclose isclose_dec (boxed 0 0 0 2 3 4) 1 0 = Some (4 * 2).
Proof.
  rewrite area_box; try lia; [reflexivity | exact isclose_refl | | |]; unfold isclose; rewrite Rabs_left, Rabs_right by lra; lra.
Qed.

