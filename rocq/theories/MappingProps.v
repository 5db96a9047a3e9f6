(** C59: the functions Jacobian_matrix return the derivatives of the functions mapping.  Only statements and references to proofs; vocabulary in
    MappingSpec.v, models in MappingModel.v. *)
From Coq Require Import List Arith Reals Lra Lia.
From Coquelicot Require Import Coquelicot.
From Verif Require Import MappingModel MappingSpec MappingProofs.
Import ListNotations.
Local Open Scope R_scope.


(** * regions of msepy: crazy, linear, transfinite *)

Theorem mapping_crazy_1d a b k x : jacobian_of1 (crazy1 a b k) (crazy1_J a b k) x.
Proof. exact (crazy1_jac a b k x). Qed.
Print Assumptions mapping_crazy_1d.

Theorem mapping_crazy_2d a b c d k x y : jacobian_of2 (crazy2 a b c d k) (crazy2_J a b c d k) x y.
Proof. exact (crazy2_jac a b c d k x y). Qed.
Print Assumptions mapping_crazy_2d.

Theorem mapping_crazy_3d a b c d e f k x y z : jacobian_of3 (crazy3 a b c d e f k) (crazy3_J a b c d e f k) x y z.
Proof. exact (crazy3_jac a b c d e f k x y z). Qed.
Print Assumptions mapping_crazy_3d.

Theorem mapping_linear_accepted x0 x1 y0 y1 r s : x0 < x1 -> y0 < y1 ->
  match linear_init [x0; x1; y0; y1] with Some o => linear o [r; s] | None => None end
  = Some [fst (linear2 x0 x1 y0 y1 r s); snd (linear2 x0 x1 y0 y1 r s)].
Proof. exact (linear_two x0 x1 y0 y1 r s). Qed.
Print Assumptions mapping_linear_accepted.

Theorem mapping_linear_accepted_3d x0 x1 y0 y1 z0 z1 r s t : x0 < x1 -> y0 < y1 -> z0 < z1 ->
  match linear_init [x0; x1; y0; y1; z0; z1] with Some o => linear o [r; s; t] | None => None end
  = Some (let p := linear3 x0 x1 y0 y1 z0 z1 r s t in [fst (fst p); snd (fst p); snd p]).
Proof. exact (linear_three x0 x1 y0 y1 z0 z1 r s t). Qed.
Print Assumptions mapping_linear_accepted_3d.

(** any number of axes *)
Theorem mapping_linear_axes o rst p i : linear o rst = Some p -> (i < length o)%nat ->
  nth i p 0 = nth i rst 0 * snd (nth i o (0, 0)) + fst (nth i o (0, 0)).
Proof. exact (linear_axis o rst p i). Qed.
Print Assumptions mapping_linear_axes.

Theorem mapping_linear_2d x0 x1 y0 y1 x y : jacobian_of2 (linear2 x0 x1 y0 y1) (fun _ _ => linear_J [(x0, x1 - x0); (y0, y1 - y0)]) x y.
Proof. exact (linear2_jac x0 x1 y0 y1 x y). Qed.
Print Assumptions mapping_linear_2d.

Theorem mapping_linear_3d x0 x1 y0 y1 z0 z1 x y z :
  jacobian_of3 (linear3 x0 x1 y0 y1 z0 z1) (fun _ _ _ => linear_J [(x0, x1 - x0); (y0, y1 - y0); (z0, z1 - z0)]) x y z.
Proof. exact (linear3_jac x0 x1 y0 y1 z0 z1 x y z). Qed.
Print Assumptions mapping_linear_3d.

(** the curves that bound transfinite regions *)
Theorem mapping_line p q : velocity_of (line p q) (line_d p q).
Proof. exact (line_velocity p q). Qed.
Print Assumptions mapping_line.

Theorem mapping_arc cw c p q : velocity_of (arc cw c p q) (arc_d cw c p q).
Proof. exact (arc_velocity cw c p q). Qed.
Print Assumptions mapping_arc.

Theorem mapping_transfinite x0 x1 y0 y1 dx0 dx1 dy0 dy1 x y :
  velocity_of x0 dx0 -> velocity_of x1 dx1 -> velocity_of y0 dy0 -> velocity_of y1 dy1 ->
  jacobian_of2 (tf2 x0 x1 y0 y1) (tf2_J x0 x1 y0 y1 dx0 dx1 dy0 dy1) x y.
Proof. exact (tf2_jac x0 x1 y0 y1 dx0 dx1 dy0 dy1 x y). Qed.
Print Assumptions mapping_transfinite.

(** * elements: the reference element, an affine map into the region, the map of the region *)

Theorem mapping_element_1d f J o d x : (forall r, jacobian_of1 f J r) -> jacobian_of1 (in_element1 f o d) (in_element1_J J o d) x.
Proof. exact (in_element1_jac f J o d x). Qed.
Print Assumptions mapping_element_1d.

Theorem mapping_element_2d f J o0 o1 d0 d1 x y : (forall r s, jacobian_of2 f J r s) ->
  jacobian_of2 (in_element2 f o0 o1 d0 d1) (in_element2_J J o0 o1 d0 d1) x y.
Proof. exact (in_element2_jac f J o0 o1 d0 d1 x y). Qed.
Print Assumptions mapping_element_2d.

Theorem mapping_element_3d f J o0 o1 o2 d0 d1 d2 x y z : (forall r s t, jacobian_of3 f J r s t) ->
  jacobian_of3 (in_element3 f o0 o1 o2 d0 d1 d2) (in_element3_J J o0 o1 o2 d0 d1 d2) x y z.
Proof. exact (in_element3_jac f J o0 o1 o2 d0 d1 d2 x y z). Qed.
Print Assumptions mapping_element_3d.

Theorem mapping_region_element f J a b c d x y : (forall r s, jacobian_of2 f J r s) ->
  jacobian_of2 (region_ct f a b c d) (region_ct_J J a b c d) x y.
Proof. exact (region_ct_jac f J a b c d x y). Qed.
Print Assumptions mapping_region_element.

(** the four quarters of a split element *)
Theorem mapping_quarter q f J x y : (forall u v, jacobian_of2 f J u v) -> jacobian_of2 (quarter_map q f) (quarter_J q J) x y.
Proof. exact (quarter_jac q f J x y). Qed.
Print Assumptions mapping_quarter.

(** * msehtt *)

Theorem mapping_rectangle xl xu yl yu x y : jacobian_of2 (rectangle xl xu yl yu) (fun _ _ => rectangle_J xl xu yl yu) x y.
Proof. exact (rectangle_jac xl xu yl yu x y). Qed.
Print Assumptions mapping_rectangle.

(** exact if the half sizes are numbers of eight decimals *)
Theorem mapping_orthogonal_rectangle (rd8 : R -> R) ox oy dx dy x y : rd8 (dx / 2) = dx / 2 -> rd8 (dy / 2) = dy / 2 ->
  jacobian_of2 (ortho_rect ox oy dx dy) (fun _ _ => ortho_rect_J rd8 dx dy) x y.
Proof. exact (ortho_rect_jac rd8 ox oy dx dy x y). Qed.
Print Assumptions mapping_orthogonal_rectangle.

Theorem mapping_orthogonal_rectangle_near (rd8 : R -> R) eps ox oy dx dy x y : (forall v, Rabs (rd8 v - v) <= eps) ->
  exists J, jacobian_of2 (ortho_rect ox oy dx dy) J x y /\ forall i j, Rabs (ortho_rect_J rd8 dx dy i j - J x y i j) <= eps.
Proof. exact (ortho_rect_near rd8 eps ox oy dx dy x y). Qed.
Print Assumptions mapping_orthogonal_rectangle_near.

Theorem mapping_orthogonal_hexahedron (rd8 : R -> R) ox oy oz dx dy dz x y z : rd8 (dx / 2) = dx / 2 -> rd8 (dy / 2) = dy / 2 -> rd8 (dz / 2) = dz / 2 ->
  jacobian_of3 (ortho_hex ox oy oz dx dy dz) (fun _ _ _ => ortho_hex_J rd8 dx dy dz) x y z.
Proof. exact (ortho_hex_jac rd8 ox oy oz dx dy dz x y z). Qed.
Print Assumptions mapping_orthogonal_hexahedron.

Theorem mapping_quadrilateral_region P x y : jacobian_of2 (quad_map P) (fun r s => mat2 (quad_coef (xs_of P) 1 + quad_coef (xs_of P) 3 * s)
   (quad_coef (xs_of P) 2 + quad_coef (xs_of P) 3 * r) (quad_coef (ys_of P) 1 + quad_coef (ys_of P) 3 * s) (quad_coef (ys_of P) 2 + quad_coef (ys_of P) 3 * r)) x y.
Proof. exact (quad_map_jac P x y). Qed.
Print Assumptions mapping_quadrilateral_region.

Theorem mapping_quadrilateral P x y : jacobian_of2 (quad9 P) (quad9_J P) x y.
Proof. exact (quad9_jac P x y). Qed.
Print Assumptions mapping_quadrilateral.

Theorem mapping_chaotic_total a b c d k x y : a < b -> c < d -> jacobian_of2 (chaotic_total a b c d k) (chaotic_total_J a b c d k) x y.
Proof. exact (chaotic_total_jac a b c d k x y). Qed.
Print Assumptions mapping_chaotic_total.

Theorem mapping_chaotic P tm tJ x y : (forall p q, jacobian_of2 tm tJ p q) ->
  jacobian_of2 (chaotic_region P tm) (chaotic_region_J P tJ) x y.
Proof. exact (chaotic_region_jac P tm tJ x y). Qed.
Print Assumptions mapping_chaotic.

Theorem mapping_triangle P x y : jacobian_of2 (tri5 P) (tri5_J P) x y.
Proof. exact (tri5_jac P x y). Qed.
Print Assumptions mapping_triangle.

Theorem mapping_curvilinear_triangle P f J o0 o1 d0 d1 x y : (forall u v, jacobian_of2 f J u v) ->
  jacobian_of2 (curv_tri P f o0 o1 d0 d1) (curv_tri_J P J o0 o1 d0 d1) x y.
Proof. exact (curv_tri_jac P f J o0 o1 d0 d1 x y). Qed.
Print Assumptions mapping_curvilinear_triangle.

Theorem mapping_refined_triangle P f J x y : (forall u v, jacobian_of2 f J u v) -> jacobian_of2 (tri_in_quad P f) (tri_in_quad_J P J) x y.
Proof. exact (tri_in_quad_jac P f J x y). Qed.
Print Assumptions mapping_refined_triangle.

(** partial derivatives *)
Theorem mapping_partial_derivatives f J x y : jacobian_of2 f J x y ->
  is_derive (fun u => fst (f u y)) x (J x y 0%nat 0%nat) /\ is_derive (fun v => fst (f x v)) y (J x y 0%nat 1%nat) /\
  is_derive (fun u => snd (f u y)) x (J x y 1%nat 0%nat) /\ is_derive (fun v => snd (f x v)) y (J x y 1%nat 1%nat).
Proof. exact (fun H => conj (proj1 (D2_partial _ _ _ _ _ (proj1 H))) (conj (proj2 (D2_partial _ _ _ _ _ (proj1 H)))
  (conj (proj1 (D2_partial _ _ _ _ _ (proj2 H))) (proj2 (D2_partial _ _ _ _ _ (proj2 H)))))). Qed.
Print Assumptions mapping_partial_derivatives.

(** * Examples *)
Example mapping_crazy_value : crazy2 0 2 0 1 (1/5) (1/4) (1/4) = (7/10, 7/20).
Proof.
  unfold crazy2. destruct (Req_EM_T (1/5) 0); [lra |]. replace (tau (1/4)) with (PI / 2) by (unfold tau; field).
  rewrite sin_PI2. f_equal; field.
Qed.
Example mapping_crazy_entry : crazy2_J 0 2 0 1 (1/5) (1/2) (1/4) 0 0 = 2 - 2 * PI / 5.
Proof.
  unfold crazy2_J. destruct (Req_EM_T (1/5) 0); [lra |]. unfold mat2. cbn [nth].
  replace (tau (1/4)) with (PI / 2) by (unfold tau; field). replace (tau (1/2)) with PI by (unfold tau; field).
  rewrite sin_PI2, cos_PI. field.
Qed.
Example mapping_crazy_in_element : jacobian_of2 (in_element2 (crazy2 0 2 0 1 (1/5)) (1/2) 0 (1/2) (1/4))
  (in_element2_J (crazy2_J 0 2 0 1 (1/5)) (1/2) 0 (1/2) (1/4)) (1/3) (-1).
Proof. apply mapping_element_2d. intros. apply mapping_crazy_2d. Qed.
Example mapping_half_disk : jacobian_of2
  (tf2 (line (-1, 0) (-1, 2)) (line (1, 0) (1, 2)) (arc true (0, 0) (-1, 0) (1, 0)) (line (-1, 2) (1, 2)))
  (tf2_J (line (-1, 0) (-1, 2)) (line (1, 0) (1, 2)) (arc true (0, 0) (-1, 0) (1, 0)) (line (-1, 2) (1, 2))
     (line_d (-1, 0) (-1, 2)) (line_d (1, 0) (1, 2)) (arc_d true (0, 0) (-1, 0) (1, 0)) (line_d (-1, 2) (1, 2))) (1/3) (1/4).
Proof. apply mapping_transfinite; (apply mapping_line || apply mapping_arc). Qed.
Example mapping_quad_value : quad9 [(0, 0); (2, 0); (3, 2); (0, 1)] 0 0 = (5/4, 3/4) /\ quad9_J [(0, 0); (2, 0); (3, 2); (0, 1)] 0 0 0 0 = 5/4.
Proof. unfold quad9, quad_map, bilinear, quad_coef, dot4, quad9_J, mat2, xs_of, ys_of. cbn. split; [f_equal |]; unfold quad_coef, dot4; cbn; field. Qed.
Example mapping_triangle_value : tri5 [(0, 0); (1, 0); (0, 1)] 1 0 = (1/2, 1/2) /\ tri5 [(0, 0); (1, 0); (0, 1)] (-1) (3/7) = (0, 0).
Proof. unfold tri5, tri_one, tri_T, xs_of, ys_of. cbn. split; f_equal; field. Qed.
Example mapping_rounding : let rd8 := fun v => IZR (Int_part (v * 10 ^ 8 + 1/2)) / 10 ^ 8 in rd8 ((1/2) / 2) = (1/2) / 2.
Proof.
  cbv beta zeta. unfold Int_part. rewrite <- (tech_up _ 25000001); [change (25000001 - 1)%Z with 25000000%Z | |]; lra.
Qed.

