(** C65: data shared between elements with the same metric signature.  Only statements and references to proofs; vocabulary in
    SignatureSpec.v; model in SignatureModel.v.
    [own e p] is what is computed for the element [e] (Jacobian matrices at points, mass matrices of degrees); [calls peq own [] es]
    the results of a sequence of calls that share a cache; [triangle_numbers] the numbers before they are rounded. *)
From Coq Require Import List ZArith Reals Lra Lia.
From Coquelicot Require Import Coquelicot.
From Verif Require Import MappingModel MappingSpec JacobianSpec JacobianProofs SignatureModel SignatureSpec SignatureThms.
Import List ListNotations.
Local Open Scope R_scope.
Local Notation mat := MappingModel.mat.


(** * the cache *)

Theorem shared_from_equal_signature {P V : Type} (peq : forall p q : P, {p = q} + {p <> q}) (own : element -> P -> V) es n e p :
  nth_error es n = Some (e, p) ->
  exists e' m, (m <= n)%nat /\ nth_error es m = Some (e', p) /\ metric_signature e' = metric_signature e /\ nth_error (calls peq own [] es) n = Some (own e' p).
Proof. exact (calls_sound peq own es n e p). Qed.
Print Assumptions shared_from_equal_signature.


Theorem shared_right_if_determined {P V : Type} (peq : forall p q : P, {p = q} + {p <> q}) (own : element -> P -> V) es :
  (forall e e' p p', In (e, p) es -> In (e', p') es -> metric_signature e = metric_signature e' -> own e p = own e' p) ->
  calls peq own [] es = map (fun ep => own (fst ep) (snd ep)) es.
Proof. exact (calls_right peq own es). Qed.
Print Assumptions shared_right_if_determined.


Theorem signatures_of_types e e' : metric_signature e = metric_signature e' ->
  match e, e' with
  | Triangle5 _ _ _, Triangle5 _ _ _ | Quad9 _ _ _ _, Quad9 _ _ _ _ | Rectangle _ _ _ _, Rectangle _ _ _ _ | Hexahedron _ _ _ _ _ _, Hexahedron _ _ _ _ _ _ => True
  | Unique i _, Unique j _ => i = j
  | _, _ => False
  end.
Proof. exact (signature_kind e e'). Qed.
Print Assumptions signatures_of_types.

(** * elements that are the same up to a shift share *)

Theorem shifted_triangles_share A B C A' B' C' : shifted [A; B; C] [A'; B'; C'] -> metric_signature (Triangle5 A B C) = metric_signature (Triangle5 A' B' C').
Proof. exact (shifted_triangle A B C A' B' C'). Qed.
Print Assumptions shifted_triangles_share.

Theorem shifted_quads_share A B C D A' B' C' D' : shifted [A; B; C; D] [A'; B'; C'; D'] ->
  metric_signature (Quad9 A B C D) = metric_signature (Quad9 A' B' C' D') /\ same_matrices (own_J (Quad9 A B C D)) (own_J (Quad9 A' B' C' D')).
Proof. exact (shifted_quad A B C D A' B' C' D'). Qed.
Print Assumptions shifted_quads_share.

(** * what equal signatures determine *)

(** without rounding and for triangles of the same orientation *)
Theorem triangle_numbers_determine A B C A' B' C' : turn A B C <> 0 -> 0 < turn A B C * turn A' B' C' -> triangle_numbers A B C = triangle_numbers A' B' C' ->
  shifted [A; B; C] [A'; B'; C'] /\ same_matrices (own_J (Triangle5 A B C)) (own_J (Triangle5 A' B' C')).
Proof. exact (triangle_exact A B C A' B' C'). Qed.
Print Assumptions triangle_numbers_determine.

Theorem rectangle_signature_near ox oy dx dy ox' oy' dx' dy' xi et i j : metric_signature (Rectangle ox oy dx dy) = metric_signature (Rectangle ox' oy' dx' dy') ->
  Rabs (own_J (Rectangle ox oy dx dy) xi et i j - own_J (Rectangle ox' oy' dx' dy') xi et i j) <= 5 / 10 ^ 6.
Proof. exact (rectangle_near ox oy dx dy ox' oy' dx' dy' xi et i j). Qed.
Print Assumptions rectangle_signature_near.

Theorem hexahedron_signature_near ox oy oz dx dy dz ox' oy' oz' dx' dy' dz' xi et i j :
  metric_signature (Hexahedron ox oy oz dx dy dz) = metric_signature (Hexahedron ox' oy' oz' dx' dy' dz') ->
  Rabs (own_J (Hexahedron ox oy oz dx dy dz) xi et i j - own_J (Hexahedron ox' oy' oz' dx' dy' dz') xi et i j) <= 5 / 10 ^ 6.
Proof. exact (hexahedron_near ox oy oz dx dy dz ox' oy' oz' dx' dy' dz' xi et i j). Qed.
Print Assumptions hexahedron_signature_near.

Theorem rounded_numbers_near n x y : text n x = text n y -> Rabs (x - y) <= / 10 ^ n.
Proof. exact (text_close n x y). Qed.
Print Assumptions rounded_numbers_near.

(** * what they do not *)

(** two rectangles with the same diagonal *)
Theorem quad_signature_refuted : exists A B C D A' B' C' D', convex_anticlockwise A B C D /\ convex_anticlockwise A' B' C' D' /\
  metric_signature (Quad9 A B C D) = metric_signature (Quad9 A' B' C' D') /\
  forall xi et, determinant 2 (own_J (Quad9 A B C D) xi et) = 25/8 /\ determinant 2 (own_J (Quad9 A' B' C' D') xi et) = 3.
Proof. exact (quad_wrong). Qed.
Print Assumptions quad_signature_refuted.

(** a mirrored triangle has a negative Jacobian *)
Theorem triangle_signature_mirror_refuted : exists A B C C', metric_signature (Triangle5 A B C) = metric_signature (Triangle5 A B C') /\
  forall xi et, determinant 2 (own_J (Triangle5 A B C) xi et) = (xi + 1) / 8 /\ determinant 2 (own_J (Triangle5 A B C') xi et) = - ((xi + 1) / 8).
Proof. exact (triangle_mirrored). Qed.
Print Assumptions triangle_signature_mirror_refuted.

(** a triangle turned by 3e-4 *)
Theorem triangle_signature_turn_refuted : exists A B C B' C', 0 < turn A B C /\ 0 < turn A B' C' /\ metric_signature (Triangle5 A B C) = metric_signature (Triangle5 A B' C') /\
  forall xi et, own_J (Triangle5 A B C) xi et 1%nat 0%nat - own_J (Triangle5 A B' C') xi et 1%nat 0%nat = - tilt * (1 - et) / 4.
Proof. exact (triangle_turned). Qed.
Print Assumptions triangle_signature_turn_refuted.

(** four times as long *)
Theorem rectangle_signature_tiny_refuted : exists dx dx', metric_signature (Rectangle 0 0 dx 1) = metric_signature (Rectangle 0 0 dx' 1) /\ dx' = 4 * dx /\ 0 < dx.
Proof. exact (rectangle_tiny). Qed.
Print Assumptions rectangle_signature_tiny_refuted.



(** the second element gets the Jacobian of the first *)
Theorem shared_jacobian_refuted (peq : forall p q : R * R, {p = q} + {p <> q}) :
  exists A B C D A' B' C' D', convex_anticlockwise A B C D /\ convex_anticlockwise A' B' C' D' /\
  forall p, calls peq jac_at [] [(Quad9 A B C D, p); (Quad9 A' B' C' D', p)] = [25/8; 25/8] /\ calls peq jac_at [] [(Quad9 A' B' C' D', p); (Quad9 A B C D, p)] = [3; 3] /\
    map (fun ep => jac_at (fst ep) (snd ep)) [(Quad9 A B C D, p); (Quad9 A' B' C' D', p)] = [25/8; 3].
Proof. exact (shared_wrong peq). Qed.
Print Assumptions shared_jacobian_refuted.


(** * Examples *)
Definition points_eq_dec (p q : R * R) : {p = q} + {p <> q}.
Proof. decide equality; apply Req_EM_T. Qed.
(** shifted by (3, 4): the numbers agree and the orientation too *)
Example signature_triangle_case : shifted [(0, 0); (1, 0); (0, 1)] [(3, 4); (4, 4); (3, 5)] /\ turn (0, 0) (1, 0) (0, 1) = 1 /\ turn (3, 4) (4, 4) (3, 5) = 1 /\
  triangle_numbers (0, 0) (1, 0) (0, 1) = triangle_numbers (3, 4) (4, 4) (3, 5).
Proof.
  refine (conj _ (conj _ (conj _ _))); [exists 3, 4; cbn; repeat f_equal; lra | unfold turn; cbn; lra | unfold turn; cbn; lra |].
  unfold triangle_numbers, angles_of_triangle, angle, dist; cbn [fst snd].
  replace (4 - 3) with (1 - 0) by lra. replace (4 - 4) with (0 - 0) by lra. replace (3 - 4) with (0 - 1) by lra. replace (4 - 5) with (0 - 1) by lra. replace (3 - 3) with (0 - 0) by lra. reflexivity.
Qed.
(** rectangles whose sizes are written alike *)
Example signature_rectangle_case : metric_signature (Rectangle 0 0 1 2) = metric_signature (Rectangle 5 6 (1 + 1/1000000) 2).
Proof.
  unfold metric_signature, write, text_of, text; cbn [combine map fst snd option_map].
  rewrite (rnd_near (1 * 10 ^ 5) 100000), (rnd_near ((1 + 1 / 1000000) * 10 ^ 5) 100000); [reflexivity | apply Rabs_def1; lra | apply Rabs_def1; lra].
Qed.
(** a sequence of calls for which the hypothesis of [shared_right_if_determined] holds *)
Example shared_right_case (p : R * R) : calls points_eq_dec jac_at [] [(Rectangle 0 0 1 2, p); (Rectangle 5 6 1 2, p); (Unique 3 (fun _ _ => mat2 7 0 0 1), p)] = [1/2; 1/2; 7].
Proof.
  rewrite calls_right.
  - cbn [map fst snd]. unfold jac_at. rewrite !det_expand2. unfold own_J, mat2; cbn. repeat apply f_equal2; try reflexivity; field.
  - intros e e' q q' [E | [E | [E | []]]] [E' | [E' | [E' | []]]]; injection E as <- <-; injection E' as <- <-; intros H; try reflexivity; discriminate H.
Qed.

