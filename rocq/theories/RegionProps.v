(** C61: predefined domains: regions that are neighbours fit together, the rest is on the walls, and the mappings are one to one.  Only statements and
    references to proofs; vocabulary in RegionSpec.v, CrazySpec.v, models in MappingModel.v, RegionModel.v, JacobianModel.v. *)
From Coq Require Import List Arith Reals Lra Lia.
From Coquelicot Require Import Coquelicot.
From Verif Require Import MappingModel RegionModel RegionSpec RegionProofs CrazySpec JacobianModel CrazyProofs CurveProofs ChaoticProofs.
Import ListNotations.
Local Open Scope R_scope.


(** * crazy: one region; periodic: with itself *)

Theorem region_crazy_2d_glued p a b c d k : glued2 1 (neighbour (crazy_rmap 2 p)) (fun _ => crazy2 a b c d k) (per p [b - a; d - c]).
Proof. exact (crazy2_glued p a b c d k). Qed.
Print Assumptions region_crazy_2d_glued.

Theorem region_crazy_3d_glued p a b c d e g k : glued3 1 (neighbour (crazy_rmap 3 p)) (fun _ => crazy3 a b c d e g k) (per p [b - a; d - c; g - e]).
Proof. exact (crazy3_glued p a b c d e g k). Qed.
Print Assumptions region_crazy_3d_glued.

Theorem region_crazy_2d_walls p a b c d k : walls2 1 (neighbour (crazy_rmap 2 p)) (fun _ => crazy2 a b c d k) (fun _ f q => p = false /\ box2 a b c d f q).
Proof. exact (crazy2_walls p a b c d k). Qed.
Print Assumptions region_crazy_2d_walls.

Theorem region_crazy_3d_walls p a b c d e g k : walls3 1 (neighbour (crazy_rmap 3 p)) (fun _ => crazy3 a b c d e g k) (fun _ f q => p = false /\ box3 a b c d e g f q).
Proof. exact (crazy3_walls p a b c d e g k). Qed.
Print Assumptions region_crazy_3d_walls.

(** * crazy_multi: a grid of regions *)

Theorem region_multi_1d_glued p a b k N : glued1 N (neighbour (multi_rmap1 p N)) (multi1 a b k N) (per p [b - a]).
Proof. exact (multi1_glued p a b k N). Qed.
Print Assumptions region_multi_1d_glued.

Theorem region_multi_1d_walls p a b k N : walls1 N (neighbour (multi_rmap1 p N)) (multi1 a b k N) (fun x => p = false /\ (x = a \/ x = b)).
Proof. exact (multi1_walls p a b k N). Qed.
Print Assumptions region_multi_1d_walls.

Theorem region_multi_2d_glued p a b c d k Nx Ny :
  glued2 (Nx * Ny) (neighbour (multi_rmap2 p Nx Ny)) (multi2 a b c d k Nx Ny) (per p [b - a; d - c]).
Proof. exact (multi2_glued p a b c d k Nx Ny). Qed.
Print Assumptions region_multi_2d_glued.

Theorem region_multi_2d_walls p a b c d k Nx Ny :
  walls2 (Nx * Ny) (neighbour (multi_rmap2 p Nx Ny)) (multi2 a b c d k Nx Ny) (fun _ f q => p = false /\ box2 a b c d f q).
Proof. exact (multi2_walls p a b c d k Nx Ny). Qed.
Print Assumptions region_multi_2d_walls.

Theorem region_multi_3d_glued p a b c d e g k Nx Ny Nz :
  glued3 (Nx * Ny * Nz) (neighbour (multi_rmap3 p Nx Ny Nz)) (multi3 a b c d e g k Nx Ny Nz) (per p [b - a; d - c; g - e]).
Proof. exact (multi3_glued p a b c d e g k Nx Ny Nz). Qed.
Print Assumptions region_multi_3d_glued.

Theorem region_multi_3d_walls p a b c d e g k Nx Ny Nz :
  walls3 (Nx * Ny * Nz) (neighbour (multi_rmap3 p Nx Ny Nz)) (multi3 a b c d e g k Nx Ny Nz) (fun _ f q => p = false /\ box3 a b c d e g f q).
Proof. exact (multi3_walls p a b c d e g k Nx Ny Nz). Qed.
Print Assumptions region_multi_3d_walls.

Example region_multi_2d_case : neighbour (multi_rmap2 false 3 2) 4 0 = Some 3%nat /\ neighbour (multi_rmap2 false 3 2) 4 3 = None /\
  neighbour (multi_rmap2 true 3 2) 4 3 = Some 1%nat /\ neighbour (multi_rmap2 true 3 2) 3 0 = Some 5%nat.
Proof. repeat split. Qed.


(** * the backward step: three rectangles that cover the domain *)

Theorem region_step_2d_glued x0 y0 x1 x2 y1 y2 : glued2 3 (neighbour step_rmap2) (step2 x0 y0 x1 x2 y1 y2) (fun _ => 0).
Proof. exact (step2_glued x0 y0 x1 x2 y1 y2). Qed.
Print Assumptions region_step_2d_glued.

Theorem region_step_2d_walls x0 y0 x1 x2 y1 y2 : walls2 3 (neighbour step_rmap2) (step2 x0 y0 x1 x2 y1 y2) (step_walls x0 y0 x1 x2 y1 y2).
Proof. exact (step2_walls x0 y0 x1 x2 y1 y2). Qed.
Print Assumptions region_step_2d_walls.

Theorem region_step_3d_glued p x0 y0 x1 x2 y1 y2 z : glued3 3 (neighbour (step_rmap3 p)) (step3 x0 y0 x1 x2 y1 y2 z) (per p [0; 0; z]).
Proof. exact (step3_glued p x0 y0 x1 x2 y1 y2 z). Qed.
Print Assumptions region_step_3d_glued.

Theorem region_step_cover x0 y0 x1 x2 y1 y2 X Y : 0 < x1 -> 0 < x2 -> 0 < y1 -> 0 < y2 ->
  X <> x0 + x1 -> Y <> y0 + y1 ->
  ((exists n r s, (n < 3)%nat /\ 0 < r < 1 /\ 0 < s < 1 /\ step2 x0 y0 x1 x2 y1 y2 n r s = (X, Y)) <->
   (x0 < X < x0 + x1 + x2 /\ y0 < Y < y0 + y1 + y2 /\ ~ (X < x0 + x1 /\ Y < y0 + y1))).
Proof. exact (step2_cover x0 y0 x1 x2 y1 y2 X Y). Qed.
Print Assumptions region_step_cover.

Theorem region_step_apart x0 y0 x1 x2 y1 y2 n m r s u v : 0 < x1 -> 0 < x2 -> 0 < y1 -> 0 < y2 ->
  (n < 3)%nat -> (m < 3)%nat -> 0 < r < 1 -> 0 < s < 1 -> 0 < u < 1 -> 0 < v < 1 ->
  step2 x0 y0 x1 x2 y1 y2 n r s = step2 x0 y0 x1 x2 y1 y2 m u v -> n = m /\ r = u /\ s = v.
Proof. exact (step2_apart x0 y0 x1 x2 y1 y2 n m r s u v). Qed.
Print Assumptions region_step_apart.

(** * curves and transfinite regions *)

Theorem region_arc_start cw c p q : p <> c -> arc cw c p q 0 = p.
Proof. exact (arc_start cw c p q). Qed.
Print Assumptions region_arc_start.

Theorem region_arc_end cw c p q : q <> c -> radius c p = radius c q -> arc cw c p q 1 = q.
Proof. exact (arc_end cw c p q). Qed.
Print Assumptions region_arc_end.

Theorem region_arc_circle cw c p q o : radius c (arc cw c p q o) = radius c p.
Proof. exact (arc_on_circle cw c p q o). Qed.
Print Assumptions region_arc_circle.

(** clockwise: by an angle in (-2 pi, 0]; anticlockwise: in [0, 2 pi) *)
Theorem region_arc_turn (cw : bool) c p q : p <> c -> q <> c ->
  if cw then - (2 * PI) < arc_span cw c p q <= 0 else 0 <= arc_span cw c p q < 2 * PI.
Proof. exact (arc_turn cw c p q). Qed.
Print Assumptions region_arc_turn.

Theorem region_arc_angle cw c p q o :
  arc cw c p q o = (fst c + radius c p * cos (angle c p + o * arc_span cw c p q), snd c + radius c p * sin (angle c p + o * arc_span cw c p q)).
Proof. exact (arc_param cw c p q o). Qed.
Print Assumptions region_arc_angle.

(** the four sides are the given curves exactly if they meet in the corners; the constructor does not check it *)
Theorem region_transfinite_sides (x0 x1 y0 y1 : curve) :
  (forall f t, (f < 4)%nat -> at2 (tf2 x0 x1 y0 y1) (side2 f t) = nth f [x0; x1; y0; y1] x0 t) <->
  (x0 0 = y0 0 /\ x0 1 = y1 0 /\ x1 0 = y0 1 /\ x1 1 = y1 1).
Proof. exact (tf2_sides x0 x1 y0 y1). Qed.
Print Assumptions region_transfinite_sides.

(** * a channel with a cylinder *)

Theorem region_cylinder_glued r dl dr h hl : 0 < r -> glued2 8 (neighbour cylinder_rmap) (cylinder r dl dr h hl) (fun _ => 0).
Proof. exact (cylinder_glued r dl dr h hl). Qed.
Print Assumptions region_cylinder_glued.


Theorem region_cylinder_walls r dl dr h hl : 0 < r -> walls2 8 (neighbour cylinder_rmap) (cylinder r dl dr h hl) (cylinder_walls r dl dr h hl).
Proof. exact (cylinder_wall r dl dr h hl). Qed.
Print Assumptions region_cylinder_walls.


Theorem region_cylinder_arcs r dl dr h hl t : 0 < r ->
  at2 (cylinder r dl dr h hl 1) (t, 1) = (r * cos (5 * (PI / 4) + t * (PI / 2)), r * sin (5 * (PI / 4) + t * (PI / 2))) /\
  at2 (cylinder r dl dr h hl 3) (1, t) = (r * cos (5 * (PI / 4) - t * (PI / 2)), r * sin (5 * (PI / 4) - t * (PI / 2))) /\
  at2 (cylinder r dl dr h hl 4) (0, t) = (r * cos (7 * (PI / 4) + t * (PI / 2)), r * sin (7 * (PI / 4) + t * (PI / 2))) /\
  at2 (cylinder r dl dr h hl 6) (t, 0) = (r * cos (3 * (PI / 4) - t * (PI / 2)), r * sin (3 * (PI / 4) - t * (PI / 2))).
Proof. exact (fun Hr => cylinder_arcs r dl dr h hl Hr t). Qed.
Print Assumptions region_cylinder_arcs.


(** * when the crazy mappings are not tangled: exactly for small c *)

Theorem region_crazy_1d_untangled a b k : a < b -> ((forall r, exists D, jac_det 1 (crazy1_J a b k r) = Some D /\ 0 < D) <-> Rabs k * PI < 1).
Proof. exact (crazy1_untangled a b k). Qed.
Print Assumptions region_crazy_1d_untangled.

Theorem region_crazy_2d_untangled a b c d k : a < b -> c < d ->
  ((forall r s, exists D, jac_det 2 (crazy2_J a b c d k r s) = Some D /\ 0 < D) <-> Rabs k * PI < 1).
Proof. exact (crazy2_untangled a b c d k). Qed.
Print Assumptions region_crazy_2d_untangled.

Theorem region_crazy_3d_untangled a b c d e f k : a < b -> c < d -> e < f ->
  ((forall r s t, exists D, jac_det 3 (crazy3_J a b c d e f k r s t) = Some D /\ 0 < D) <-> Rabs k * (2 * PI) < sqrt 3).
Proof. exact (crazy3_untangled a b c d e f k). Qed.
Print Assumptions region_crazy_3d_untangled.

(** the documented range 0 <= c <= 0.3 is safe in 1-d and 2-d *)
Theorem region_crazy_2d_documented k : 0 <= k <= 3/10 -> Rabs k * PI < 1.
Proof. exact (c_03_2d k). Qed.
Print Assumptions region_crazy_2d_documented.

Theorem region_crazy_3d_safe k : 0 <= k <= 1/4 -> Rabs k * (2 * PI) < sqrt 3.
Proof. exact (c_27_3d k). Qed.
Print Assumptions region_crazy_3d_safe.

(** but not in 3-d *)
Theorem region_crazy_3d_documented_refuted a b c d e f : a < b -> c < d -> e < f ->
  exists r s t D, unit r /\ unit s /\ unit t /\ jac_det 3 (crazy3_J a b c d e f (3/10) r s t) = Some D /\ D < 0.
Proof. exact (crazy3_tangled a b c d e f). Qed.
Print Assumptions region_crazy_3d_documented_refuted.

Theorem region_crazy_3d_injective_refuted a b c d e f :
  exists s s', unit s /\ unit s' /\ s <> s' /\ crazy3 a b c d e f (3/10) s s s = crazy3 a b c d e f (3/10) s' s' s'.
Proof. exact (crazy3_not_injective a b c d e f). Qed.
Print Assumptions region_crazy_3d_injective_refuted.

Theorem region_crazy_1d_bijection a b k : a < b -> Rabs k * PI < 1 -> bijection1 (crazy1 a b k) a b.
Proof. exact (crazy1_bijection a b k). Qed.
Print Assumptions region_crazy_1d_bijection.

Theorem region_crazy_2d_bijection a b c d k : a < b -> c < d -> Rabs k * PI < 1 -> bijection2 (crazy2 a b c d k) a b c d.
Proof. exact (crazy2_bijection a b c d k). Qed.
Print Assumptions region_crazy_2d_bijection.

Theorem region_crazy_3d_bijection a b c d e f k : a < b -> c < d -> e < f -> Rabs k * (2 * PI) < sqrt 3 -> bijection3 (crazy3 a b c d e f k) a b c d e f.
Proof. exact (crazy3_bijection a b c d e f k). Qed.
Print Assumptions region_crazy_3d_bijection.

Example region_crazy_bijection_case : bijection2 (crazy2 (-1) 2 0 1 (3/10)) (-1) 2 0 1 /\ bijection3 (crazy3 0 1 0 1 0 1 (1/4)) 0 1 0 1 0 1.
Proof.
  split; [apply crazy2_bijection; [lra | lra | apply c_03_2d; lra] | apply crazy3_bijection; [lra | lra | lra | apply c_27_3d; lra]].
Qed.


(** * chaotic: nine parts of a square *)

Theorem region_chaotic_parts a b c d k m r s :
  chaotic_region (chaotic_corners a b c d m 0) (chaotic_total a b c d k) r s =
  chaotic_square a b c d k ((INR (m mod 3) + r) / 3) ((INR (m / 3) + s) / 3).
Proof. exact (chaotic_square_part a b c d k m r s). Qed.
Print Assumptions region_chaotic_parts.

Theorem region_chaotic_turned P0 P1 P2 P3 tm r s :
  chaotic_region (rotate_left 1 [P0; P1; P2; P3]) tm r s = chaotic_region [P0; P1; P2; P3] tm (1 - s) r /\
  chaotic_region (rotate_left 2 [P0; P1; P2; P3]) tm r s = chaotic_region [P0; P1; P2; P3] tm (1 - r) (1 - s) /\
  chaotic_region (rotate_left 3 [P0; P1; P2; P3]) tm r s = chaotic_region [P0; P1; P2; P3] tm s (1 - r).
Proof. exact (chaotic_turn P0 P1 P2 P3 tm r s). Qed.
Print Assumptions region_chaotic_turned.

Theorem region_chaotic_periodic a b c d k : a < b -> c < d -> exists w h, 0 < w /\ 0 < h /\
  forall m p q m' p' q', In ((m, (p, q)), (m', (p', q'))) chaotic_periodic ->
    (forall t, at2 (chaotic_map a b c d k m') (edge2 p' q' t) =
       (fst (at2 (chaotic_map a b c d k m) (edge2 p q t)), snd (at2 (chaotic_map a b c d k m) (edge2 p q t)) + h)) \/
    (forall t, at2 (chaotic_map a b c d k m') (edge2 p' q' t) =
       (fst (at2 (chaotic_map a b c d k m) (edge2 p q t)) + w, snd (at2 (chaotic_map a b c d k m) (edge2 p q t)))).
Proof. exact (chaotic_glued a b c d k). Qed.
Print Assumptions region_chaotic_periodic.

Theorem region_chaotic_undeformed a b c d : a < b -> c < d -> bijection2 (chaotic_square a b c d 0) a b c d.
Proof. exact (chaotic_flat a b c d). Qed.
Print Assumptions region_chaotic_undeformed.

(** with a deformation the image is [a, a + 1] x [0, 1], whatever the bounds are *)
Theorem region_chaotic_image a b c d k : a < b -> c < d -> k <> 0 -> Rabs k * PI < 1 -> bijection2 (chaotic_square a b c d k) a (a + 1) 0 1.
Proof. exact (chaotic_image a b c d k). Qed.
Print Assumptions region_chaotic_image.

Theorem region_chaotic_bounds_refuted : exists a b c d k r s, a < b /\ c < d /\ 0 < k <= 3/10 /\ unit r /\ unit s /\
  ~ (c <= snd (chaotic_square a b c d k r s) <= d).
Proof. exact (chaotic_off). Qed.
Print Assumptions region_chaotic_bounds_refuted.
