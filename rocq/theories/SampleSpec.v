(** Vocabulary for samples: partial derivatives of fields of time and space, the differential operators they make up, equations,
    boundary conditions on boxes and periods.  Of SampleModel.v only the records of components are used. *)
From Coq Require Import Reals List.
From Coquelicot Require Import Coquelicot.
From Verif Require Import SampleModel.
Import ListNotations.
Local Open Scope R_scope.

Notation field3 := (R -> R -> R -> R -> R).
Notation field2 := (R -> R -> R -> R).

(** [g] is the partial derivative of [f] everywhere *)
Definition d_t (f g : field3) : Prop := forall t x y z, is_derive (fun s => f s x y z) t (g t x y z).
Definition d_x (f g : field3) : Prop := forall t x y z, is_derive (fun s => f t s y z) x (g t x y z).
Definition d_y (f g : field3) : Prop := forall t x y z, is_derive (fun s => f t x s z) y (g t x y z).
Definition d_z (f g : field3) : Prop := forall t x y z, is_derive (fun s => f t x y s) z (g t x y z).
Definition p_t (f g : field2) : Prop := forall t x y, is_derive (fun s => f s x y) t (g t x y).
Definition p_x (f g : field2) : Prop := forall t x y, is_derive (fun s => f t s y) x (g t x y).
Definition p_y (f g : field2) : Prop := forall t x y, is_derive (fun s => f t x s) y (g t x y).

(** the value of a vector at a point *)
Definition at3 (v : vec3) (t x y z : R) : R * R * R := (c1 v t x y z, c2 v t x y z, c3 v t x y z).
Definition at2 (v : vec2) (t x y : R) : R * R := (a1 v t x y, a2 v t x y).
Definition cross_of (a b : R * R * R) : R * R * R :=
  let '(a1, a2, a3) := a in let '(b1, b2, b3) := b in (a2 * b3 - a3 * b2, a3 * b1 - a1 * b3, a1 * b2 - a2 * b1).

(** the first order operators in space *)
Definition is_time (v w : vec3) : Prop := d_t (c1 v) (c1 w) /\ d_t (c2 v) (c2 w) /\ d_t (c3 v) (c3 w).
Definition is_grad (f : field3) (w : vec3) : Prop := d_x f (c1 w) /\ d_y f (c2 w) /\ d_z f (c3 w).
Definition is_curl (v w : vec3) : Prop := exists v1y v1z v2x v2z v3x v3y,
  d_y (c1 v) v1y /\ d_z (c1 v) v1z /\ d_x (c2 v) v2x /\ d_z (c2 v) v2z /\ d_x (c3 v) v3x /\ d_y (c3 v) v3y /\
  forall t x y z, at3 w t x y z = (v3y t x y z - v2z t x y z, v1z t x y z - v3x t x y z, v2x t x y z - v1y t x y z).
Definition is_div (v : vec3) (w : field3) : Prop := exists v1x v2y v3z,
  d_x (c1 v) v1x /\ d_y (c2 v) v2y /\ d_z (c3 v) v3z /\ forall t x y z, w t x y z = v1x t x y z + v2y t x y z + v3z t x y z.
Definition solenoidal (v : vec3) : Prop := is_div v (fun _ _ _ _ => 0).
(** the Laplacian of a function, and the derivative along a vector *)
Definition is_lap (f w : field3) : Prop := exists fx fy fz fxx fyy fzz,
  d_x f fx /\ d_y f fy /\ d_z f fz /\ d_x fx fxx /\ d_y fy fyy /\ d_z fz fzz /\
  forall t x y z, w t x y z = fxx t x y z + fyy t x y z + fzz t x y z.
Definition is_along (u : vec3) (f w : field3) : Prop := exists fx fy fz, d_x f fx /\ d_y f fy /\ d_z f fz /\
  forall t x y z, w t x y z = c1 u t x y z * fx t x y z + c2 u t x y z * fy t x y z + c3 u t x y z * fz t x y z.
Definition is_vlap (v w : vec3) : Prop := is_lap (c1 v) (c1 w) /\ is_lap (c2 v) (c2 w) /\ is_lap (c3 v) (c3 w).
Definition is_conv (u v w : vec3) : Prop := is_along u (c1 v) (c1 w) /\ is_along u (c2 v) (c2 w) /\ is_along u (c3 v) (c3 w).

(** the equations: Navier-Stokes with the static pressure P - |u|^2 / 2 and the Lorentz force, Faraday, Ohm with the Hall term *)
Definition momentum (c Rf : R) (u : vec3) (P : field3) (B f : vec3) : Prop := exists ut conv lap gp j,
  is_time u ut /\ is_conv u u conv /\ is_vlap u lap /\ is_curl B j /\
  is_grad (fun t x y z => P t x y z - (c1 u t x y z ^ 2 + c2 u t x y z ^ 2 + c3 u t x y z ^ 2) / 2) gp /\
  forall t x y z,
    let '(l1, l2, l3) := cross_of (at3 j t x y z) (at3 B t x y z) in
    c1 f t x y z = c1 ut t x y z + c1 conv t x y z - / Rf * c1 lap t x y z - c * l1 + c1 gp t x y z /\
    c2 f t x y z = c2 ut t x y z + c2 conv t x y z - / Rf * c2 lap t x y z - c * l2 + c2 gp t x y z /\
    c3 f t x y z = c3 ut t x y z + c3 conv t x y z - / Rf * c3 lap t x y z - c * l3 + c3 gp t x y z.
Definition faraday (E B : vec3) : Prop := exists w Bt, is_curl E w /\ is_time B Bt /\
  forall t x y z, c1 Bt t x y z = - c1 w t x y z /\ c2 Bt t x y z = - c2 w t x y z /\ c3 Bt t x y z = - c3 w t x y z.
Definition ohm (Rm eta : R) (u E B m : vec3) : Prop := exists j, is_curl B j /\
  forall t x y z,
    let '(l1, l2, l3) := cross_of (at3 j t x y z) (at3 B t x y z) in
    let '(s1, s2, s3) := cross_of (at3 u t x y z) (at3 B t x y z) in
    c1 m t x y z = / Rm * c1 j t x y z - c1 E t x y z - s1 + eta * l1 /\
    c2 m t x y z = / Rm * c2 j t x y z - c2 E t x y z - s2 + eta * l2 /\
    c3 m t x y z = / Rm * c3 j t x y z - c3 E t x y z - s3 + eta * l3.

(** on the boundary of the box [0, L]^3 with the normal n: v x n = 0, v . n = 0, f = 0 *)
Definition on_face (L : R) (i : nat) (x y z : R) : Prop :=
  match i with
  | 0%nat => x = 0 \/ x = L
  | 1%nat => y = 0 \/ y = L
  | _ => z = 0 \/ z = L
  end.
Definition normal (i : nat) : R * R * R := match i with 0%nat => (1, 0, 0) | 1%nat => (0, 1, 0) | _ => (0, 0, 1) end.
Definition no_tangent (L : R) (v : vec3) : Prop := forall i t x y z, on_face L i x y z -> cross_of (at3 v t x y z) (normal i) = (0, 0, 0).
Definition vanishes (L : R) (f : field3) : Prop := forall i t x y z, on_face L i x y z -> f t x y z = 0.
(** period L along each axis *)
Definition periodic3 (L : R) (f : field3) : Prop := forall t x y z,
  f t (x + L) y z = f t x y z /\ f t x (y + L) z = f t x y z /\ f t x y (z + L) = f t x y z.
Definition vperiodic3 (L : R) (v : vec3) : Prop := periodic3 L (c1 v) /\ periodic3 L (c2 v) /\ periodic3 L (c3 v).
Definition periodic2 (L : R) (f : field2) : Prop := forall t x y, f t (x + L) y = f t x y /\ f t x (y + L) = f t x y.

(** plane *)
Definition is_grad2 (f : field2) (w : vec2) : Prop := p_x f (a1 w) /\ p_y f (a2 w).
Definition is_curl2 (f : field2) (w : vec2) : Prop := exists fx, p_y f (a1 w) /\ p_x f fx /\ forall t x y, a2 w t x y = - fx t x y.
Definition is_rot2 (v : vec2) (w : field2) : Prop := exists vx uy, p_x (a2 v) vx /\ p_y (a1 v) uy /\ forall t x y, w t x y = vx t x y - uy t x y.
Definition is_div2 (v : vec2) (w : field2) : Prop := exists ux vy, p_x (a1 v) ux /\ p_y (a2 v) vy /\ forall t x y, w t x y = ux t x y + vy t x y.
Definition is_time2 (v w : vec2) : Prop := p_t (a1 v) (a1 w) /\ p_t (a2 v) (a2 w).
Definition solenoidal2 (v : vec2) : Prop := is_div2 v (fun _ _ _ => 0).
Definition is_lap2 (f w : field2) : Prop := exists fx fy fxx fyy, p_x f fx /\ p_y f fy /\ p_x fx fxx /\ p_y fy fyy /\
  forall t x y, w t x y = fxx t x y + fyy t x y.
Definition is_along2 (u : vec2) (f w : field2) : Prop := exists fx fy, p_x f fx /\ p_y f fy /\
  forall t x y, w t x y = a1 u t x y * fx t x y + a2 u t x y * fy t x y.
(** u_t + (u . grad) u - nu lap u + grad p = f *)
Definition navier_stokes2 (nu : R) (u : vec2) (p : field2) (f : vec2) : Prop := exists ut k1 k2 l1 l2 gp,
  is_time2 u ut /\ is_along2 u (a1 u) k1 /\ is_along2 u (a2 u) k2 /\ is_lap2 (a1 u) l1 /\ is_lap2 (a2 u) l2 /\ is_grad2 p gp /\
  forall t x y, a1 f t x y = a1 ut t x y + k1 t x y - nu * l1 t x y + a1 gp t x y /\
                a2 f t x y = a2 ut t x y + k2 t x y - nu * l2 t x y + a2 gp t x y.
Definition faraday2 (E : field2) (B : vec2) : Prop := exists w Bt, is_curl2 E w /\ is_time2 B Bt /\
  forall t x y, a1 Bt t x y = - a1 w t x y /\ a2 Bt t x y = - a2 w t x y.
(** c_t + div (c u - F) = s, a balance with the flux F *)
Definition balance (c : field2) (u F : vec2) (s : field2) : Prop := exists ct d,
  p_t c ct /\ is_div2 (V2 (fun t x y => c t x y * a1 u t x y - a1 F t x y) (fun t x y => c t x y * a2 u t x y - a2 F t x y)) d /\
  forall t x y, s t x y = ct t x y + d t x y.

(** smooth to the second order in space: first derivatives in time and space, second ones, the mixed ones being equal *)
Definition smooth2nd (f : field3) : Prop := exists ft fx fy fz fxx fxy fxz fyy fyz fzz,
  d_t f ft /\ d_x f fx /\ d_y f fy /\ d_z f fz /\ d_x fx fxx /\ d_y fx fxy /\ d_z fx fxz /\
  d_x fy fxy /\ d_y fy fyy /\ d_z fy fyz /\ d_x fz fxz /\ d_y fz fyz /\ d_z fz fzz.
Definition vsmooth (v : vec3) : Prop := smooth2nd (c1 v) /\ smooth2nd (c2 v) /\ smooth2nd (c3 v).
Definition smooth1st (f : field3) : Prop := exists ft fx fy fz, d_t f ft /\ d_x f fx /\ d_y f fy /\ d_z f fz.
Definition vsmooth1 (v : vec3) : Prop := smooth1st (c1 v) /\ smooth1st (c2 v) /\ smooth1st (c3 v).
(** all equations of incompressible MHD *)
Definition mhd_solution (c Rm Rf eta : R) (u : vec3) (P : field3) (E B f m : vec3) : Prop :=
  momentum c Rf u P B f /\ faraday E B /\ ohm Rm eta u E B m /\ solenoidal u /\ solenoidal B.
(** the dipole with another extreme vorticity *)
Definition with_we (d : dipole) (w : R) : dipole := {| x1 := x1 d; y1 := y1 d; x2 := x2 d; y2 := y2 d; r0 := r0 d; we1 := w; we2 := - w; K_scale := K_scale d |}.
