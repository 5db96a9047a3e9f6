(** * Samples: /repo/tools/samples and /repo/tools/gen_piece_wise.py
    Manufactured solutions and initial conditions as functions of reals.  The operators on fields (C74, FieldModel.v) are
    parameters [ops2], [ops3]: numerical differences in python, exact derivatives in the statements on equations.
    Left out: plotting, classes that only return constants, mesh checks of supplied derivatives. *)
From Coq Require Import Reals List Bool ZArith.
From Coquelicot Require Import Coquelicot.
From Verif Require Import FieldModel.
Import ListNotations.
Local Open Scope R_scope.

(** * operators *)
Record ops2 := { D2t : fld2 -> fld2; D2x : fld2 -> fld2; D2y : fld2 -> fld2 }.
Record ops3 := { D3t : fld3 -> fld3; D3x : fld3 -> fld3; D3y : fld3 -> fld3; D3z : fld3 -> fld3 }.
(** central differences of python, and derivatives *)
Definition numeric2 : ops2 := {| D2t := n2t; D2x := n2x; D2y := n2y |}.
Definition numeric3 : ops3 := {| D3t := n3t; D3x := n3x; D3y := n3y; D3z := n3z |}.
Definition exact2 : ops2 :=
  {| D2t := fun f t x y => Derive (fun s => f s x y) t; D2x := fun f t x y => Derive (fun s => f t s y) x;
     D2y := fun f t x y => Derive (fun s => f t x s) y |}.
Definition exact3 : ops3 :=
  {| D3t := fun f t x y z => Derive (fun s => f s x y z) t; D3x := fun f t x y z => Derive (fun s => f t s y z) x;
     D3y := fun f t x y z => Derive (fun s => f t x s z) y; D3z := fun f t x y z => Derive (fun s => f t x y s) z |}.

(** T2dVector, T3dVector without supplied derivatives *)
Record vec2 := V2 { a1 : fld2; a2 : fld2 }.
Record vec3 := V3 { c1 : fld3; c2 : fld3; c3 : fld3 }.

(** the operators of T3dScalar and T3dVector as in FieldModel.v *)
Definition time3 (O : ops3) (v : vec3) : vec3 := V3 (D3t O (c1 v)) (D3t O (c2 v)) (D3t O (c3 v)).
Definition grad3 (O : ops3) (f : fld3) : vec3 := V3 (D3x O f) (D3y O f) (D3z O f).
Definition div3 (O : ops3) (v : vec3) : fld3 := sum3 (D3x O (c1 v)) (D3y O (c2 v)) (D3z O (c3 v)).
Definition curl3 (O : ops3) (v : vec3) : vec3 :=
  V3 (sub3 (D3y O (c3 v)) (D3z O (c2 v))) (sub3 (D3z O (c1 v)) (D3x O (c3 v))) (sub3 (D3x O (c2 v)) (D3y O (c1 v))).
Definition cross3 (a b : vec3) : vec3 :=
  V3 (sub3 (mul3 (c2 a) (c3 b)) (mul3 (c3 a) (c2 b))) (sub3 (mul3 (c3 a) (c1 b)) (mul3 (c1 a) (c3 b)))
     (sub3 (mul3 (c1 a) (c2 b)) (mul3 (c2 a) (c1 b))).
Definition vadd3 (a b : vec3) : vec3 := V3 (add3 (c1 a) (c1 b)) (add3 (c2 a) (c2 b)) (add3 (c3 a) (c3 b)).
Definition vsub3 (a b : vec3) : vec3 := V3 (sub3 (c1 a) (c1 b)) (sub3 (c2 a) (c2 b)) (sub3 (c3 a) (c3 b)).
Definition vscale3 (r : R) (a : vec3) : vec3 := V3 (scale3 r (c1 a)) (scale3 r (c2 a)) (scale3 r (c3 a)).
(** T2dScalar and T2dVector *)
Definition time2 (O : ops2) (v : vec2) : vec2 := V2 (D2t O (a1 v)) (D2t O (a2 v)).
Definition grad2 (O : ops2) (f : fld2) : vec2 := V2 (D2x O f) (D2y O f).
Definition curl2 (O : ops2) (f : fld2) : vec2 := V2 (D2y O f) (neg2 (D2x O f)).
Definition div2 (O : ops2) (v : vec2) : fld2 := add2 (D2x O (a1 v)) (D2y O (a2 v)).
Definition rot2 (O : ops2) (v : vec2) : fld2 := sub2 (D2x O (a2 v)) (D2y O (a1 v)).
Definition scross2 (f : fld2) (v : vec2) : vec2 := V2 (neg2 (mul2 f (a2 v))) (mul2 f (a1 v)).
Definition cross2 (a b : vec2) : fld2 := sub2 (mul2 (a1 a) (a2 b)) (mul2 (a2 a) (a1 b)).
Definition dot2 (a b : vec2) : fld2 := add2 (mul2 (a1 a) (a1 b)) (mul2 (a2 a) (a2 b)).
Definition vadd2 (a b : vec2) : vec2 := V2 (add2 (a1 a) (a1 b)) (add2 (a2 a) (a2 b)).
Definition vsub2 (a b : vec2) : vec2 := V2 (sub2 (a1 a) (a1 b)) (sub2 (a2 a) (a2 b)).
Definition vscale2 (r : R) (a : vec2) : vec2 := V2 (scale2 r (a1 a)) (scale2 r (a2 a)).
Definition vmul2 (f : fld2) (a : vec2) : vec2 := V2 (mul2 f (a1 a)) (mul2 f (a2 a)).

(** * MHD in space: manuSolution_MHD3.py, manuSolution_Hall_MHD.py *)
(** u, P, E, B and the supplied vorticity, if any *)
Record mhd3 := { mu : vec3; mP : fld3; mE : vec3; mB : vec3; momega : option vec3 }.
Definition omega (O : ops3) (s : mhd3) : vec3 := given (momega s) (curl3 O (mu s)).
Definition current (O : ops3) (s : mhd3) : vec3 := curl3 O (mB s).
(** m: manuSolution_MHD3.py 170-177 with eta = 0, manuSolution_Hall_MHD.py 197-209 *)
Definition source_m (O : ops3) (Rm eta : R) (s : mhd3) : vec3 :=
  vadd3 (vsub3 (vsub3 (vscale3 (1 / Rm) (current O s)) (mE s)) (cross3 (mu s) (mB s))) (vscale3 eta (cross3 (current O s) (mB s))).
(** f: manuSolution_MHD3.py 179-185, manuSolution_Hall_MHD.py 212-218 *)
Definition source_f (O : ops3) (c Rf : R) (s : mhd3) : vec3 :=
  vadd3 (vsub3 (vadd3 (vadd3 (time3 O (mu s)) (cross3 (omega O s) (mu s))) (vscale3 (1 / Rf) (curl3 O (omega O s))))
               (vscale3 c (cross3 (current O s) (mB s)))) (grad3 O (mP s)).

(** the vector of Faraday's law from hand-written derivatives: lines 84-108, 246-270; Hall: 86-110, 300-324, 570-594 *)
Definition curl_of_parts (ex_y ex_z ey_x ey_z ez_x ez_y : fld3) : vec3 := V3 (sub3 ez_y ey_z) (sub3 ex_z ez_x) (sub3 ey_x ex_y).
Definition from_E (c : vec3) : vec3 :=
  V3 (fun t x y z => - c1 c t x y z + c1 c 0 x y z) (fun t x y z => - c2 c t x y z + c2 c 0 x y z)
     (fun t x y z => - c3 c t x y z + c3 c 0 x y z).

(** velocity and pressure: manuSolution_MHD3.py 13-32, manuSolution_Hall_MHD.py 15-34 and 223-239 *)
Definition u_a : vec3 := V3 (fun t x y z => cos x * sin y * sin z * exp t) (fun t x y z => sin x * cos y * sin z * exp t)
  (fun t x y z => -2 * sin x * sin y * cos z * exp t).
Definition P_a : fld3 := fun t x y z => cos x * cos y * cos z * exp (- t).
Definition P_b : fld3 := fun t x y z => sin x * sin y * sin z * exp (- t).

(** ManufacturedSolutionMHD3_0: manuSolution_MHD3.py 36-81 *)
Definition E_0 : vec3 := V3 (fun t x y z => cos x * sin y * sin (z / 2) * exp t) (fun t x y z => sin (x / 2) * cos y * sin z * exp t)
  (fun t x y z => - sin x * sin y * cos z * exp t).
Definition curlE_0 : vec3 := curl_of_parts
  (fun t x y z => cos x * cos y * sin (z / 2) * exp t) (fun t x y z => 5 / 10 * cos x * sin y * cos (z / 2) * exp t)
  (fun t x y z => 5 / 10 * cos (x / 2) * cos y * sin z * exp t) (fun t x y z => sin (x / 2) * cos y * cos z * exp t)
  (fun t x y z => - cos x * sin y * cos z * exp t) (fun t x y z => - sin x * cos y * cos z * exp t).
Definition MHD3_0 : mhd3 := {| mu := u_a; mP := P_a; mE := E_0; mB := from_E curlE_0; momega := None |}.

(** ManufacturedSolutionMHD3_1: 198-243; the fields of ManufacturedSolution_Hall_MHD3_0 are the same: Hall 38-83 *)
Definition E_1 : vec3 := V3 (fun t x y z => cos x * sin y * sin z * exp t) (fun t x y z => sin x * cos y * sin z * exp t)
  (fun t x y z => - sin x * sin y * cos z * exp t).
Definition curlE_1 : vec3 := curl_of_parts
  (fun t x y z => cos x * cos y * sin z * exp t) (fun t x y z => cos x * sin y * cos z * exp t)
  (fun t x y z => cos x * cos y * sin z * exp t) (fun t x y z => sin x * cos y * cos z * exp t)
  (fun t x y z => - cos x * sin y * cos z * exp t) (fun t x y z => - sin x * cos y * cos z * exp t).
Definition MHD3_1 : mhd3 := {| mu := u_a; mP := P_a; mE := E_1; mB := from_E curlE_1; momega := None |}.
Definition Hall_0 : mhd3 := MHD3_1.

(** ManufacturedSolution_Hall_MHD3_1: 244-352 *)
Definition E_h1 : vec3 := V3 (fun t x y z => sin x * cos y * exp t) (fun t x y z => - sin y * cos z * exp t) (fun t x y z => - cos x * sin z * exp t).
Definition curlE_h1 : vec3 := curl_of_parts (fun t x y z => - sin x * sin y * exp t) (fun t x y z => 0 * z)
  (fun t x y z => 0 * t) (fun t x y z => sin y * sin z * exp t) (fun t x y z => sin x * sin z * exp t) (fun t x y z => 0 * y).
Definition Hall_1 : mhd3 := {| mu := u_a; mP := P_b; mE := E_h1; mB := from_E curlE_h1; momega := None |}.
(** ManufacturedSolution_Hall_MHD3_2: 358-382 *)
Definition Hall_2 : mhd3 := {| mu := u_a; mP := P_b; mE := E_1; mB := from_E curlE_1; momega := None |}.
(** ManufacturedSolution_Hall_MHD3_3: 389-488, with a supplied vorticity *)
Definition Hall_3 : mhd3 := {| mu := E_h1; mP := P_b; mE := E_h1; mB := from_E curlE_h1; momega := Some curlE_h1 |}.

(** ManufacturedSolution_Hall_MHD3_4_TemporalAccuracy: 493-620 *)
Definition u_4 : vec3 :=
  V3 (fun t x y z => (2 / 3 * x ^ 3 - x ^ 2) * (y - y ^ 2) * z * (z - 1) * exp t)
     (fun t x y z => (- x ^ 2 + x) * (5 / 10 * y ^ 2 - 1 / 3 * y ^ 3) * (z ^ 2 - z) * exp t)
     (fun t x y z => (- x ^ 2 + x) * (y - y ^ 2) * (1 / 3 * z ^ 3 - 5 / 10 * z ^ 2) * exp t).
Definition P_4 : fld3 := fun t x y z => - x ^ 2 * (x - 1) * y ^ 2 * (y - 1) * z ^ 2 * (z - 1) * exp t.
Definition E_4 : vec3 :=
  V3 (fun t x y z => x * (x ^ 2 - 1) * (y ^ 3 - 15 / 10 * y ^ 2) * exp t)
     (fun t x y z => - y * (y - 1) * (2 / 3 * z ^ 3 - z ^ 2) * exp t)
     (fun t x y z => (1 / 3 * x ^ 3 - 5 / 10 * x ^ 2) * z * (z ^ 2 - 1) * exp t).
Definition curlE_4 : vec3 := curl_of_parts (fun t x y z => x * (x ^ 2 - 1) * 3 * (y ^ 2 - y) * exp t) (fun t x y z => 0 * z)
  (fun t x y z => 0 * t) (fun t x y z => - y * (y - 1) * 2 * (z ^ 2 - z) * exp t)
  (fun t x y z => (x ^ 2 - x) * z * (z ^ 2 - 1) * exp t) (fun t x y z => 0 * y).
Definition Hall_4 : mhd3 := {| mu := u_4; mP := P_4; mE := E_4; mB := from_E curlE_4; momega := None |}.

(** ManufacturedSolution_Hall_MHD3_Conservation0: 657-700 *)
Definition u_cons : vec3 :=
  V3 (fun t x y z => - sin (PI * (x - 1 / 2)) * cos (PI * (y - 1 / 2)) * z * (z - 1))
     (fun t x y z => cos (PI * (x - 1 / 2)) * sin (PI * (y - 1 / 2)) * z * (z - 1)) (fun t x y z => 0).
Definition B_cons : vec3 :=
  V3 (fun t x y z => cos (PI * x) * sin (PI * y) * z * (z - 1)) (fun t x y z => - sin (PI * x) * cos (PI * y) * z * (z - 1)) (fun t x y z => 0).
(** ManufacturedSolution_Hall_MHD3_NullPoints: 776-860; _f_init_ *)
Definition zero_vec : vec3 := V3 zero3 zero3 zero3.
Definition null_points : mhd3 :=
  {| mu := zero_vec; mP := fun t x y z => (5 / 4) ^ 2 * cos (2 * PI * x); mE := zero_vec;
     mB := V3 zero3 zero3 (fun t x y z => - (25 / 10) * sin (PI * x)); momega := Some zero_vec |}.
Definition f_init (O : ops3) (c Rf : R) : vec3 := source_f O c Rf null_points.
(** manuSolution_NS3.py 31-44; condition_MHD3_Hu_helicity_test.py 26-58 *)
Definition u_ns3 : vec3 := V3 (fun t x y z => cos (2 * PI * z)) (fun t x y z => sin (2 * PI * z)) (fun t x y z => sin (2 * PI * x)).
Definition B_hu : vec3 := V3 (fun t x y z => - sin (PI * x) * cos (PI * y)) (fun t x y z => cos (PI * x) * sin (PI * y)) (fun t x y z => 0).
(** iniCond_Orszag_Tang_vortex.py 91-141: curl with the supplied Jacobian matrix *)
Definition phi_3d : fld3 := fun t x y z => 2 * sin y - 2 * cos x.
Definition A_3d : fld3 := fun t x y z => cos (2 * y) - 2 * cos x.
Definition u_ot3 : vec3 := V3 (sub3 (fun t x y z => 2 * cos y) zero3) (sub3 zero3 (fun t x y z => 2 * sin x)) (sub3 zero3 zero3).
Definition B_ot3 : vec3 := V3 (sub3 (fun t x y z => - 2 * sin (2 * y)) zero3) (sub3 zero3 (fun t x y z => 2 * sin x)) (sub3 zero3 zero3).

(** * plane *)
(** manuSolution_MHD2.py 13-51, 118-134 *)
Definition phi_2 : fld2 := fun t x y => (2 * sin y - 2 * cos x) * exp (- t).
Definition P_2 : fld2 := fun t x y => sin x * sin y * exp (- t).
Definition E_2 : fld2 := fun t x y => sin x * sin y * exp t.
Definition B_2 : vec2 := V2 (fun t x y => sin x * cos y - sin x * cos y * (exp t - 1)) (fun t x y => - cos x * sin y - - cos x * sin y * (exp t - 1)).
Definition u_2 (O : ops2) : vec2 := curl2 O phi_2.
Definition source_m2 (O : ops2) (Rm : R) (u : vec2) (E : fld2) (B : vec2) : fld2 :=
  sub2 (sub2 (scale2 (1 / Rm) (rot2 O B)) E) (cross2 u B).
Definition source_f2 (O : ops2) (c Rf : R) (u : vec2) (P : fld2) (B : vec2) : vec2 :=
  vadd2 (vsub2 (vadd2 (vadd2 (time2 O u) (scross2 (rot2 O u) u)) (vscale2 (1 / Rf) (curl2 O (rot2 O u))))
               (vscale2 c (scross2 (rot2 O B) B))) (grad2 O P).
(** manuSolution_NS2.py 32-72 *)
Definition u_tgv (Re : R) : vec2 :=
  V2 (fun t x y => - sin (PI * x) * cos (PI * y) * exp (-2 * PI ^ 2 * t / Re))
     (fun t x y => cos (PI * x) * sin (PI * y) * exp (-2 * PI ^ 2 * t / Re)).
Definition p_tgv (Re : R) : fld2 := fun t x y => 25 / 100 * (cos (2 * PI * x) + cos (2 * PI * y)) * exp (-4 * PI ^ 2 * t / Re).
Definition total (p : fld2) (u : vec2) : fld2 := add2 p (scale2 (5 / 10) (dot2 u u)).
Definition f_tgv (O : ops2) (Re : R) : vec2 :=
  vadd2 (vadd2 (vadd2 (time2 O (u_tgv Re)) (scross2 (rot2 O (u_tgv Re)) (u_tgv Re))) (vscale2 (1 / Re) (curl2 O (rot2 O (u_tgv Re)))))
        (grad2 O (total (p_tgv Re) (u_tgv Re))).
(** manuSolution_Eigen2.py 18-66 *)
Record eigen := { om_x : R; om_y : R; phi_x : R; phi_y : R; phi_t : R }.
Definition om_t (e : eigen) : R := sqrt (om_x e ^ 2 + om_y e ^ 2).
Definition eigen_a (e : eigen) : fld2 := fun t x y =>
  let dft := om_t e * (2 * cos (om_t e * t + phi_t e) - 3 * sin (om_t e * t + phi_t e)) in
  let g_xy := cos (om_x e * x + phi_x e) * sin (om_y e * y + phi_y e) in - g_xy * dft.
Definition eigen_b (e : eigen) : vec2 :=
  V2 (fun t x y => let ft := 2 * sin (om_t e * t + phi_t e) + 3 * cos (om_t e * t + phi_t e) in
        om_x e * sin (om_x e * x + phi_x e) * sin (om_y e * y + phi_y e) * ft)
     (fun t x y => let ft := 2 * sin (om_t e * t + phi_t e) + 3 * cos (om_t e * t + phi_t e) in
        - om_y e * cos (om_x e * x + phi_x e) * cos (om_y e * y + phi_y e) * ft).

(** manuSolution_PNPNS2.py: a scalar with supplied derivatives (d/dt, d/dx, d/dy), 46-160 *)
Definition pn_u : vec2 := V2 (fun t x y => sin x * cos y * exp t) (fun t x y => - cos x * sin y * exp t).
Definition pn_ut : vec2 := pn_u.
Definition pn_ux : fld2 := fun t x y => cos x * cos y * exp t.
Definition pn_uy : fld2 := fun t x y => - sin x * sin y * exp t.
Definition pn_vx : fld2 := fun t x y => sin x * sin y * exp t.
Definition pn_vy : fld2 := fun t x y => - cos x * cos y * exp t.
(** static pressure and potential have the same values *)
Definition pn_psi : fld2 := fun t x y => sin x * sin y * exp t.
Definition pn_psi_x : fld2 := fun t x y => cos x * sin y * exp t.
Definition pn_psi_y : fld2 := fun t x y => sin x * cos y * exp t.
Definition pn_psi_xx : fld2 := fun t x y => - sin x * sin y * exp t.
Definition pn_psi_yy : fld2 := fun t x y => - sin x * sin y * exp t.
Definition pn_sp : fld2 := fun t x y => sin x * sin y * exp t.
Definition pn_sp_x : fld2 := fun t x y => cos x * sin y * exp t.
Definition pn_sp_y : fld2 := fun t x y => sin x * cos y * exp t.
Definition pn_p (shift : R) : fld2 := fun t x y => (cos x * sin y + shift) * exp t.
Definition pn_pt (shift : R) : fld2 := fun t x y => (cos x * sin y + shift) * exp t.
Definition pn_px : fld2 := fun t x y => - sin x * sin y * exp t.
Definition pn_py : fld2 := fun t x y => cos x * cos y * exp t.
(** n, tau, chi, p tau, n chi: 176-245 *)
Definition pn_n (eps shift : R) : fld2 := add2 (pn_p shift) (scale2 eps (add2 pn_psi_xx pn_psi_yy)).
Definition log2 (f : fld2) : fld2 := fun t x y => ln (f t x y).
Definition pn_tau (O : ops2) (shift : R) : vec2 := grad2 O (add2 (log2 (pn_p shift)) pn_psi).
Definition pn_chi (O : ops2) (eps shift : R) : vec2 := grad2 O (sub2 (log2 (pn_n eps shift)) pn_psi).
Definition pn_ptau (O : ops2) (shift : R) : vec2 := vmul2 (pn_p shift) (pn_tau O shift).
Definition pn_nchi (O : ops2) (eps shift : R) : vec2 := vmul2 (pn_n eps shift) (pn_chi O eps shift).
(** sources: 300-318 *)
Definition pn_source_f (O : ops2) (eps shift : R) : vec2 :=
  let conv := V2 (add2 (mul2 (a1 pn_u) pn_ux) (mul2 (a2 pn_u) pn_uy)) (add2 (mul2 (a1 pn_u) pn_vx) (mul2 (a2 pn_u) pn_vy)) in
  let lap := vsub2 (grad2 O (add2 pn_ux pn_vy)) (curl2 O (sub2 pn_vx pn_uy)) in
  vadd2 (vadd2 (vsub2 (vadd2 pn_ut conv) lap) (V2 pn_sp_x pn_sp_y)) (vmul2 (sub2 (pn_p shift) (pn_n eps shift)) (V2 pn_psi_x pn_psi_y)).
Definition pn_source_p (O : ops2) (shift : R) : fld2 :=
  sub2 (add2 (pn_pt shift) (dot2 pn_u (V2 pn_px pn_py)))
       (div2 O (vadd2 (V2 pn_px pn_py) (vmul2 (pn_p shift) (V2 pn_psi_x pn_psi_y)))).
Definition pn_source_n (O : ops2) (eps shift : R) : fld2 :=
  let n := pn_n eps shift in
  sub2 (add2 (D2t O n) (dot2 pn_u (grad2 O n))) (div2 O (vsub2 (grad2 O n) (vmul2 n (V2 pn_psi_x pn_psi_y)))).

(** conditions_normal_dipole_collision.py 16-79: parameters and unscaled velocity; [kin u] is the kinetic energy by quadrature (36-43) *)
Record dipole := { x1 : R; y1 : R; x2 : R; y2 : R; r0 : R; we1 : R; we2 : R; K_scale : R }.
Definition u_unscaled (d : dipole) : vec2 :=
  let e1 := fun x y => exp (- ((x - x1 d) ^ 2 + (y - y1 d) ^ 2) / r0 d ^ 2) in
  let e2 := fun x y => exp (- ((x - x2 d) ^ 2 + (y - y2 d) ^ 2) / r0 d ^ 2) in
  V2 (fun t x y => - (5 / 10) * Rabs (we1 d) * (y - y1 d) * e1 x y + 5 / 10 * Rabs (we1 d) * (y - y2 d) * e2 x y)
     (fun t x y => 5 / 10 * Rabs (we1 d) * (x - x1 d) * e1 x y + - (5 / 10) * Rabs (we1 d) * (x - x2 d) * e2 x y).
Definition kinetic (q : list (R * R * R)) (u : vec2) : R :=
  5 / 10 * fold_right Rplus 0 (map (fun p => let '(x, y, w) := p in (a1 u 0 x y ^ 2 + a2 u 0 x y ^ 2) * w) q).
Definition new_dipole (q : list (R * R * R)) (d : dipole) : option vec2 :=
  if Req_EM_T (we1 d + we2 d) 0 then
    let K := kinetic q (u_unscaled d) in
    if Req_EM_T K 0 then None
    else let s := sqrt (K_scale d / K) in
         Some (V2 (fun t x y => s * a1 (u_unscaled d) t x y + 0 * t) (fun t x y => s * a2 (u_unscaled d) t x y + 0 * t))
  else None.

(** * genpiecewise: gen_piece_wise.py 104-140 at one point: conditions with values of the functions, an optional default
    (one function more), the fill value; the output has the type of the arguments: integers are truncated *)
Definition truncate (v : R) : R := if Rle_dec 0 v then IZR (Int_part v) else - IZR (Int_part (- v)).
Definition place (ints : bool) (v : R) : R := if ints then truncate v else v.
Definition genpiecewise (ints : bool) (pieces : list (bool * R)) (default : option R) (fill : R) : R :=
  let all := match default with
             | None => pieces
             | Some v => pieces ++ [(negb (existsb fst pieces), v)]
             end in
  fold_left (fun out p => if fst p : bool then place ints (snd p) else out) all (place ints fill).
Definition rle (a b : R) : bool := if Rle_dec a b then true else false.
Definition rlt (a b : R) : bool := if Rlt_dec a b then true else false.
(** iniCond_shear_layer_rollup.py 56-73 *)
Definition shear_u (delta : R) : fld2 := fun t x y =>
  genpiecewise false [(rle y PI, tanh ((y - PI / 2) / delta)); (rlt PI y, tanh ((3 * PI / 2 - y) / delta))] None 0.
Definition shear_v (epsilon : R) : fld2 := fun t x y => epsilon * sin x.
(** iniCond_loop_advection.py 16-54; [ints]: the arrays of points are integers *)
Definition loop_A (ints : bool) (A0 Rad : R) : fld2 := fun t x y =>
  let r := sqrt (x ^ 2 + y ^ 2) in
  genpiecewise ints [(rle r Rad, A0 * (Rad - sqrt (x ^ 2 + y ^ 2))); (rlt Rad r, 0 + 0)] None 0 + 0 * t.
Definition loop_u (Lx Ly : R) : vec2 :=
  let V0 := sqrt (Lx ^ 2 + Ly ^ 2) in let theta := atan (Ly / Lx) in
  V2 (fun t x y => V0 * cos theta + 0 + 0 + 0 * t) (fun t x y => V0 * sin theta + 0 + 0 + 0 * t).
(** conditions_lid_driven_cavity.py 35-40 *)
Definition lid (speed : R) : fld2 := fun t x y => genpiecewise false [(rle y (5 / 10), 0); (rlt (5 / 10) y, speed)] None 0.
(** iniCond_PNPNS_InitialDiscontinuousConcentrations.py 25-38 *)
Definition disc_p : fld2 := fun t x y =>
  genpiecewise false [(rlt x (75 / 100), / 1000000); (rle (75 / 100) x && rlt y (11 / 20), / 1000000);
                      (rle (75 / 100) x && rle (11 / 20) y, 1)] None 0.
Definition disc_n : fld2 := fun t x y =>
  genpiecewise false [(rlt x (75 / 100), / 1000000); (rle (75 / 100) x && rlt (9 / 20) y, / 1000000);
                      (rle (75 / 100) x && rle y (9 / 20), 1)] None 0.
