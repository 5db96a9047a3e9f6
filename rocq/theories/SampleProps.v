(** C77: manufactured solutions solve their equations, and initial conditions are what their names say.
    Only statements and references to proofs; vocabulary in SampleSpec.v; model in SampleModel.v.  None stands for an exception. *)
From Coq Require Import Reals List Lra Bool.
From Coquelicot Require Import Coquelicot.
From Verif Require Import FieldModel SampleModel SampleSpec SampleThms SampleThms2 SampleThms3 SampleThms4 SampleThms5 SampleThms6.
Import ListNotations.
Local Open Scope R_scope.

(** the operators of sources are those of analytic fields *)
Theorem source_operators_are_field_operators u v w p q r f a b c d :
  (let k := v3_curl (mk_ve3 u v w) in curl3 numeric3 (V3 u v w) = V3 (v3u k) (v3v k) (v3w k)) /\
  (let k := v3_time (mk_ve3 u v w) in time3 numeric3 (V3 u v w) = V3 (v3u k) (v3v k) (v3w k)) /\
  (let k := v3_cross (mk_ve3 u v w) (mk_ve3 p q r) in cross3 (V3 u v w) (V3 p q r) = V3 (v3u k) (v3v k) (v3w k)) /\
  (let k := s2_curl (mk_sc2 f) in curl2 numeric2 f = V2 (v2u k) (v2v k)) /\
  (let k := s2_gradient (mk_sc2 f) in grad2 numeric2 f = V2 (v2u k) (v2v k)) /\
  (let k := s2_cross (mk_sc2 f) (mk_ve2 a b) in scross2 f (V2 a b) = V2 (v2u k) (v2v k)) /\
  rot2 numeric2 (V2 a b) = s2 (v2_rot (mk_ve2 a b)) /\ div2 numeric2 (V2 c d) = s2 (v2_divergence (mk_ve2 c d)).
Proof. repeat split. Qed.
Print Assumptions source_operators_are_field_operators.

(** the source of any smooth solenoidal flow, in the rotational form with the total pressure, is that of Navier-Stokes in the convective form *)
Theorem momentum_source_is_momentum c Rf s : momega s = None -> vsmooth (mu s) -> solenoidal (mu s) -> smooth1st (mP s) -> vsmooth1 (mB s) ->
  momentum c Rf (mu s) (mP s) (mB s) (source_f exact3 c Rf s).
Proof. exact (momentum_generic c Rf s). Qed.
Print Assumptions momentum_source_is_momentum.
Theorem magnetic_source_is_ohm Rm eta s : vsmooth1 (mB s) -> ohm Rm eta (mu s) (mE s) (mB s) (source_m exact3 Rm eta s).
Proof. exact (ohm_generic Rm eta s). Qed.
Print Assumptions magnetic_source_is_ohm.
Theorem manufactured_mhd_solves s c Rm Rf eta : In s [MHD3_0; MHD3_1; Hall_0; Hall_1; Hall_2; Hall_4] ->
  mhd_solution c Rm Rf eta (mu s) (mP s) (mE s) (mB s) (source_f exact3 c Rf s) (source_m exact3 Rm eta s).
Proof. exact (samples_solve s c Rm Rf eta). Qed.
Print Assumptions manufactured_mhd_solves.
(** the third one of Hall has a velocity with a divergence; no source of mass is given *)
Theorem third_hall_solves_the_rest Rm eta :
  is_curl (mu Hall_3) (omega exact3 Hall_3) /\ faraday (mE Hall_3) (mB Hall_3) /\ solenoidal (mB Hall_3) /\
  ohm Rm eta (mu Hall_3) (mE Hall_3) (mB Hall_3) (source_m exact3 Rm eta Hall_3).
Proof. exact (Hall_3_partly Rm eta). Qed.
Print Assumptions third_hall_solves_the_rest.
Theorem third_hall_incompressible_refuted : ~ solenoidal (mu Hall_3) /\
  is_div (mu Hall_3) (fun t x y z => (cos x * cos y - cos y * cos z - cos x * cos z) * exp t).
Proof. exact (conj Hall_3_not_solenoidal Hall_3_divergence). Qed.
Print Assumptions third_hall_incompressible_refuted.
(** boundary conditions the comments promise; periods *)
Theorem mhd_boundary_conditions :
  no_tangent (2 * PI) u_a /\ vanishes (2 * PI) P_b /\ no_tangent (2 * PI) E_1 /\ no_tangent (2 * PI) (from_E curlE_h1) /\
  no_tangent (2 * PI) curlE_h1 /\ no_tangent 1 u_4 /\ vanishes 1 P_4 /\ no_tangent 1 (from_E curlE_4) /\ no_tangent 1 B_cons /\ no_tangent 1 u_cons.
Proof.
  exact (conj u_a_boundary (conj P_b_boundary (conj E_1_boundary (conj B_h1_boundary (conj w_h1_boundary (conj u_4_boundary
    (conj P_4_boundary (conj B_4_boundary (conj B_cons_boundary u_cons_boundary))))))))).
Qed.
Print Assumptions mhd_boundary_conditions.
Theorem mhd_periodic : vperiodic3 (2 * PI) (mu MHD3_1) /\ periodic3 (2 * PI) (mP MHD3_1) /\ vperiodic3 (2 * PI) (mE MHD3_1) /\
  vperiodic3 (2 * PI) (mB MHD3_1).
Proof. exact MHD3_1_periodic. Qed.
Print Assumptions mhd_periodic.
(** initial conditions *)
Theorem initial_fields_solenoidal v : In v [u_cons; B_cons; u_ns3; B_hu; u_ot3; B_ot3] -> solenoidal v.
Proof.
  cbn [In]. intros H. destruct H as [<-|[<-|[<-|[<-|[<-|[<-|[]]]]]]].
  - exact u_cons_solenoidal. - exact B_cons_solenoidal. - exact u_ns3_solenoidal. - exact B_hu_solenoidal. - exact u_ot3_solenoidal. - exact B_ot3_solenoidal.
Qed.
Print Assumptions initial_fields_solenoidal.
Theorem orszag_tang_fields_are_curls : is_curl (V3 zero3 zero3 phi_3d) u_ot3 /\ is_curl (V3 zero3 zero3 A_3d) B_ot3.
Proof. exact ot3_curl. Qed.
Print Assumptions orszag_tang_fields_are_curls.
(** the fields of the test of conservation are one field, u x B = 0 at the start *)
Theorem conservation_fields_independent_refuted t x y z :
  at3 u_cons t x y z = at3 B_cons t x y z /\ cross_of (at3 u_cons t x y z) (at3 B_cons t x y z) = (0, 0, 0).
Proof.
  split; [exact (u_cons_is_B t x y z)|]. rewrite u_cons_is_B. unfold cross_of, at3. apply f_equal2; [apply f_equal2|]; ring.
Qed.
Print Assumptions conservation_fields_independent_refuted.
(** null points: balanced for c = 1 only *)
Theorem null_points_balance c Rf : (forall t x y z, at3 (f_init exact3 c Rf) t x y z = (0, 0, 0)) <-> c = 1.
Proof.
  split.
  - intros H. specialize (H 0 (/ 4) 0 0). rewrite null_force in H. injection H as H.
    assert (E : PI * / 4 = PI / 4) by reflexivity. rewrite E, sin_PI4, cos_PI4 in H.
    assert (Q := sqrt2_neq_0). assert (P := PI_neq0).
    assert (K : 25 / 4 * PI * (1 / sqrt 2) * (1 / sqrt 2) <> 0).
    { assert (S : 1 / sqrt 2 <> 0) by (unfold Rdiv; rewrite Rmult_1_l; apply Rinv_neq_0_compat; exact Q). 
      repeat (apply Rmult_integral_contrapositive_currified; [|first [exact S | exact P]]). lra. }
    apply Rmult_integral in H. destruct H as [H|H]; [lra|contradiction].
  - intros -> t x y z. rewrite null_force. apply f_equal2; [apply f_equal2|]; ring.
Qed.
Print Assumptions null_points_balance.

(** plane: the Taylor-Green vortex needs no force *)
Theorem taylor_green_solves Re : navier_stokes2 (/ Re) (u_tgv Re) (p_tgv Re) (V2 zero2 zero2) /\ solenoidal2 (u_tgv Re) /\
  (forall t x y, at2 (f_tgv exact2 Re) t x y = (0, 0)) /\
  periodic2 2 (a1 (u_tgv Re)) /\ periodic2 2 (a2 (u_tgv Re)) /\ periodic2 2 (p_tgv Re).
Proof. exact (conj (tgv_equation Re) (conj (tgv_solenoidal Re) (conj (tgv_force Re) (tgv_periodic Re)))). Qed.
Print Assumptions taylor_green_solves.
Theorem plane_mhd_solves c Rf Rm : solenoidal2 (u_2 exact2) /\ solenoidal2 B_2 /\ faraday2 E_2 B_2 /\
  (exists j, is_rot2 B_2 j /\ forall t x y,
     source_m2 exact2 Rm (u_2 exact2) E_2 B_2 t x y
     = / Rm * j t x y - E_2 t x y - (a1 (u_2 exact2) t x y * a2 B_2 t x y - a2 (u_2 exact2) t x y * a1 B_2 t x y)) /\
  (let u := u_2 exact2 in let f := source_f2 exact2 c Rf u P_2 B_2 in exists j, is_rot2 B_2 j /\
    navier_stokes2 (/ Rf) u (fun t x y => P_2 t x y - (a1 u t x y ^ 2 + a2 u t x y ^ 2) / 2)
      (V2 (fun t x y => a1 f t x y + c * (- (j t x y * a2 B_2 t x y))) (fun t x y => a2 f t x y + c * (j t x y * a1 B_2 t x y)))).
Proof. exact (conj mhd2_u (conj mhd2_B (conj mhd2_faraday (conj (mhd2_ohm Rm) (mhd2_momentum c Rf))))). Qed.
Print Assumptions plane_mhd_solves.
Theorem eigen_solution_solves e :
  (exists d, is_div2 (eigen_b e) d /\ p_t (eigen_a e) d) /\ (exists g, is_grad2 (eigen_a e) g /\ is_time2 (eigen_b e) g).
Proof. exact (eigen_solves e). Qed.
Print Assumptions eigen_solution_solves.

(** Poisson-Nernst-Planck-Navier-Stokes *)
Theorem pnpns_derivatives_right shift : p_t (a1 pn_u) (a1 pn_ut) /\ p_t (a2 pn_u) (a2 pn_ut) /\ p_x (a1 pn_u) pn_ux /\ p_y (a1 pn_u) pn_uy /\
  p_x (a2 pn_u) pn_vx /\ p_y (a2 pn_u) pn_vy /\ p_x pn_psi pn_psi_x /\ p_y pn_psi pn_psi_y /\ p_x pn_psi_x pn_psi_xx /\ p_y pn_psi_y pn_psi_yy /\
  p_x pn_sp pn_sp_x /\ p_y pn_sp pn_sp_y /\ p_t (pn_p shift) (pn_pt shift) /\ p_x (pn_p shift) pn_px /\ p_y (pn_p shift) pn_py.
Proof. exact (pn_hand shift). Qed.
Print Assumptions pnpns_derivatives_right.
Theorem pnpns_flow_and_potential eps shift : let f := pn_source_f exact2 eps shift in
  solenoidal2 pn_u /\ (exists l, is_lap2 pn_psi l /\ forall t x y, pn_p shift t x y - pn_n eps shift t x y = - eps * l t x y) /\
  exists g, is_grad2 pn_psi g /\
    navier_stokes2 1 pn_u pn_sp
      (V2 (fun t x y => a1 f t x y - (pn_p shift t x y - pn_n eps shift t x y) * a1 g t x y)
          (fun t x y => a2 f t x y - (pn_p shift t x y - pn_n eps shift t x y) * a2 g t x y)).
Proof. exact (conj pn_solenoidal (conj (pn_poisson eps shift) (pn_momentum eps shift))). Qed.
Print Assumptions pnpns_flow_and_potential.
(** the concentrations are positive, and then balanced, exactly for large shifts *)
Theorem pnpns_positive eps shift :
  ((forall t x y, 0 < pn_p shift t x y) <-> 1 < shift) /\ ((forall t x y, 0 < pn_n eps shift t x y) <-> sqrt (1 + 4 * eps ^ 2) < shift).
Proof. exact (conj (p_positive shift) (n_positive eps shift)). Qed.
Print Assumptions pnpns_positive.
Theorem pnpns_balances eps shift :
  (1 < shift -> balance (pn_p shift) pn_u (pn_ptau exact2 shift) (pn_source_p exact2 shift)) /\
  (sqrt (1 + 4 * eps ^ 2) < shift -> balance (pn_n eps shift) pn_u (pn_nchi exact2 eps shift) (pn_source_n exact2 eps shift)).
Proof.
  exact (conj (fun H => pn_balance_p shift (proj2 (p_positive shift) H)) (fun H => pn_balance_n eps shift (proj2 (n_positive eps shift) H))).
Qed.
Print Assumptions pnpns_balances.
Theorem pnpns_default_shift_refuted : exists t x y, pn_p 3 t x y > 0 /\ pn_n 2 3 t x y < 0.
Proof. exact n_negative_default. Qed.
Print Assumptions pnpns_default_shift_refuted.
Example default_shift_fits_one : sqrt (1 + 4 * 1 ^ 2) < 3.
Proof. replace 3 with (sqrt 9). - apply sqrt_lt_1; lra. - replace 9 with (3 * 3) by ring. apply sqrt_square. lra. Qed.

(** the dipole *)
Theorem dipole_flow q d u : r0 d <> 0 -> new_dipole q d = Some u -> solenoidal2 u /\
  is_rot2 u (fun t x y => sqrt (K_scale d / kinetic q (u_unscaled d)) * Rabs (we1 d) *
    ((1 - ((x - x1 d) ^ 2 + (y - y1 d) ^ 2) / r0 d ^ 2) * exp (- ((x - x1 d) ^ 2 + (y - y1 d) ^ 2) / r0 d ^ 2)
     - (1 - ((x - x2 d) ^ 2 + (y - y2 d) ^ 2) / r0 d ^ 2) * exp (- ((x - x2 d) ^ 2 + (y - y2 d) ^ 2) / r0 d ^ 2))).
Proof. exact (fun H K => conj (dipole_solenoidal q d u H K) (dipole_vorticity q d u H K)). Qed.
Print Assumptions dipole_flow.
Theorem dipole_kinetic_energy q d u : new_dipole q d = Some u -> 0 <= K_scale d / kinetic q (u_unscaled d) -> kinetic q u = K_scale d.
Proof. exact (dipole_energy q d u). Qed.
Print Assumptions dipole_kinetic_energy.
(** neither size nor sign of the extreme vorticity matters *)
Theorem dipole_sign_refuted q d w : w <> 0 -> new_dipole q (with_we d w) = new_dipole q (with_we d 1).
Proof. exact (dipole_we q d w). Qed.
Print Assumptions dipole_sign_refuted.
Example a_dipole : let d := {| x1 := 0; y1 := 0; x2 := 0; y2 := 1; r0 := 1; we1 := 2; we2 := -2; K_scale := 2 |} in
  exists u, new_dipole [(0, 0, 1)] d = Some u /\ 0 <= K_scale d / kinetic [(0, 0, 1)] (u_unscaled d).
Proof.
  cbv zeta. set (d := {| x1 := 0; y1 := 0; x2 := 0; y2 := 1; r0 := 1; we1 := 2; we2 := -2; K_scale := 2 |}).
  assert (K : 0 < kinetic [(0, 0, 1)] (u_unscaled d)).
  { unfold kinetic, u_unscaled, d. cbn [map fold_right a1 a2 x1 y1 x2 y2 r0 we1]. rewrite Rabs_pos_eq by lra.
    generalize (exp_pos (- ((0 - 0) ^ 2 + (0 - 1) ^ 2) / 1 ^ 2)). set (e := exp (- ((0 - 0) ^ 2 + (0 - 1) ^ 2) / 1 ^ 2)). intros P. nra. }
  unfold new_dipole. destruct (Req_EM_T (we1 d + we2 d) 0) as [_|N]; [|exfalso; apply N; cbn; lra]. cbv zeta.
  destruct (Req_EM_T (kinetic [(0, 0, 1)] (u_unscaled d)) 0) as [E|_]; [exfalso; rewrite E in K; exact (Rlt_irrefl _ K)|].
  eexists. split; [reflexivity|]. apply Rmult_le_pos; [cbn; lra|]. left. apply Rinv_0_lt_compat. exact K.
Qed.

(** piecewise functions *)
Theorem piecewise_last_wins ints l v r d fill : existsb fst r = false -> genpiecewise ints (l ++ (true, v) :: r) d fill = place ints v.
Proof. exact (piece_last ints l v r d fill). Qed.
Print Assumptions piecewise_last_wins.
Theorem piecewise_exclusive ints l d fill v : In (true, v) l -> (forall w, In (true, w) l -> w = v) -> genpiecewise ints l d fill = place ints v.
Proof. exact (piece_one ints l d fill v). Qed.
Print Assumptions piecewise_exclusive.
Theorem piecewise_otherwise ints l d fill : existsb fst l = false ->
  genpiecewise ints l d fill = place ints (match d with Some v => v | None => fill end).
Proof. exact (piece_none ints l d fill). Qed.
Print Assumptions piecewise_otherwise.
Theorem piecewise_types v k : place false v = v /\ place true (IZR k) = IZR k /\ (-1 < v < 1 -> place true v = 0).
Proof. exact (conj eq_refl (conj (truncate_int k) (truncate_small v))). Qed.
Print Assumptions piecewise_types.
(** the shear layer: continuous in the middle, mirrored, hence equal at both ends of the period *)
Theorem shear_layer delta t x y : (y <= PI -> shear_u delta t x y = tanh ((y - PI / 2) / delta)) /\
  (PI <= y -> shear_u delta t x y = tanh ((3 * PI / 2 - y) / delta)) /\ shear_u delta t x (2 * PI - y) = shear_u delta t x y.
Proof. exact (conj (shear_low delta t x y) (conj (shear_high delta t x y) (shear_mirror delta t x y))). Qed.
Print Assumptions shear_layer.
Theorem loop_potential A0 Rad t x y : loop_A false A0 Rad t x y = A0 * Rmax 0 (Rad - sqrt (x ^ 2 + y ^ 2)).
Proof. exact (loop_value A0 Rad t x y). Qed.
Print Assumptions loop_potential.
(** for arrays of integers every small loop vanishes *)
Theorem loop_potential_integers_refuted A0 Rad t x y : 0 <= A0 -> 0 <= Rad -> A0 * Rad < 1 -> loop_A true A0 Rad t x y = 0.
Proof. exact (loop_ints A0 Rad t x y). Qed.
Print Assumptions loop_potential_integers_refuted.
Example loop_at_centre : loop_A false (1 / 1000) (3 / 10) 0 0 0 = 3 / 10000.
Proof. rewrite loop_value. replace (0 ^ 2 + 0 ^ 2) with 0 by ring. rewrite sqrt_0, Rmax_right by lra. lra. Qed.
Theorem loop_velocity_right Lx Ly t x y : 0 < Lx -> at2 (loop_u Lx Ly) t x y = (Lx, Ly).
Proof. exact (loop_right Lx Ly t x y). Qed.
Print Assumptions loop_velocity_right.
Theorem loop_velocity_left_refuted Lx Ly t x y : Lx < 0 -> at2 (loop_u Lx Ly) t x y = (- Lx, - Ly).
Proof. exact (loop_left Lx Ly t x y). Qed.
Print Assumptions loop_velocity_left_refuted.
Theorem lid_moves speed t x y : lid speed t x y = if Rle_dec y (1 / 2) then 0 else speed.
Proof. exact (lid_value speed t x y). Qed.
Print Assumptions lid_moves.
Theorem discontinuous_concentrations t x y :
  ((3 / 4 <= x -> 11 / 20 <= y -> disc_p t x y = 1) /\ (x < 3 / 4 \/ y < 11 / 20 -> disc_p t x y = / 1000000)) /\
  ((3 / 4 <= x -> y <= 9 / 20 -> disc_n t x y = 1) /\ (x < 3 / 4 \/ 9 / 20 < y -> disc_n t x y = / 1000000)) /\
  0 < disc_p t x y /\ 0 < disc_n t x y.
Proof. exact (conj (disc_p_value t x y) (conj (disc_n_value t x y) (disc_positive t x y))). Qed.
Print Assumptions discontinuous_concentrations.
