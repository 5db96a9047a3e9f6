(** * Samples in space: equations together, boundary conditions, periods, initial conditions *)
From Coq Require Import Reals List Lra FunctionalExtensionality.
From Coquelicot Require Import Coquelicot.
From Verif Require Import FieldModel SampleModel SampleSpec SampleThms SampleThms2.
Import ListNotations.
Local Open Scope R_scope.

Lemma samples_solve s c Rm Rf eta : In s [MHD3_0; MHD3_1; Hall_0; Hall_1; Hall_2; Hall_4] ->
  mhd_solution c Rm Rf eta (mu s) (mP s) (mE s) (mB s) (source_f exact3 c Rf s) (source_m exact3 Rm eta s).
Proof.
  assert (G : forall s, momega s = None -> vsmooth (mu s) -> solenoidal (mu s) -> smooth1st (mP s) -> vsmooth1 (mB s) ->
    faraday (mE s) (mB s) -> solenoidal (mB s) ->
    mhd_solution c Rm Rf eta (mu s) (mP s) (mE s) (mB s) (source_f exact3 c Rf s) (source_m exact3 Rm eta s)).
  { intros r H1 H2 H3 H4 H5 H6 H7. unfold mhd_solution. conj; try assumption; [now apply momentum_generic|now apply ohm_generic]. }
  intros H. cbn [In] in H.
  destruct H as [<-|[<-|[<-|[<-|[<-|[<-|[]]]]]]]; apply G; try reflexivity.
  all: first [exact u_a_smooth | exact u_a_solenoidal | exact P_a_smooth | exact P_b_smooth | exact B_0_smooth | exact B_1_smooth
    | exact B_h1_smooth | exact B_4_smooth | exact faraday_0 | exact faraday_1 | exact faraday_h1 | exact faraday_4
    | exact B_0_solenoidal | exact B_1_solenoidal | exact B_h1_solenoidal | exact B_4_solenoidal | exact u_4_smooth
    | exact u_4_solenoidal | exact P_4_smooth].
Qed.

(** the third solution of Hall: everything but the divergence of u *)
Lemma Hall_3_partly Rm eta : is_curl (mu Hall_3) (omega exact3 Hall_3) /\ faraday (mE Hall_3) (mB Hall_3) /\ solenoidal (mB Hall_3) /\
  ohm Rm eta (mu Hall_3) (mE Hall_3) (mB Hall_3) (source_m exact3 Rm eta Hall_3).
Proof.
  split; [exact Hall_3_vorticity|]. split; [exact faraday_h1|]. split; [exact B_h1_solenoidal|]. apply ohm_generic. exact B_h1_smooth.
Qed.
Lemma div_unique v f g : is_div v f -> is_div v g -> forall t x y z, f t x y z = g t x y z.
Proof.
  intros (p & q & r & P & Q & S & H) (p' & q' & r' & P' & Q' & S' & H') t x y z.
  rewrite H, H', (dx_unique _ _ _ P P'), (dy_unique _ _ _ Q Q'), (dz_unique _ _ _ S S'). reflexivity.
Qed.
Lemma Hall_3_not_solenoidal : ~ solenoidal (mu Hall_3).
Proof.
  intros H. assert (E := div_unique _ _ _ Hall_3_divergence H 0 0 0 0). cbv beta in E. rewrite cos_0, exp_0 in E. lra.
Qed.

(** boundaries *)
Lemma triple (a b c : R) : a = 0 -> b = 0 -> c = 0 -> (a, b, c) = (0, 0, 0).
Proof. now intros -> -> ->. Qed.
Ltac faces := let i := fresh "i" in intros [|[|i]] t x y z [->| ->]; cbn [normal]; unfold at3, cross_of; open3; try apply triple;
  rewrite ?Rmult_1_r, ?Rmult_0_r, ?sin_0, ?sin_2PI, ?sin_PI, ?cos_0; ring.
Lemma u_a_boundary : no_tangent (2 * PI) u_a. Proof. faces. Qed.
Lemma P_b_boundary : vanishes (2 * PI) P_b. Proof. faces. Qed.
Lemma E_1_boundary : no_tangent (2 * PI) E_1. Proof. faces. Qed.
Lemma B_h1_boundary : no_tangent (2 * PI) (from_E curlE_h1). Proof. faces. Qed.
Lemma w_h1_boundary : no_tangent (2 * PI) curlE_h1. Proof. faces. Qed.
Lemma u_4_boundary : no_tangent 1 u_4. Proof. faces. Qed.
Lemma P_4_boundary : vanishes 1 P_4. Proof. faces. Qed.
Lemma B_4_boundary : no_tangent 1 (from_E curlE_4). Proof. faces. Qed.
Lemma B_cons_boundary : no_tangent 1 B_cons. Proof. faces. Qed.
Lemma u_cons_is_B t x y z : at3 u_cons t x y z = at3 B_cons t x y z.
Proof.
  assert (S : forall r, sin (PI * (r - 1 / 2)) = - cos (PI * r)).
  { intros r. replace (PI * (r - 1 / 2)) with (PI * r - PI / 2) by field. rewrite sin_minus, cos_PI2, sin_PI2. ring. }
  assert (C : forall r, cos (PI * (r - 1 / 2)) = sin (PI * r)).
  { intros r. replace (PI * (r - 1 / 2)) with (PI * r - PI / 2) by field. rewrite cos_minus, cos_PI2, sin_PI2. ring. }
  unfold at3, u_cons, B_cons. cbn [c1 c2 c3]. rewrite !S, !C. apply f_equal2; [apply f_equal2; ring|reflexivity].
Qed.
Lemma u_cons_boundary : no_tangent 1 u_cons.
Proof. intros i t x y z H. rewrite u_cons_is_B. now apply B_cons_boundary. Qed.

(** periods *)
Lemma sin_2pi x : sin (x + 2 * PI) = sin x.
Proof. rewrite sin_plus, sin_2PI, cos_2PI. ring. Qed.
Lemma cos_2pi x : cos (x + 2 * PI) = cos x.
Proof. rewrite cos_plus, sin_2PI, cos_2PI. ring. Qed.
Ltac turn := unfold vperiodic3; conj; intros t x y z; open3; rewrite ?sin_2pi, ?cos_2pi; conj; reflexivity.
Lemma MHD3_1_periodic : vperiodic3 (2 * PI) (mu MHD3_1) /\ periodic3 (2 * PI) (mP MHD3_1) /\ vperiodic3 (2 * PI) (mE MHD3_1) /\
  vperiodic3 (2 * PI) (mB MHD3_1).
Proof. unfold MHD3_1. cbn [mu mP mE mB]. unfold vperiodic3, periodic3. conj; turn. Qed.

(** null points *)
Lemma zero_t : D3t exact3 zero3 = zero3. Proof. apply Dt_is. der3. Qed.
Lemma zero_x : D3x exact3 zero3 = zero3. Proof. apply Dx_is. der3. Qed.
Lemma zero_y : D3y exact3 zero3 = zero3. Proof. apply Dy_is. der3. Qed.
Lemma zero_z : D3z exact3 zero3 = zero3. Proof. apply Dz_is. der3. Qed.
Lemma null_force c Rf t x y z : at3 (f_init exact3 c Rf) t x y z = ((c - 1) * (25 / 4 * PI * sin (PI * x) * cos (PI * x)), 0, 0).
Proof.
  unfold f_init, source_f, omega, current, null_points, zero_vec. cbn [mu mP mB momega given]. unfold time3, curl3, grad3. cbn [c1 c2 c3].
  rewrite zero_t, !zero_x, !zero_y, !zero_z.
  rewrite (Dy_is (fun t x y z => - (25 / 10) * sin (PI * x)) zero3) by (intros ? ? ? ?; open3; auto_derive; [trivial|ring]).
  rewrite (Dx_is (fun t x y z => - (25 / 10) * sin (PI * x)) (fun t x y z => - (25 / 10) * (PI * cos (PI * x)))) by (intros ? ? ? ?; open3; auto_derive; [trivial|ring]).
  rewrite (Dx_is (fun t x y z => (5 / 4) ^ 2 * cos (2 * PI * x)) (fun t x y z => - (5 / 4) ^ 2 * 2 * PI * sin (2 * PI * x)))
    by (intros ? ? ? ?; open3; auto_derive; [trivial|ring]).
  rewrite (Dy_is (fun t x y z => (5 / 4) ^ 2 * cos (2 * PI * x)) zero3) by (intros ? ? ? ?; open3; auto_derive; [trivial|ring]).
  rewrite (Dz_is (fun t x y z => (5 / 4) ^ 2 * cos (2 * PI * x)) zero3) by (intros ? ? ? ?; open3; auto_derive; [trivial|ring]).
  cbv beta iota zeta delta [at3 vadd3 vsub3 vscale3 cross3 c1 c2 c3 add3 sub3 scale3 mul3 zero3].
  replace (2 * PI * x) with (2 * (PI * x)) by ring. rewrite sin_2a.
  generalize (1 / Rf). intros k. apply f_equal2; [apply f_equal2|]; field.
Qed.
