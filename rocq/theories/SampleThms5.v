(** * Samples in the plane: Poisson-Nernst-Planck-Navier-Stokes, the dipole, and fields given piece by piece *)
From Coq Require Import Reals List Lra Lia Bool FunctionalExtensionality.
From Coquelicot Require Import Coquelicot.
From Verif Require Import FieldModel SampleModel SampleSpec SampleThms SampleThms2 SampleThms4.
Import ListNotations.
Local Open Scope R_scope.

(** ** PNPNS *)
Lemma pn_hand shift : p_t (a1 pn_u) (a1 pn_ut) /\ p_t (a2 pn_u) (a2 pn_ut) /\ p_x (a1 pn_u) pn_ux /\ p_y (a1 pn_u) pn_uy /\
  p_x (a2 pn_u) pn_vx /\ p_y (a2 pn_u) pn_vy /\ p_x pn_psi pn_psi_x /\ p_y pn_psi pn_psi_y /\ p_x pn_psi_x pn_psi_xx /\ p_y pn_psi_y pn_psi_yy /\
  p_x pn_sp pn_sp_x /\ p_y pn_sp pn_sp_y /\ p_t (pn_p shift) (pn_pt shift) /\ p_x (pn_p shift) pn_px /\ p_y (pn_p shift) pn_py.
Proof. unfold pn_ut. conj; der2. Qed.
Lemma pn_solenoidal : solenoidal2 pn_u.
Proof. exists pn_ux, pn_vy. destruct (pn_hand 0) as (_ & _ & A & _ & _ & B & _). conj; try assumption. intros; open2; ring. Qed.
Lemma pn_poisson eps shift : exists l, is_lap2 pn_psi l /\ forall t x y, pn_p shift t x y - pn_n eps shift t x y = - eps * l t x y.
Proof.
  destruct (pn_hand 0) as (_ & _ & _ & _ & _ & _ & A & B & C & D & _).
  exists (fun t x y => pn_psi_xx t x y + pn_psi_yy t x y). split.
  - exists pn_psi_x, pn_psi_y, pn_psi_xx, pn_psi_yy. conj; try assumption. reflexivity.
  - intros. unfold pn_n, add2, scale2. ring.
Qed.
Lemma pn_momentum eps shift : let f := pn_source_f exact2 eps shift in exists g, is_grad2 pn_psi g /\
  navier_stokes2 1 pn_u pn_sp
    (V2 (fun t x y => a1 f t x y - (pn_p shift t x y - pn_n eps shift t x y) * a1 g t x y)
        (fun t x y => a2 f t x y - (pn_p shift t x y - pn_n eps shift t x y) * a2 g t x y)).
Proof.
  cbv zeta. destruct (pn_hand 0) as (T1 & T2 & UX & UY & VX & VY & PX & PY & _ & _ & SX & SY & _).
  exists (V2 pn_psi_x pn_psi_y). split; [split; assumption|].
  unfold pn_source_f, grad2, curl2. cbv zeta.
  rewrite (D2x_is (add2 pn_ux pn_vy) zero2) by der2. rewrite (D2y_is (add2 pn_ux pn_vy) zero2) by der2.
  rewrite (D2y_is (sub2 pn_vx pn_uy) (fun t x y => 2 * sin x * cos y * exp t)) by der2.
  rewrite (D2x_is (sub2 pn_vx pn_uy) (fun t x y => 2 * cos x * sin y * exp t)) by der2.
  exists pn_ut, (fun t x y => a1 pn_u t x y * pn_ux t x y + a2 pn_u t x y * pn_uy t x y),
    (fun t x y => a1 pn_u t x y * pn_vx t x y + a2 pn_u t x y * pn_vy t x y),
    (fun t x y => - 2 * sin x * cos y * exp t), (fun t x y => 2 * cos x * sin y * exp t), (V2 pn_sp_x pn_sp_y).
  split; [split; assumption|].
  split. { exists pn_ux, pn_uy. conj; try assumption. reflexivity. }
  split. { exists pn_vx, pn_vy. conj; try assumption. reflexivity. }
  split. { exists pn_ux, pn_uy, (fun t x y => - sin x * cos y * exp t), (fun t x y => - sin x * cos y * exp t). conj; try assumption; try der2. intros; ring. }
  split. { exists pn_vx, pn_vy, (fun t x y => cos x * sin y * exp t), (fun t x y => cos x * sin y * exp t). conj; try assumption; try der2. intros; ring. }
  split; [split; assumption|].
  intros t x y. unfold pn_n, pn_ut. open2. split; ring.
Qed.
Lemma D2x_correct f : (forall t x y, ex_derive (fun r => f t r y) x) -> p_x f (D2x exact2 f).
Proof. intros H t x y. exact (Derive_correct _ _ (H t x y)). Qed.
Lemma D2y_correct f : (forall t x y, ex_derive (fun r => f t x r) y) -> p_y f (D2y exact2 f).
Proof. intros H t x y. exact (Derive_correct _ _ (H t x y)). Qed.
Lemma D2t_correct f : (forall t x y, ex_derive (fun r => f r x y) t) -> p_t f (D2t exact2 f).
Proof. intros H t x y. exact (Derive_correct _ _ (H t x y)). Qed.
Lemma px_ln f g : (forall t x y, 0 < f t x y) -> p_x f g -> p_x (log2 f) (fun t x y => g t x y / f t x y).
Proof.
  intros P H t x y. unfold log2. unfold Rdiv. eapply (is_derive_comp ln (fun r => f t r y)); [|apply H]. 
  apply is_derive_Reals. apply derivable_pt_lim_ln. apply P.
Qed.
Lemma py_ln f g : (forall t x y, 0 < f t x y) -> p_y f g -> p_y (log2 f) (fun t x y => g t x y / f t x y).
Proof.
  intros P H t x y. unfold log2. unfold Rdiv. eapply (is_derive_comp ln (fun r => f t x r)); [|apply H].
  apply is_derive_Reals. apply derivable_pt_lim_ln. apply P.
Qed.
(** c grad (ln c + s psi) = grad c + s c grad psi *)
Lemma flux_p shift : (forall t x y, 0 < pn_p shift t x y) -> pn_ptau exact2 shift = vadd2 (V2 pn_px pn_py) (vmul2 (pn_p shift) (V2 pn_psi_x pn_psi_y)).
Proof.
  intros P. destruct (pn_hand shift) as (_ & _ & _ & _ & _ & _ & PX & PY & _ & _ & _ & _ & _ & CX & CY).
  assert (X : p_x (add2 (log2 (pn_p shift)) pn_psi) (fun t x y => pn_px t x y / pn_p shift t x y + pn_psi_x t x y)).
  { intros t x y. apply derive_plus; [apply (px_ln _ _ P CX)|apply PX]. }
  assert (Y : p_y (add2 (log2 (pn_p shift)) pn_psi) (fun t x y => pn_py t x y / pn_p shift t x y + pn_psi_y t x y)).
  { intros t x y. apply derive_plus; [apply (py_ln _ _ P CY)|apply PY]. }
  unfold pn_ptau, pn_tau, grad2. rewrite (D2x_is _ _ X), (D2y_is _ _ Y).
  unfold vmul2, vadd2. cbn [a1 a2]. apply f_equal2; apply ext2; intros t x y; unfold mul2, add2; field; apply Rgt_not_eq, P.
Qed.
Notation nx eps := (fun t x y => pn_px t x y - 2 * eps * (cos x * sin y * exp t)).
Notation ny eps := (fun t x y => pn_py t x y - 2 * eps * (sin x * cos y * exp t)).
Lemma n_d eps shift : p_x (pn_n eps shift) (nx eps) /\ p_y (pn_n eps shift) (ny eps) /\ p_t (pn_n eps shift) (pn_n eps shift).
Proof. unfold pn_n. conj; der2. Qed.
Lemma flux_n eps shift : (forall t x y, 0 < pn_n eps shift t x y) ->
  pn_nchi exact2 eps shift = vsub2 (grad2 exact2 (pn_n eps shift)) (vmul2 (pn_n eps shift) (V2 pn_psi_x pn_psi_y)).
Proof.
  intros P. destruct (pn_hand shift) as (_ & _ & _ & _ & _ & _ & PX & PY & _). destruct (n_d eps shift) as (CX & CY & _).
  assert (X : p_x (sub2 (log2 (pn_n eps shift)) pn_psi) (fun t x y => nx eps t x y / pn_n eps shift t x y - pn_psi_x t x y)).
  { intros t x y. apply derive_minus; [apply (px_ln _ _ P CX)|apply PX]. }
  assert (Y : p_y (sub2 (log2 (pn_n eps shift)) pn_psi) (fun t x y => ny eps t x y / pn_n eps shift t x y - pn_psi_y t x y)).
  { intros t x y. apply derive_minus; [apply (py_ln _ _ P CY)|apply PY]. }
  unfold pn_nchi, pn_chi, grad2. rewrite (D2x_is _ _ X), (D2y_is _ _ Y), (D2x_is _ _ CX), (D2y_is _ _ CY).
  unfold vmul2, vsub2. cbn [a1 a2]. apply f_equal2; apply ext2; intros t x y; unfold mul2, sub2; field; apply Rgt_not_eq, P.
Qed.
(** the balance follows from product rule and div u = 0 *)
Lemma balance_of (c : fld2) (u F : vec2) ct cx cy ux vy : p_t c ct -> p_x c cx -> p_y c cy -> p_x (a1 u) ux -> p_y (a2 u) vy ->
  (forall t x y, ux t x y + vy t x y = 0) ->
  (forall t x y, ex_derive (fun r => a1 F t r y) x) -> (forall t x y, ex_derive (fun r => a2 F t x r) y) ->
  balance c u F (fun t x y => ct t x y + (a1 u t x y * cx t x y + a2 u t x y * cy t x y) - (D2x exact2 (a1 F) t x y + D2y exact2 (a2 F) t x y)).
Proof.
  intros T X Y U V S FX FY.
  exists ct, (fun t x y => (cx t x y * a1 u t x y + c t x y * ux t x y - D2x exact2 (a1 F) t x y)
                         + (cy t x y * a2 u t x y + c t x y * vy t x y - D2y exact2 (a2 F) t x y)).
  split; [exact T|]. split.
  - eexists _, _. conj; [| |reflexivity]; cbn [a1 a2]; intros t x y.
    + apply derive_minus; [|apply (D2x_correct _ FX)].
      exact (is_derive_mult (fun r => c t r y) (fun r => a1 u t r y) x (cx t x y) (ux t x y) (X t x y) (U t x y) Rmult_comm).
    + apply derive_minus; [|apply (D2y_correct _ FY)].
      exact (is_derive_mult (fun r => c t x r) (fun r => a2 u t x r) y (cy t x y) (vy t x y) (Y t x y) (V t x y) Rmult_comm).
  - intros t x y. generalize (S t x y). intros E.
    transitivity (ct t x y + (a1 u t x y * cx t x y + a2 u t x y * cy t x y) - (D2x exact2 (a1 F) t x y + D2y exact2 (a2 F) t x y) + c t x y * (ux t x y + vy t x y)).
    + rewrite E. ring. + ring.
Qed.
Lemma pn_div t x y : pn_ux t x y + pn_vy t x y = 0.
Proof. open2. ring. Qed.
Lemma pn_balance_p shift : (forall t x y, 0 < pn_p shift t x y) -> balance (pn_p shift) pn_u (pn_ptau exact2 shift) (pn_source_p exact2 shift).
Proof.
  intros P. rewrite (flux_p shift P). destruct (pn_hand shift) as (_ & _ & UX & _ & _ & VY & _ & _ & _ & _ & _ & _ & T & X & Y).
  apply (balance_of (pn_p shift) pn_u (vadd2 (V2 pn_px pn_py) (vmul2 (pn_p shift) (V2 pn_psi_x pn_psi_y))) _ _ _ _ _ T X Y UX VY pn_div);
    intros t x y; open2; auto_derive; trivial.
Qed.
Lemma pn_balance_n eps shift : (forall t x y, 0 < pn_n eps shift t x y) ->
  balance (pn_n eps shift) pn_u (pn_nchi exact2 eps shift) (pn_source_n exact2 eps shift).
Proof.
  intros P. rewrite (flux_n eps shift P). destruct (pn_hand shift) as (_ & _ & UX & _ & _ & VY & _). destruct (n_d eps shift) as (X & Y & T).
  unfold pn_source_n. cbv zeta. unfold grad2. rewrite (D2x_is _ _ X), (D2y_is _ _ Y), (D2t_is _ _ T).
  apply (balance_of (pn_n eps shift) pn_u (vsub2 (V2 (nx eps) (ny eps)) (vmul2 (pn_n eps shift) (V2 pn_psi_x pn_psi_y))) _ _ _ _ _ T X Y UX VY pn_div);
    intros t x y; unfold pn_n; open2; auto_derive; trivial.
Qed.
Lemma p_positive shift : (forall t x y, 0 < pn_p shift t x y) <-> 1 < shift.
Proof.
  unfold pn_p. split.
  - intros H. specialize (H 0 PI (PI / 2)). rewrite cos_PI, sin_PI2, exp_0 in H. lra.
  - intros H t x y. apply Rmult_lt_0_compat; [|apply exp_pos].
    generalize (COS_bound x) (SIN_bound y). intros [A B] [C D]. nra.
Qed.
Lemma n_value eps shift t x y : pn_n eps shift t x y = (shift + (cos x - 2 * eps * sin x) * sin y) * exp t.
Proof. unfold pn_n. open2. ring. Qed.
Lemma n_positive eps shift : (forall t x y, 0 < pn_n eps shift t x y) <-> sqrt (1 + 4 * eps ^ 2) < shift.
Proof.
  set (s := sqrt (1 + 4 * eps ^ 2)). assert (G : 0 < 1 + 4 * eps ^ 2) by (generalize (pow2_ge_0 eps); lra).
  assert (S0 : 0 < s) by (apply sqrt_lt_R0; exact G). assert (SS : s * s = 1 + 4 * eps ^ 2) by (apply sqrt_sqrt; lra).
  split.
  - intros H. specialize (H 0 (PI - atan (2 * eps)) (PI / 2)). rewrite n_value, sin_PI2, exp_0 in H.
    rewrite cos_minus, sin_minus, cos_PI, sin_PI, cos_atan, sin_atan in H.
    replace (1 + (2 * eps)²) with (1 + 4 * eps ^ 2) in H by (unfold Rsqr; ring). fold s in H.
    assert (E : shift - s = (shift + (-1 * (1 / s) + 0 * (2 * eps / s) - 2 * eps * (0 * (1 / s) - -1 * (2 * eps / s))) * 1) * 1).
    { apply Rplus_eq_reg_l with (- shift). transitivity (- ((1 + 4 * eps ^ 2) / s)); [|field; lra]. rewrite <- SS. field. lra. }
    rewrite <- E in H. lra.
  - intros H t x y. rewrite n_value. apply Rmult_lt_0_compat; [|apply exp_pos].
    assert (Q : (cos x - 2 * eps * sin x) ^ 2 <= s * s).
    { rewrite SS. generalize (sin2_cos2 x). unfold Rsqr. intros P. generalize (pow2_ge_0 (2 * eps * cos x + sin x)). nra. }
    assert (B : - s <= cos x - 2 * eps * sin x <= s) by (split; nra).
    generalize (SIN_bound y). intros [C D]. nra.
Qed.
Lemma n_negative_default : exists t x y, pn_p 3 t x y > 0 /\ pn_n 2 3 t x y < 0.
Proof.
  exists 0, (PI / 2), (PI / 2). rewrite n_value. unfold pn_p. rewrite cos_PI2, sin_PI2, exp_0. lra.
Qed.

(** ** the dipole *)
Notation gauss d a b := (fun x y => exp (- ((x - a) ^ 2 + (y - b) ^ 2) / r0 d ^ 2)).
Notation monopole d a b := (fun x y => (1 - ((x - a) ^ 2 + (y - b) ^ 2) / r0 d ^ 2) * gauss d a b x y).
Lemma kinetic_scale q u s : kinetic q (V2 (fun t x y => s * a1 u t x y + 0 * t) (fun t x y => s * a2 u t x y + 0 * t)) = s * s * kinetic q u.
Proof.
  unfold kinetic. cbn [a1 a2]. rewrite (Rmult_comm (s * s)), Rmult_assoc. f_equal.
  induction q as [|[[x y] w] q IH]; cbn [map fold_right]; [ring|]. rewrite IH. ring.
Qed.
Lemma dipole_some q d u : new_dipole q d = Some u ->
  we1 d + we2 d = 0 /\ kinetic q (u_unscaled d) <> 0 /\
  u = V2 (fun t x y => sqrt (K_scale d / kinetic q (u_unscaled d)) * a1 (u_unscaled d) t x y + 0 * t)
         (fun t x y => sqrt (K_scale d / kinetic q (u_unscaled d)) * a2 (u_unscaled d) t x y + 0 * t).
Proof.
  unfold new_dipole. destruct (Req_EM_T (we1 d + we2 d) 0) as [E|]; [|discriminate]. cbv zeta.
  destruct (Req_EM_T (kinetic q (u_unscaled d)) 0) as [|N]; [discriminate|]. intros H. injection H as <-. auto.
Qed.
Lemma dipole_energy q d u : new_dipole q d = Some u -> 0 <= K_scale d / kinetic q (u_unscaled d) -> kinetic q u = K_scale d.
Proof.
  intros H P. destruct (dipole_some q d u H) as (_ & N & ->). rewrite kinetic_scale, sqrt_sqrt by exact P. field. exact N.
Qed.
Notation ux_d d s := (fun (t x y : R) => s * Rabs (we1 d) * ((y - y1 d) * (x - x1 d) * / r0 d ^ 2 * gauss d (x1 d) (y1 d) x y - (y - y2 d) * (x - x2 d) * / r0 d ^ 2 * gauss d (x2 d) (y2 d) x y)).
Notation ex_d d := (fun (t x y : R) => 1).
Lemma dipole_solenoidal q d u : r0 d <> 0 -> new_dipole q d = Some u -> solenoidal2 u.
Proof.
  intros R0 H. destruct (dipole_some q d u H) as (_ & _ & ->). generalize (sqrt (K_scale d / kinetic q (u_unscaled d))). intros s.
  exists (ux_d d s), (fun t x y => - ux_d d s t x y). unfold u_unscaled; cbv zeta; cbn [a1 a2]; conj.
  - intros t x y. auto_derive; [repeat split; trivial|]. cbn [pow]. unfold Rminus, Rdiv. lazymatch goal with |- ?a = ?b => change (@eq R a b) end. field. repeat split; lra.
  - intros t x y. auto_derive; [repeat split; trivial|]. cbn [pow]. unfold Rminus, Rdiv. lazymatch goal with |- ?a = ?b => change (@eq R a b) end. field. repeat split; lra.
  - intros; ring.
Qed.
Lemma dipole_vorticity q d u : r0 d <> 0 -> new_dipole q d = Some u ->
  is_rot2 u (fun t x y => sqrt (K_scale d / kinetic q (u_unscaled d)) * Rabs (we1 d) * (monopole d (x1 d) (y1 d) x y - monopole d (x2 d) (y2 d) x y)).
Proof.
  intros R0 H. destruct (dipole_some q d u H) as (_ & _ & ->). generalize (sqrt (K_scale d / kinetic q (u_unscaled d))). intros s.
  exists (fun t x y => s * Rabs (we1 d) * ((1 / 2 - (x - x1 d) ^ 2 / r0 d ^ 2) * gauss d (x1 d) (y1 d) x y - (1 / 2 - (x - x2 d) ^ 2 / r0 d ^ 2) * gauss d (x2 d) (y2 d) x y)),
    (fun t x y => - (s * Rabs (we1 d) * ((1 / 2 - (y - y1 d) ^ 2 / r0 d ^ 2) * gauss d (x1 d) (y1 d) x y - (1 / 2 - (y - y2 d) ^ 2 / r0 d ^ 2) * gauss d (x2 d) (y2 d) x y))).
  unfold u_unscaled; cbv zeta; cbn [a1 a2]; conj.
  - intros t x y. auto_derive; [repeat split; trivial|]. cbn [pow]. unfold Rminus, Rdiv. lazymatch goal with |- ?a = ?b => change (@eq R a b) end. field. repeat split; lra.
  - intros t x y. auto_derive; [repeat split; trivial|]. cbn [pow]. unfold Rminus, Rdiv. lazymatch goal with |- ?a = ?b => change (@eq R a b) end. field. repeat split; lra.
  - intros t x y. field. repeat split; lra.
Qed.
Lemma unscaled_we d w t x y : a1 (u_unscaled (with_we d w)) t x y = Rabs w * a1 (u_unscaled (with_we d 1)) t x y /\
  a2 (u_unscaled (with_we d w)) t x y = Rabs w * a2 (u_unscaled (with_we d 1)) t x y.
Proof. unfold u_unscaled, with_we; cbv zeta; cbn [a1 a2 x1 y1 x2 y2 r0 we1]. rewrite Rabs_R1. split; ring. Qed.
Lemma kinetic_ext q u v : (forall t x y, a1 u t x y = a1 v t x y) -> (forall t x y, a2 u t x y = a2 v t x y) -> kinetic q u = kinetic q v.
Proof.
  intros A B. unfold kinetic. f_equal. induction q as [|[[x y] w] q IH]; [reflexivity|]. cbn [map fold_right]. rewrite IH, A, B. reflexivity.
Qed.
Lemma kinetic_we q d w : kinetic q (u_unscaled (with_we d w)) = w * w * kinetic q (u_unscaled (with_we d 1)).
Proof.
  transitivity (Rabs w * Rabs w * kinetic q (u_unscaled (with_we d 1))).
  - rewrite <- kinetic_scale. apply kinetic_ext; intros t x y; cbn [a1 a2]; destruct (unscaled_we d w t x y) as [A B]; rewrite ?A, ?B; ring.
  - f_equal. rewrite <- Rabs_mult, Rabs_pos_eq; [reflexivity|nra].
Qed.
Lemma dipole_we q d w : w <> 0 -> new_dipole q (with_we d w) = new_dipole q (with_we d 1).
Proof.
  intros W. unfold new_dipole. cbn [we1 we2 K_scale with_we]. rewrite kinetic_we. set (K := kinetic q (u_unscaled (with_we d 1))).
  destruct (Req_EM_T (w + - w) 0) as [_|N]; [|exfalso; apply N; ring]. destruct (Req_EM_T (1 + - (1)) 0) as [_|N]; [|exfalso; apply N; ring]. cbv zeta.
  assert (W2 : 0 < w * w) by nra.
  destruct (Req_EM_T K 0) as [E|N].
  - rewrite E, Rmult_0_r. destruct (Req_EM_T 0 0) as [_|X]; [reflexivity|exfalso; apply X; reflexivity].
  - destruct (Req_EM_T (w * w * K) 0) as [E|_]; [exfalso; apply N; nra|].
    assert (S : sqrt (K_scale d / (w * w * K)) * Rabs w = sqrt (K_scale d / K)).
    { replace (K_scale d / (w * w * K)) with (K_scale d / K * / (w * w)) by (field; split; [exact N|exact W]).
      destruct (Rle_dec 0 (K_scale d / K)) as [P|P].
      - rewrite sqrt_mult by (try exact P; left; apply Rinv_0_lt_compat; exact W2). rewrite sqrt_inv by exact W2 || rewrite <- inv_sqrt by exact W2.
        change (w * w) with (Rsqr w). rewrite sqrt_Rsqr_abs. field. apply Rabs_no_R0; exact W.
      - rewrite !sqrt_neg_0; [ring|lra|]. assert (0 < / (w * w)) by (apply Rinv_0_lt_compat; exact W2). nra. }
    f_equal. apply f_equal2; apply ext2; intros t x y; destruct (unscaled_we d w t x y) as [A B]; rewrite ?A, ?B, <- S; ring.
Qed.
