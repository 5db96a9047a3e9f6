(** * Samples in the plane *)
From Coq Require Import Reals List Lra Lia Bool FunctionalExtensionality.
From Coquelicot Require Import Coquelicot.
From Verif Require Import FieldModel SampleModel SampleSpec SampleThms SampleThms2.
Import ListNotations.
Local Open Scope R_scope.

Lemma ext2 (f g : fld2) : (forall t x y, f t x y = g t x y) -> f = g.
Proof. intros H. apply functional_extensionality; intros t. apply functional_extensionality; intros x. apply functional_extensionality; intros y. apply H. Qed.
Lemma D2t_is f g : p_t f g -> D2t exact2 f = g.
Proof. intros H. apply ext2. intros t x y. apply is_derive_unique. apply H. Qed.
Lemma D2x_is f g : p_x f g -> D2x exact2 f = g.
Proof. intros H. apply ext2. intros t x y. apply is_derive_unique. apply H. Qed.
Lemma D2y_is f g : p_y f g -> D2y exact2 f = g.
Proof. intros H. apply ext2. intros t x y. apply is_derive_unique. apply H. Qed.

Ltac open2 := cbv beta iota zeta delta [add2 sub2 neg2 mul2 scale2 a1 a2 phi_2 P_2 E_2 B_2 u_tgv p_tgv total dot2 cross2 scross2 vadd2 vsub2 vscale2 vmul2
  eigen_a eigen_b pn_u pn_ut pn_ux pn_uy pn_vx pn_vy pn_psi pn_psi_x pn_psi_y pn_psi_xx pn_psi_yy pn_sp pn_sp_x pn_sp_y pn_p pn_pt pn_px pn_py pn_n log2 zero2 Rdiv].
Ltac der2 := let t := fresh "t" in let x := fresh "x" in let y := fresh "y" in
  intros t x y; open2; auto_derive; [repeat split; trivial | cbn [pow]; first [ring | field | unfold Rminus; ring | lra]].

Ltac fin := cbn [pow]; lazymatch goal with |- ?a = ?b => change (@eq R a b) end; first [ring | field | unfold Rdiv; ring].

(** ** Taylor-Green *)
Section TGV.
Variable Re : R.
Notation e t := (exp (-2 * PI ^ 2 * t / Re)).
Lemma e_sq t : exp (-4 * PI ^ 2 * t / Re) = e t * e t.
Proof. rewrite <- exp_plus. f_equal. unfold Rdiv. ring. Qed.
Notation ux := (fun t x y => - PI * cos (PI * x) * cos (PI * y) * e t).
Notation uy := (fun t x y => PI * sin (PI * x) * sin (PI * y) * e t).
Notation vx := (fun t x y => - PI * sin (PI * x) * sin (PI * y) * e t).
Notation vy := (fun t x y => PI * cos (PI * x) * cos (PI * y) * e t).
Notation ut := (fun t x y => 2 * PI ^ 2 * / Re * sin (PI * x) * cos (PI * y) * e t).
Notation vt := (fun t x y => - 2 * PI ^ 2 * / Re * cos (PI * x) * sin (PI * y) * e t).
Notation rt := (fun t x y => - 2 * PI * sin (PI * x) * sin (PI * y) * e t).
Notation rx := (fun t x y => - 2 * PI ^ 2 * cos (PI * x) * sin (PI * y) * e t).
Notation ry := (fun t x y => - 2 * PI ^ 2 * sin (PI * x) * cos (PI * y) * e t).
Notation px := (fun t x y => - PI * sin (PI * x) * cos (PI * x) * e t * e t).
Notation py := (fun t x y => - PI * sin (PI * y) * cos (PI * y) * e t * e t).
Lemma tgv_d : p_x (a1 (u_tgv Re)) ux /\ p_y (a1 (u_tgv Re)) uy /\ p_x (a2 (u_tgv Re)) vx /\ p_y (a2 (u_tgv Re)) vy /\
  p_t (a1 (u_tgv Re)) ut /\ p_t (a2 (u_tgv Re)) vt.
Proof. conj; der2. Qed.
Lemma tgv_p : p_x (p_tgv Re) px /\ p_y (p_tgv Re) py.
Proof.
  assert (S : forall r, sin (2 * PI * r) = 2 * sin (PI * r) * cos (PI * r)) by (intros r; rewrite <- sin_2a; f_equal; ring).
  split; intros t x y; cbv beta.
  - replace (- PI * sin (PI * x) * cos (PI * x) * e t * e t) with (25 / 100 * (- (2 * PI * sin (2 * PI * x))) * exp (-4 * PI ^ 2 * t / Re)).
    + unfold p_tgv. auto_derive; [trivial|]. fin.
    + rewrite e_sq, S. field_simplify. lra.
  - replace (- PI * sin (PI * y) * cos (PI * y) * e t * e t) with (25 / 100 * (- (2 * PI * sin (2 * PI * y))) * exp (-4 * PI ^ 2 * t / Re)).
    + unfold p_tgv. auto_derive; [trivial|]. fin.
    + rewrite e_sq, S. field_simplify. lra.
Qed.
Lemma pyth r : cos r * cos r = 1 - sin r * sin r.
Proof. generalize (sin2_cos2 r). unfold Rsqr. lra. Qed.
Lemma tgv_solenoidal : solenoidal2 (u_tgv Re).
Proof. destruct tgv_d as (A & _ & _ & B & _). exists ux, vy. conj; try assumption. intros; ring. Qed.
Lemma tgv_equation : navier_stokes2 (/ Re) (u_tgv Re) (p_tgv Re) (V2 zero2 zero2).
Proof.
  destruct tgv_d as (A & B & C & D & E & F). destruct tgv_p as (G & H).
  exists (V2 ut vt), (fun t x y => a1 (u_tgv Re) t x y * ux t x y + a2 (u_tgv Re) t x y * uy t x y),
    (fun t x y => a1 (u_tgv Re) t x y * vx t x y + a2 (u_tgv Re) t x y * vy t x y),
    (fun t x y => 2 * PI ^ 2 * sin (PI * x) * cos (PI * y) * e t), (fun t x y => - 2 * PI ^ 2 * cos (PI * x) * sin (PI * y) * e t), (V2 px py).
  split; [split; assumption|]. split; [exists ux, uy; conj; try assumption; reflexivity|]. split; [exists vx, vy; conj; try assumption; reflexivity|].
  split. { exists ux, uy, (fun t x y => PI ^ 2 * sin (PI * x) * cos (PI * y) * e t), (fun t x y => PI ^ 2 * sin (PI * x) * cos (PI * y) * e t).
           conj; try assumption; try der2. intros; ring. }
  split. { exists vx, vy, (fun t x y => - PI ^ 2 * cos (PI * x) * sin (PI * y) * e t), (fun t x y => - PI ^ 2 * cos (PI * x) * sin (PI * y) * e t).
           conj; try assumption; try der2. intros; ring. }
  split; [split; assumption|].
  intros t x y. cbn [a1 a2 u_tgv]. unfold zero2. assert (Px := pyth (PI * x)). assert (Py := pyth (PI * y)).
  set (sx := sin (PI * x)) in *. set (cx := cos (PI * x)) in *. set (sy := sin (PI * y)) in *. set (cy := cos (PI * y)) in *. set (k := e t).
  split.
  - transitivity (PI * sx * cx * k * k * (cy * cy + sy * sy - 1)); [rewrite Py; ring|ring].
  - transitivity (PI * sy * cy * k * k * (cx * cx + sx * sx - 1)); [rewrite Px; ring|ring].
Qed.
Lemma tgv_force t x y : at2 (f_tgv exact2 Re) t x y = (0, 0).
Proof.
  destruct tgv_d as (A & B & C & D & E & F). destruct tgv_p as (G & H).
  unfold f_tgv, time2, curl2, grad2, rot2.
  rewrite (D2t_is _ _ E), (D2t_is _ _ F), (D2x_is _ _ C), (D2y_is _ _ B).
  assert (Rt : sub2 vx uy = rt) by (apply ext2; intros; open2; ring). rewrite !Rt.
  rewrite (D2x_is rt rx) by der2. rewrite (D2y_is rt ry) by der2.
  assert (Kx : p_x (total (p_tgv Re) (u_tgv Re)) (fun t x y => px t x y + (a1 (u_tgv Re) t x y * ux t x y + a2 (u_tgv Re) t x y * vx t x y))).
  { intros r s q. apply derive_plus; [apply G|]. open2. auto_derive; [trivial|]. fin. }
  assert (Ky : p_y (total (p_tgv Re) (u_tgv Re)) (fun t x y => py t x y + (a1 (u_tgv Re) t x y * uy t x y + a2 (u_tgv Re) t x y * vy t x y))).
  { intros r s q. apply derive_plus; [apply H|]. open2. auto_derive; [trivial|]. fin. }
  rewrite (D2x_is _ _ Kx), (D2y_is _ _ Ky).
  assert (Px := pyth (PI * x)). assert (Py := pyth (PI * y)).
  unfold at2. open2. set (k := exp _). 
  set (sx := sin (PI * x)) in *. set (cx := cos (PI * x)) in *. set (sy := sin (PI * y)) in *. set (cy := cos (PI * y)) in *.
  apply f_equal2.
  - transitivity (PI * sx * cx * k * k * (cy * cy + sy * sy - 1)); [ring|rewrite Py; ring].
  - transitivity (PI * sy * cy * k * k * (cx * cx + sx * sx - 1)); [ring|rewrite Px; ring].
Qed.
Lemma tgv_periodic : periodic2 2 (a1 (u_tgv Re)) /\ periodic2 2 (a2 (u_tgv Re)) /\ periodic2 2 (p_tgv Re).
Proof.
  assert (S : forall r, sin (PI * (r + 2)) = sin (PI * r)).
  { intros r. replace (PI * (r + 2)) with (PI * r + 2 * PI) by ring. rewrite sin_plus, sin_2PI, cos_2PI. ring. }
  assert (C : forall r, cos (PI * (r + 2)) = cos (PI * r)).
  { intros r. replace (PI * (r + 2)) with (PI * r + 2 * PI) by ring. rewrite cos_plus, sin_2PI, cos_2PI. ring. }
  assert (C2 : forall r, cos (2 * PI * (r + 2)) = cos (2 * PI * r)).
  { intros r. rewrite !Rmult_assoc, !cos_2a, S, C. reflexivity. }
  unfold periodic2. conj; intros t x y; unfold u_tgv, p_tgv; cbn [a1 a2]; rewrite ?S, ?C, ?C2; split; reflexivity.
Qed.
End TGV.

(** ** MHD in the plane *)
Lemma u2_explicit : u_2 exact2 = V2 (fun t x y => 2 * cos y * exp (- t)) (neg2 (fun t x y => 2 * sin x * exp (- t))).
Proof.
  unfold u_2, curl2. rewrite (D2y_is phi_2 (fun t x y => 2 * cos y * exp (- t))) by der2.
  rewrite (D2x_is phi_2 (fun t x y => 2 * sin x * exp (- t))) by der2. reflexivity.
Qed.
Lemma mhd2_u : solenoidal2 (u_2 exact2).
Proof. rewrite u2_explicit. exists zero2, zero2. conj; try der2. intros; open2; ring. Qed.
Lemma mhd2_B : solenoidal2 B_2.
Proof.
  exists (fun t x y => cos x * cos y * (2 - exp t)), (fun t x y => - cos x * cos y * (2 - exp t)). conj; try der2. intros; ring.
Qed.
Lemma mhd2_faraday : faraday2 E_2 B_2.
Proof.
  exists (V2 (fun t x y => sin x * cos y * exp t) (fun t x y => - (cos x * sin y * exp t))),
    (V2 (fun t x y => - (sin x * cos y * exp t)) (fun t x y => cos x * sin y * exp t)).
  split. { exists (fun t x y => cos x * sin y * exp t). conj; try der2. reflexivity. }
  split. { split; der2. } intros; cbn [a1 a2]. split; ring.
Qed.
Notation jb := (fun t x y => 2 * sin x * sin y * (2 - exp t)).
Lemma mhd2_rot : rot2 exact2 B_2 = jb.
Proof.
  unfold rot2. rewrite (D2x_is _ (fun t x y => sin x * sin y * (2 - exp t))) by der2.
  rewrite (D2y_is _ (fun t x y => - (sin x * sin y * (2 - exp t)))) by der2. apply ext2. intros; open2; ring.
Qed.
Lemma mhd2_j : is_rot2 B_2 jb.
Proof.
  exists (fun t x y => sin x * sin y * (2 - exp t)), (fun t x y => - (sin x * sin y * (2 - exp t))). conj; try der2. intros; ring.
Qed.
Lemma mhd2_ohm Rm : exists j, is_rot2 B_2 j /\ forall t x y,
  source_m2 exact2 Rm (u_2 exact2) E_2 B_2 t x y
  = / Rm * j t x y - E_2 t x y - (a1 (u_2 exact2) t x y * a2 B_2 t x y - a2 (u_2 exact2) t x y * a1 B_2 t x y).
Proof.
  exists jb. split; [exact mhd2_j|]. intros t x y. unfold source_m2. rewrite mhd2_rot.
  unfold sub2, scale2, cross2, mul2, sub2, Rdiv. rewrite Rmult_1_l. reflexivity.
Qed.
Lemma mhd2_momentum c Rf : let u := u_2 exact2 in let f := source_f2 exact2 c Rf u P_2 B_2 in exists j, is_rot2 B_2 j /\
  navier_stokes2 (/ Rf) u (fun t x y => P_2 t x y - (a1 u t x y ^ 2 + a2 u t x y ^ 2) / 2)
    (V2 (fun t x y => a1 f t x y + c * (- (j t x y * a2 B_2 t x y))) (fun t x y => a2 f t x y + c * (j t x y * a1 B_2 t x y))).
Proof.
  cbv zeta. exists jb. split; [exact mhd2_j|]. unfold source_f2. rewrite !mhd2_rot, !u2_explicit.
  unfold time2, curl2, grad2, rot2. cbn [a1 a2].
  rewrite (D2t_is (fun t x y => 2 * cos y * exp (- t)) (fun t x y => - (2 * cos y * exp (- t)))) by der2.
  rewrite (D2t_is (neg2 (fun t x y => 2 * sin x * exp (- t))) (fun t x y => 2 * sin x * exp (- t))) by der2.
  rewrite (D2x_is (neg2 (fun t x y => 2 * sin x * exp (- t))) (fun t x y => - (2 * cos x * exp (- t)))) by der2.
  rewrite (D2y_is (fun t x y => 2 * cos y * exp (- t)) (fun t x y => - (2 * sin y * exp (- t)))) by der2.
  rewrite (D2y_is (sub2 _ _) (fun t x y => 2 * cos y * exp (- t))) by der2.
  rewrite (D2x_is (sub2 _ _) (fun t x y => 2 * sin x * exp (- t))) by der2.
  rewrite (D2x_is P_2 (fun t x y => cos x * sin y * exp (- t))) by der2.
  rewrite (D2y_is P_2 (fun t x y => sin x * cos y * exp (- t))) by der2.
  exists (V2 (fun t x y => - (2 * cos y * exp (- t))) (fun t x y => 2 * sin x * exp (- t))),
    (fun t x y => 4 * sin x * sin y * exp (- t) * exp (- t)), (fun t x y => - 4 * cos x * cos y * exp (- t) * exp (- t)),
    (fun t x y => - (2 * cos y * exp (- t))), (fun t x y => 2 * sin x * exp (- t)),
    (V2 (fun t x y => cos x * sin y * exp (- t) - 4 * sin x * cos x * exp (- t) * exp (- t))
        (fun t x y => sin x * cos y * exp (- t) + 4 * sin y * cos y * exp (- t) * exp (- t))).
  split. { split; der2. }
  split. { exists zero2, (fun t x y => - (2 * sin y * exp (- t))). conj; try der2. intros; open2; ring. }
  split. { exists (fun t x y => - (2 * cos x * exp (- t))), zero2. conj; try der2. intros; open2; ring. }
  split. { exists zero2, (fun t x y => - (2 * sin y * exp (- t))), zero2, (fun t x y => - (2 * cos y * exp (- t))). conj; try der2. intros; open2; ring. }
  split. { exists (fun t x y => - (2 * cos x * exp (- t))), zero2, (fun t x y => 2 * sin x * exp (- t)), zero2. conj; try der2. intros; open2; ring. }
  split. { split; der2. }
  intros t x y. open2. generalize (/ Rf). intros k. split; ring.
Qed.

(** ** the eigen solution *)
Lemma eigen_solves e : (exists d, is_div2 (eigen_b e) d /\ p_t (eigen_a e) d) /\ (exists g, is_grad2 (eigen_a e) g /\ is_time2 (eigen_b e) g).
Proof.
  assert (Q : om_t e * om_t e = om_x e ^ 2 + om_y e ^ 2).
  { unfold om_t. rewrite sqrt_sqrt; [reflexivity|]. generalize (pow2_ge_0 (om_x e)) (pow2_ge_0 (om_y e)). lra. }
  split.
  - exists (fun t x y => (om_x e ^ 2 + om_y e ^ 2) * cos (om_x e * x + phi_x e) * sin (om_y e * y + phi_y e)
                         * (2 * sin (om_t e * t + phi_t e) + 3 * cos (om_t e * t + phi_t e))).
    split.
    + exists (fun t x y => om_x e ^ 2 * cos (om_x e * x + phi_x e) * sin (om_y e * y + phi_y e) * (2 * sin (om_t e * t + phi_t e) + 3 * cos (om_t e * t + phi_t e))),
        (fun t x y => om_y e ^ 2 * cos (om_x e * x + phi_x e) * sin (om_y e * y + phi_y e) * (2 * sin (om_t e * t + phi_t e) + 3 * cos (om_t e * t + phi_t e))).
      conj; try der2. intros; ring.
    + intros t x y. rewrite <- Q. open2. auto_derive; [trivial|]. fin.
  - exists (V2 (fun t x y => om_t e * om_x e * sin (om_x e * x + phi_x e) * sin (om_y e * y + phi_y e) * (2 * cos (om_t e * t + phi_t e) - 3 * sin (om_t e * t + phi_t e)))
               (fun t x y => - (om_t e * om_y e * cos (om_x e * x + phi_x e) * cos (om_y e * y + phi_y e) * (2 * cos (om_t e * t + phi_t e) - 3 * sin (om_t e * t + phi_t e))))).
    split; split; der2.
Qed.
