From Coq Require Import List Arith Bool Reals Lra Lia.
From Verif Require Import MappingModel RegionModel RegionSpec RegionProofs.
Import ListNotations.
Local Open Scope R_scope.

(** * angles *)
Lemma pow2_gt_0 x : x <> 0 -> 0 < x ^ 2. Proof. intros H. replace (x ^ 2) with (x²) by (unfold Rsqr; ring). now apply Rsqr_pos_lt. Qed.
Lemma radius_pos c p : p <> c -> 0 < radius c p.
Proof.
  intros N. unfold radius. apply sqrt_lt_R0.
  assert (H : fst p - fst c <> 0 \/ snd p - snd c <> 0).
  { destruct (Req_dec (fst p - fst c) 0) as [E1 |]; [| now left]. right. intros E2. apply N. destruct p, c. cbn in *. f_equal; lra. }
  destruct H as [H | H]; [pose proof (pow2_ge_0 (snd p - snd c)); pose proof (pow2_gt_0 _ H) | pose proof (pow2_ge_0 (fst p - fst c)); pose proof (pow2_gt_0 _ H)]; lra.
Qed.
Lemma radius_sq c p : radius c p * radius c p = (fst p - fst c) ^ 2 + (snd p - snd c) ^ 2.
Proof. unfold radius. apply sqrt_sqrt. pose proof (pow2_ge_0 (fst p - fst c)). pose proof (pow2_ge_0 (snd p - snd c)). lra. Qed.
Lemma angle_unfold c p : angle c p =
  if Rlt_dec (snd p - snd c) 0 then 2 * PI - acos ((fst p - fst c) / radius c p) else acos ((fst p - fst c) / radius c p).
Proof.
  unfold angle, radius. replace (1 ^ 2 + 0 ^ 2) with 1 by ring. rewrite sqrt_1.
  rewrite !Rmult_1_l, Rmult_0_l, Rplus_0_r. reflexivity.
Qed.
Lemma ratio_bound c p : p <> c -> -1 <= (fst p - fst c) / radius c p <= 1.
Proof.
  intros N. pose proof (radius_pos c p N) as P. pose proof (radius_sq c p) as S. pose proof (pow2_ge_0 (snd p - snd c)).
  assert (A : - radius c p <= fst p - fst c <= radius c p) by (split; nra).
  split; apply (Rmult_le_reg_r (radius c p)); auto; unfold Rdiv; rewrite Rmult_assoc, Rinv_l; lra.
Qed.
Lemma angle_polar c p : p <> c ->
  fst c + radius c p * cos (angle c p) = fst p /\ snd c + radius c p * sin (angle c p) = snd p.
Proof.
  intros N. pose proof (radius_pos c p N) as P. pose proof (radius_sq c p) as S. pose proof (ratio_bound c p N) as B.
  assert (C : radius c p * cos (acos ((fst p - fst c) / radius c p)) = fst p - fst c) by (rewrite cos_acos by exact B; field; lra).
  assert (D : radius c p * sin (acos ((fst p - fst c) / radius c p)) = Rabs (snd p - snd c)).
  { rewrite sin_acos by exact B. apply Rsqr_inj; [apply Rmult_le_pos; [lra | apply sqrt_pos] | apply Rabs_pos |].
    rewrite <- Rsqr_abs. rewrite Rsqr_mult, Rsqr_sqrt.
    - unfold Rsqr. replace (radius c p * radius c p * (1 - (fst p - fst c) / radius c p * ((fst p - fst c) / radius c p)))
        with (radius c p * radius c p - (fst p - fst c) ^ 2) by (field; lra). rewrite S. ring.
    - unfold Rsqr. nra. }
  rewrite angle_unfold. destruct (Rlt_dec (snd p - snd c) 0) as [L | L].
  - rewrite cos_minus, sin_minus, cos_2PI, sin_2PI, !Rmult_0_l, Rplus_0_r, Rmult_1_l.
    replace (0 - 1 * sin (acos ((fst p - fst c) / radius c p))) with (- sin (acos ((fst p - fst c) / radius c p))) by ring.
    rewrite Rabs_left in D by exact L. split; lra.
  - rewrite Rabs_pos_eq in D by lra. split; lra.
Qed.
Lemma angle_range c p : p <> c -> 0 <= angle c p < 2 * PI.
Proof.
  intros N. pose proof (ratio_bound c p N) as B. pose proof (acos_bound ((fst p - fst c) / radius c p)) as A. pose proof PI_RGT_0.
  pose proof (angle_polar c p N) as [_ Q].
  rewrite angle_unfold in *. destruct (Rlt_dec (snd p - snd c) 0) as [L | L]; [| lra].
  split; [lra |]. destruct (Req_dec (acos ((fst p - fst c) / radius c p)) 0) as [E |]; [| lra].
  rewrite E, Rminus_0_r, sin_2PI in Q. lra.
Qed.

(** * arcs *)
Lemma arc_start cw c p q : p <> c -> arc cw c p q 0 = p.
Proof.
  intros N. unfold arc, arc_theta. rewrite Rmult_0_l, Rplus_0_l. destruct (angle_polar c p N) as [P1 P2]. rewrite P1, P2. now destruct p.
Qed.
Lemma theta_end cw c p q : exists j : R, (j = 0 \/ j = 1 \/ j = -1) /\ arc_theta cw c p q 1 = angle c q + j * (2 * PI).
Proof.
  unfold arc_theta. destruct cw; destruct (Rlt_dec _ _); [exists (-1) | exists 0 | exists 1 | exists 0]; split; auto; ring.
Qed.
Lemma arc_end cw c p q : q <> c -> radius c p = radius c q -> arc cw c p q 1 = q.
Proof.
  intros N E. unfold arc. destruct (theta_end cw c p q) as [j [Hj ->]]. rewrite E.
  assert (T : cos (angle c q + j * (2 * PI)) = cos (angle c q) /\ sin (angle c q + j * (2 * PI)) = sin (angle c q)).
  { destruct Hj as [-> | [-> | ->]]; rewrite cos_plus, sin_plus; rewrite ?Rmult_0_l, ?Rmult_1_l; rewrite ?cos_0, ?sin_0, ?cos_2PI, ?sin_2PI;
      [split; ring | split; ring |].
    replace (-1 * (2 * PI)) with (- (2 * PI)) by ring. rewrite cos_neg, sin_neg, cos_2PI, sin_2PI. split; ring. }
  destruct T as [T1 T2]. rewrite T1, T2. destruct (angle_polar c q N) as [P1 P2]. rewrite P1, P2. now destruct q.
Qed.
Lemma arc_on_circle cw c p q o : radius c (arc cw c p q o) = radius c p.
Proof.
  unfold arc. generalize (arc_theta cw c p q o). intros th. unfold radius at 1. cbn [fst snd].
  replace ((fst c + radius c p * cos th - fst c) ^ 2 + (snd c + radius c p * sin th - snd c) ^ 2)
    with (radius c p * radius c p * (Rsqr (sin th) + Rsqr (cos th))) by (unfold Rsqr; ring).
  rewrite sin2_cos2, Rmult_1_r. apply sqrt_square. apply sqrt_pos.
Qed.
Lemma arc_turn (cw : bool) c p q : p <> c -> q <> c ->
  if cw then - (2 * PI) < arc_span cw c p q <= 0 else 0 <= arc_span cw c p q < 2 * PI.
Proof.
  intros Np Nq. pose proof (angle_range c p Np). pose proof (angle_range c q Nq). unfold arc_span, arc_theta.
  destruct cw; destruct (Rlt_dec _ _); split; lra.
Qed.
Lemma arc_param cw c p q o :
  arc cw c p q o = (fst c + radius c p * cos (angle c p + o * arc_span cw c p q), snd c + radius c p * sin (angle c p + o * arc_span cw c p q)).
Proof.
  unfold arc. replace (arc_theta cw c p q o) with (angle c p + o * arc_span cw c p q); [reflexivity |].
  unfold arc_span, arc_theta. ring.
Qed.

(** * transfinite interpolation *)
Lemma tf2_sides (x0 x1 y0 y1 : curve) :
  (forall f t, (f < 4)%nat -> at2 (tf2 x0 x1 y0 y1) (side2 f t) = nth f [x0; x1; y0; y1] x0 t) <->
  (x0 0 = y0 0 /\ x0 1 = y1 0 /\ x1 0 = y0 1 /\ x1 1 = y1 1).
Proof.
  split.
  - intros H.
    assert (A := fun t => H 0%nat t ltac:(lia)). assert (B := fun t => H 1%nat t ltac:(lia)).
    assert (C := fun t => H 2%nat t ltac:(lia)). assert (D := fun t => H 3%nat t ltac:(lia)).
    unfold at2, side2 in *. cbn [fst snd nth] in *.
    refine (conj _ (conj _ (conj _ _))).
    + now rewrite <- (A 0), <- (C 0).
    + now rewrite <- (A 1), <- (D 0).
    + now rewrite <- (B 0), <- (C 1).
    + now rewrite <- (B 1), <- (D 1).
  - intros (E1 & E2 & E3 & E4) f t Hf. destruct f as [| [| [| [| f]]]]; try lia;
      unfold at2, side2, tf2, transfinite, tf_one, px, py; cbn [fst snd nth]; rewrite <- ?E1, <- ?E2, <- ?E3, <- ?E4.
    + destruct (x0 t). cbn. f_equal; ring.
    + destruct (x1 t). cbn. f_equal; ring.
    + rewrite E1, E3. destruct (y0 t). cbn. f_equal; ring.
    + rewrite E2, E4. destruct (y1 t). cbn. f_equal; ring.
Qed.
Lemma line_0 p q : line p q 0 = p. Proof. unfold line. destruct p. cbn. f_equal; ring. Qed.
Lemma line_1 p q : line p q 1 = q. Proof. unfold line. destruct p, q. cbn. f_equal; ring. Qed.

(** * the channel with a cylinder *)
Section Cylinder.
Variables r dl dr h hl : R.
Hypothesis Hr : 0 < r.
Let q := half_r r.
Lemma q_sq : q * q = r * r / 2.
Proof. unfold q, half_r. pose proof (sqrt_sqrt 2 ltac:(lra)). nra. Qed.
Lemma q_pos : 0 < q.
Proof. unfold q, half_r. assert (0 < sqrt 2) by (apply sqrt_lt_R0; lra). nra. Qed.
Lemma corner_ne (p : pt2) : fst p <> 0 -> p <> (0, 0). Proof. intros H E. rewrite E in H. now apply H. Qed.
Lemma corner_radius (x y : R) : x * x = q * q -> y * y = q * q -> radius (0, 0) (x, y) = r.
Proof.
  intros Hx Hy. unfold radius. cbn [fst snd]. replace ((x - 0) ^ 2 + (y - 0) ^ 2) with (x * x + y * y) by ring.
  rewrite Hx, Hy, q_sq. replace (r * r / 2 + r * r / 2) with (r * r) by field. apply sqrt_square. lra.
Qed.
Ltac corner := pose proof q_pos; apply corner_ne; cbn [fst]; lra.
Ltac rad := rewrite !corner_radius; [reflexivity | ring ..].
Lemma tf1 : forall f t, (f < 4)%nat -> at2 (cylinder r dl dr h hl 1) (side2 f t) =
  nth f [line (- q, - hl) (- q, - q); line (q, - hl) (q, - q); line (- q, - hl) (q, - hl); arc false (0, 0) (- q, - q) (q, - q)] (line (0,0) (0,0)) t.
Proof.
  intros f t Hf. unfold cylinder. fold q. rewrite (proj2 (tf2_sides _ _ _ _)); [| | exact Hf].
  - destruct f as [| [| [| [| f]]]]; try lia; reflexivity.
  - rewrite !line_0, !line_1, arc_start, arc_end; [auto | corner | rad | corner].
Qed.
Lemma tf3 : forall f t, (f < 4)%nat -> at2 (cylinder r dl dr h hl 3) (side2 f t) =
  nth f [line (- dl, - q) (- dl, q); arc true (0, 0) (- q, - q) (- q, q); line (- dl, - q) (- q, - q); line (- dl, q) (- q, q)] (line (0,0) (0,0)) t.
Proof.
  intros f t Hf. unfold cylinder. fold q. rewrite (proj2 (tf2_sides _ _ _ _)); [| | exact Hf].
  - destruct f as [| [| [| [| f]]]]; try lia; reflexivity.
  - rewrite !line_0, !line_1, arc_start, arc_end; [auto | corner | rad | corner].
Qed.
Lemma tf4 : forall f t, (f < 4)%nat -> at2 (cylinder r dl dr h hl 4) (side2 f t) =
  nth f [arc false (0, 0) (q, - q) (q, q); line (dr, - q) (dr, q); line (q, - q) (dr, - q); line (q, q) (dr, q)] (line (0,0) (0,0)) t.
Proof.
  intros f t Hf. unfold cylinder. fold q. rewrite (proj2 (tf2_sides _ _ _ _)); [| | exact Hf].
  - destruct f as [| [| [| [| f]]]]; try lia; reflexivity.
  - rewrite !line_0, !line_1, arc_start, arc_end; [auto | corner | rad | corner].
Qed.
Lemma tf6 : forall f t, (f < 4)%nat -> at2 (cylinder r dl dr h hl 6) (side2 f t) =
  nth f [line (- q, q) (- q, h - hl); line (q, q) (q, h - hl); arc true (0, 0) (- q, q) (q, q); line (- q, h - hl) (q, h - hl)] (line (0,0) (0,0)) t.
Proof.
  intros f t Hf. unfold cylinder. fold q. rewrite (proj2 (tf2_sides _ _ _ _)); [| | exact Hf].
  - destruct f as [| [| [| [| f]]]]; try lia; reflexivity.
  - rewrite !line_0, !line_1, arc_start, arc_end; [auto | corner | rad | corner].
Qed.
(** angles of the corners *)
Lemma acos_q (s : R) : (s = 1 -> acos (s * q / r) = PI / 4) /\ (s = -1 -> acos (s * q / r) = 3 * (PI / 4)).
Proof.
  pose proof PI_RGT_0. assert (Q : q / r = 1 / sqrt 2).
  { unfold q, half_r. pose proof (sqrt_sqrt 2 ltac:(lra)) as S. pose proof sqrt2_neq_0. replace (1/2 * r * sqrt 2 / r) with (sqrt 2 / 2) by (field; lra).
    rewrite <- S at 2. field. exact H0. }
  split; intros ->.
  - replace (1 * q / r) with (q / r) by (field; lra). rewrite Q, <- cos_PI4. apply acos_cos. lra.
  - replace (-1 * q / r) with (- (q / r)) by (field; lra). rewrite Q.
    replace (- (1 / sqrt 2)) with (cos (3 * (PI / 4))) by (rewrite cos_3PI4; field; apply sqrt2_neq_0). apply acos_cos. lra.
Qed.
Lemma angle_pp : angle (0, 0) (q, q) = PI / 4.
Proof.
  rewrite angle_unfold, corner_radius by reflexivity. cbn [fst snd]. pose proof q_pos. destruct (Rlt_dec _ _); [lra |].
  rewrite <- (proj1 (acos_q 1) eq_refl). f_equal. field. lra.
Qed.
Lemma angle_mp : angle (0, 0) (- q, q) = 3 * (PI / 4).
Proof.
  rewrite angle_unfold, corner_radius by ring. cbn [fst snd]. pose proof q_pos. destruct (Rlt_dec _ _); [lra |].
  rewrite <- (proj2 (acos_q (-1)) eq_refl). f_equal. field. lra.
Qed.
Lemma angle_mm : angle (0, 0) (- q, - q) = 5 * (PI / 4).
Proof.
  rewrite angle_unfold, corner_radius by ring. cbn [fst snd]. pose proof q_pos. destruct (Rlt_dec _ _); [| lra].
  replace ((- q - 0) / r) with (-1 * q / r) by (field; lra). rewrite (proj2 (acos_q (-1)) eq_refl). field.
Qed.
Lemma angle_pm : angle (0, 0) (q, - q) = 7 * (PI / 4).
Proof.
  rewrite angle_unfold, corner_radius by ring. cbn [fst snd]. pose proof q_pos. destruct (Rlt_dec _ _); [| lra].
  replace ((q - 0) / r) with (1 * q / r) by (field; lra). rewrite (proj1 (acos_q 1) eq_refl). field.
Qed.
Ltac span := unfold arc_span, arc_theta; pose proof PI_RGT_0; destruct (Rlt_dec _ _); lra.
Lemma arc_bottom t : arc false (0, 0) (- q, - q) (q, - q) t = (r * cos (5 * (PI / 4) + t * (PI / 2)), r * sin (5 * (PI / 4) + t * (PI / 2))).
Proof.
  rewrite arc_param. assert (E : arc_span false (0, 0) (- q, - q) (q, - q) = PI / 2) by (unfold arc_span, arc_theta; rewrite angle_mm, angle_pm; span).
  rewrite E, angle_mm, corner_radius by ring. cbn [fst snd]. now rewrite !Rplus_0_l.
Qed.
Lemma arc_left t : arc true (0, 0) (- q, - q) (- q, q) t = (r * cos (5 * (PI / 4) - t * (PI / 2)), r * sin (5 * (PI / 4) - t * (PI / 2))).
Proof.
  rewrite arc_param. assert (E : arc_span true (0, 0) (- q, - q) (- q, q) = - (PI / 2)) by (unfold arc_span, arc_theta; rewrite angle_mm, angle_mp; span).
  rewrite E, angle_mm, corner_radius by ring. cbn [fst snd]. rewrite !Rplus_0_l. replace (5 * (PI / 4) + t * - (PI / 2)) with (5 * (PI / 4) - t * (PI / 2)) by ring. reflexivity.
Qed.
Lemma arc_right t : arc false (0, 0) (q, - q) (q, q) t = (r * cos (7 * (PI / 4) + t * (PI / 2)), r * sin (7 * (PI / 4) + t * (PI / 2))).
Proof.
  rewrite arc_param. assert (E : arc_span false (0, 0) (q, - q) (q, q) = PI / 2) by (unfold arc_span, arc_theta; rewrite angle_pm, angle_pp; span).
  rewrite E, angle_pm, corner_radius by ring. cbn [fst snd]. now rewrite !Rplus_0_l.
Qed.
Lemma arc_top t : arc true (0, 0) (- q, q) (q, q) t = (r * cos (3 * (PI / 4) - t * (PI / 2)), r * sin (3 * (PI / 4) - t * (PI / 2))).
Proof.
  rewrite arc_param. assert (E : arc_span true (0, 0) (- q, q) (q, q) = - (PI / 2)) by (unfold arc_span, arc_theta; rewrite angle_mp, angle_pp; span).
  rewrite E, angle_mp, corner_radius by ring. cbn [fst snd]. rewrite !Rplus_0_l. replace (3 * (PI / 4) + t * - (PI / 2)) with (3 * (PI / 4) - t * (PI / 2)) by ring. reflexivity.
Qed.
Ltac regions8 n := destruct n as [| [| [| [| [| [| [| [| ?]]]]]]]]; try lia.
Ltac sides := cbn [opposite Nat.even Nat.pred]; rewrite ?tf1, ?tf3, ?tf4, ?tf6 by lia; unfold at2, side2, cylinder, linear2; cbn [fst snd nth]; fold q.
Lemma cylinder_glued : glued2 8 (neighbour cylinder_rmap) (cylinder r dl dr h hl) (fun _ => 0).
Proof.
  intros n f n' Hn Hf H. regions8 n; faces4 f; cbn in H; try discriminate; injection H as <-;
    (split; [lia |]; split; [reflexivity |]; exists 0; split; [now left |]; intros t; sides;
     unfold line, moved2; cbn; f_equal; ring).
Qed.
Definition cylinder_walls (n f : nat) (p : pt2) : Prop :=
  match n, f with
  | 0%nat, 0%nat | 3%nat, 0%nat | 5%nat, 0%nat => fst p = - dl
  | 2%nat, 1%nat | 4%nat, 1%nat | 7%nat, 1%nat => fst p = dr
  | 0%nat, 2%nat | 1%nat, 2%nat | 2%nat, 2%nat => snd p = - hl
  | 5%nat, 3%nat | 6%nat, 3%nat | 7%nat, 3%nat => snd p = h - hl
  | 1%nat, 3%nat | 3%nat, 1%nat | 4%nat, 0%nat | 6%nat, 2%nat => fst p ^ 2 + snd p ^ 2 = r ^ 2
  | _, _ => False
  end.
Lemma on_circle th : (r * cos th) ^ 2 + (r * sin th) ^ 2 = r ^ 2.
Proof. pose proof (sin2_cos2 th) as H. unfold Rsqr in H. replace ((r * cos th) ^ 2 + (r * sin th) ^ 2) with (r ^ 2 * (sin th * sin th + cos th * cos th)) by ring. rewrite H. ring. Qed.
Lemma cylinder_wall : walls2 8 (neighbour cylinder_rmap) (cylinder r dl dr h hl) cylinder_walls.
Proof.
  intros n f Hn Hf H t. regions8 n; faces4 f; cbn in H; try discriminate; sides; unfold cylinder_walls; cbn [nth];
    rewrite ?arc_bottom, ?arc_left, ?arc_right, ?arc_top; unfold line; cbn [fst snd]; try apply on_circle; ring.
Qed.
(** the four arcs: the whole circle, each quarter once *)
Lemma cylinder_arcs t :
  at2 (cylinder r dl dr h hl 1) (t, 1) = (r * cos (5 * (PI / 4) + t * (PI / 2)), r * sin (5 * (PI / 4) + t * (PI / 2))) /\
  at2 (cylinder r dl dr h hl 3) (1, t) = (r * cos (5 * (PI / 4) - t * (PI / 2)), r * sin (5 * (PI / 4) - t * (PI / 2))) /\
  at2 (cylinder r dl dr h hl 4) (0, t) = (r * cos (7 * (PI / 4) + t * (PI / 2)), r * sin (7 * (PI / 4) + t * (PI / 2))) /\
  at2 (cylinder r dl dr h hl 6) (t, 0) = (r * cos (3 * (PI / 4) - t * (PI / 2)), r * sin (3 * (PI / 4) - t * (PI / 2))).
Proof.
  refine (conj _ (conj _ (conj _ _))).
  - change (t, 1) with (side2 3 t). rewrite tf1 by lia. apply arc_bottom.
  - change (1, t) with (side2 1 t). rewrite tf3 by lia. apply arc_left.
  - change (0, t) with (side2 0 t). rewrite tf4 by lia. apply arc_right.
  - change (t, 0) with (side2 2 t). rewrite tf6 by lia. apply arc_top.
Qed.
End Cylinder.
