(** Proofs for C65. *)
From Coq Require Import List ZArith Reals Lia Lra Bool.
From Coquelicot Require Import Coquelicot.
From Verif Require Import MappingModel JacobianModel JacobianSpec JacobianProofs SignatureModel SignatureSpec.
Import List ListNotations.
Local Open Scope R_scope.
Local Notation mat := MappingModel.mat.

(** * rounding *)
Lemma Int_part_spec' x z : IZR z <= x < IZR z + 1 -> Int_part x = z.
Proof. intros [A B]. unfold Int_part. rewrite <- (up_tech x z A) by (rewrite plus_IZR; lra). lia. Qed.
Lemma nth_error_ext' {A} (l l' : list A) : (forall n, nth_error l n = nth_error l' n) -> l = l'.
Proof.
  revert l'. induction l as [| a l IH]; intros [| b l'] H; [reflexivity | discriminate (H 0%nat) | discriminate (H 0%nat) |].
  pose proof (H 0%nat) as E. injection E as ->. f_equal. apply IH. intros n. exact (H (S n)).
Qed.
Lemma rnd_near x z : Rabs (x - IZR z) < 1/2 -> rnd_R x = z.
Proof.
  intros H. apply Rabs_def2 in H. unfold rnd_R.
  destruct (Rle_dec (IZR z) x) as [L | L].
  - rewrite (Int_part_spec' x z) by lra.
    destruct (total_order_T (x - IZR z) (1/2)) as [[T | T] | T]; [reflexivity | lra | lra].
  - rewrite (Int_part_spec' x (z - 1)) by (rewrite minus_IZR; lra).
    destruct (total_order_T (x - IZR (z - 1)) (1/2)) as [[T | T] | T]; rewrite minus_IZR in T; [lra | lra | lia].
Qed.
Lemma rnd_close x : Rabs (x - IZR (rnd_R x)) <= 1/2.
Proof.
  unfold rnd_R. destruct (base_Int_part x) as [A B]. apply Rabs_le.
  destruct (total_order_T (x - IZR (Int_part x)) (1/2)) as [[T | T] | T].
  - lra.
  - destruct (Z.even (Int_part x)); rewrite ?plus_IZR; lra.
  - rewrite plus_IZR; lra.
Qed.
Lemma text_close n x y : text n x = text n y -> Rabs (x - y) <= / 10 ^ n.
Proof.
  intros H. unfold text in H. pose proof (rnd_close (x * 10 ^ n)) as A. pose proof (rnd_close (y * 10 ^ n)) as B. rewrite H in A.
  assert (P : 0 < 10 ^ n) by (apply pow_lt; lra).
  assert (C : Rabs (x * 10 ^ n - y * 10 ^ n) <= 1).
  { replace (x * 10 ^ n - y * 10 ^ n) with ((x * 10 ^ n - IZR (rnd_R (y * 10 ^ n))) + - (y * 10 ^ n - IZR (rnd_R (y * 10 ^ n)))) by ring.
    eapply Rle_trans; [apply Rabs_triang |]. rewrite Rabs_Ropp. lra. }
  replace (x * 10 ^ n - y * 10 ^ n) with ((x - y) * 10 ^ n) in C by ring. rewrite Rabs_mult, (Rabs_pos_eq (10 ^ n)) in C by lra.
  apply (Rmult_le_reg_r (10 ^ n)); [assumption |]. rewrite Rinv_l by lra. exact C.
Qed.

(** * sharing *)
Section Shared.
Context {P V : Type} (peq : forall p q : P, {p = q} + {p <> q}) (own : element -> P -> V).
Definition good (c : list ((kind * list (option Z)) * P * V)%type) (seen : list (element * P)%type) : Prop :=
  forall k p v, In (k, p, v) c -> exists e : element, In (e, p) seen /\ metric_signature e = inl k /\ v = own e p.
Lemma found_in (c : list ((kind * list (option Z)) * P * V)) k (p : P) (v : V) : found peq c k p = Some v -> In (k, p, v) c.
Proof.
  induction c as [| [[k' p'] v'] c IH]; [discriminate |]. cbn. destruct (key_eq_dec k' k) as [-> |]; [destruct (peq p' p) as [-> |] |]; intros H; auto.
  injection H as ->. now left.
Qed.
Lemma calls_from es : forall c seen, good c seen -> forall n e p, nth_error es n = Some (e, p) ->
  exists e', (In (e', p) seen \/ exists m, (m <= n)%nat /\ nth_error es m = Some (e', p)) /\ metric_signature e' = metric_signature e /\
    nth_error (calls peq own c es) n = Some (own e' p).
Proof.
  induction es as [| [e0 p0] es IH]; intros c seen G n e p H; [now destruct n |].
  cbn [calls]. destruct (shared peq own c e0 p0) as [v c'] eqn:SH. unfold shared in SH.
  assert (K : (exists e', (In (e', p0) seen \/ e' = e0) /\ metric_signature e' = metric_signature e0 /\ v = own e' p0) /\ good c' ((e0, p0) :: seen)).
  { destruct (metric_signature e0) as [k | i] eqn:M.
    - destruct (found peq c k p0) as [w |] eqn:F; injection SH as <- <-.
      + apply found_in in F. destruct (G _ _ _ F) as (e' & I & M' & ->). split; [exists e'; auto |]. intros k1 p1 v1 I1. destruct (G _ _ _ I1) as (e1 & ? & ? & ?). exists e1. cbn. auto.
      + split; [exists e0; auto |]. intros k1 p1 v1 [[= <- <- <-] | I1]; [exists e0; cbn; auto |]. destruct (G _ _ _ I1) as (e1 & ? & ? & ?). exists e1. cbn. auto.
    - injection SH as <- <-. split; [exists e0; auto |]. intros k1 p1 v1 I1. destruct (G _ _ _ I1) as (e1 & ? & ? & ?). exists e1. cbn. auto. }
  destruct K as [(e' & I & M & ->) G']. destruct n as [| n]; cbn in H |- *.
  - injection H as -> ->. exists e'. repeat split; auto. destruct I as [I | ->]; [now left | right]. exists 0%nat. auto.
  - destruct (IH c' _ G' n e p H) as (e1 & I1 & M1 & E1). exists e1. repeat split; auto. destruct I1 as [[[= <- <-] | I1] | (m & Hm & I1)].
    + right. exists 0%nat. split; [lia | reflexivity].
    + now left.
    + right. exists (S m). split; [lia | exact I1].
Qed.
Lemma calls_sound es n e p : nth_error es n = Some (e, p) ->
  exists e' m, (m <= n)%nat /\ nth_error es m = Some (e', p) /\ metric_signature e' = metric_signature e /\ nth_error (calls peq own [] es) n = Some (own e' p).
Proof.
  intros H. destruct (calls_from es [] [] (fun _ _ _ (F : In _ []) => match F with end) n e p H) as (e' & [[] | (m & Hm & I)] & M & E). exists e', m. auto.
Qed.
Lemma calls_right es : (forall e e' p p', In (e, p) es -> In (e', p') es -> metric_signature e = metric_signature e' -> own e p = own e' p) ->
  calls peq own [] es = map (fun ep => own (fst ep) (snd ep)) es.
Proof.
  intros H. apply nth_error_ext'. intros n. rewrite nth_error_map. destruct (nth_error es n) as [[e p] |] eqn:E; cbn.
  - destruct (calls_sound es n e p E) as (e' & m & _ & I & M & ->). f_equal. apply (H e' e p p); [eapply nth_error_In; eassumption | eapply nth_error_In; eassumption | assumption].
  - apply nth_error_None in E. apply nth_error_None. rewrite <- E. generalize (@nil ((kind * list (option Z)) * P * V)). clear. induction es as [| [e p] es IH]; intros c; [cbn; lia |]. cbn. destruct (shared _ _ _ _ _). cbn. specialize (IH l). lia.
Qed.
End Shared.

(** * angles *)
Lemma dist_pos A B : (dist A B) ^ 2 = (fst A - fst B) ^ 2 + (snd A - snd B) ^ 2.
Proof. unfold dist. rewrite pow2_sqrt; [reflexivity |]. apply Rplus_le_le_0_compat; apply pow2_ge_0. Qed.
Lemma dist_nonneg A B : 0 <= dist A B.
Proof. apply sqrt_pos. Qed.
Lemma dist_0 A B : dist A B = 0 -> A = B.
Proof.
  intros H. pose proof (dist_pos A B) as E. rewrite H in E. destruct A as [a b], B as [c d]; cbn [fst snd] in *. rewrite pow_ne_zero in E by lia.
  pose proof (pow2_ge_0 (a - c)). pose proof (pow2_ge_0 (b - d)).
  assert (a - c = 0) by (destruct (Req_dec (a - c) 0) as [Z | Z]; [exact Z | pose proof (pow2_gt_0 _ Z); lra]).
  assert (b - d = 0) by (destruct (Req_dec (b - d) 0) as [Z | Z]; [exact Z | pose proof (pow2_gt_0 _ Z); lra]).
  f_equal; lra.
Qed.
(** dot product of [B - A] and [C - A] *)
Notation dotp A B C := ((fst B - fst A) * (fst C - fst A) + (snd B - snd A) * (snd C - snd A)).
Lemma cosine A B C : dist A C ^ 2 + dist A B ^ 2 - dist B C ^ 2 = 2 * dotp A B C.
Proof. rewrite !dist_pos. ring. Qed.
Lemma lagrange_id A B C : dotp A B C ^ 2 + turn A B C ^ 2 = (dist A B) ^ 2 * (dist A C) ^ 2.
Proof. rewrite !dist_pos. unfold turn. ring. Qed.
Lemma cos_range A B C : A <> B -> A <> C -> -1 <= dotp A B C / (dist A B * dist A C) <= 1.
Proof.
  intros HB HC. pose proof (lagrange_id A B C) as L. pose proof (pow2_ge_0 (turn A B C)) as T.
  assert (b : 0 < dist A B) by (destruct (dist_nonneg A B) as [H | H]; [exact H | symmetry in H; now apply dist_0 in H]).
  assert (c : 0 < dist A C) by (destruct (dist_nonneg A C) as [H | H]; [exact H | symmetry in H; now apply dist_0 in H]).
  set (p := dotp A B C) in *. set (r := dist A B * dist A C). assert (R0 : 0 < r) by (apply Rmult_lt_0_compat; assumption).
  assert (S : p ^ 2 <= r ^ 2) by (unfold r; rewrite Rpow_mult_distr; lra).
  assert (S' : Rabs p <= Rabs r) by (apply Rsqr_le_abs_0; unfold Rsqr; nra). rewrite (Rabs_pos_eq r) in S' by lra. apply Rabs_le_between in S'.
  split; apply (Rmult_le_reg_r r); try assumption; unfold Rdiv; rewrite Rmult_assoc, Rinv_l by lra; lra.
Qed.
Lemma first_angle A B C : A <> B -> A <> C -> fst (fst (angles_of_triangle A B C)) = Some (acos (dotp A B C / (dist A B * dist A C)) * 180 / PI).
Proof.
  intros HB HC. unfold angles_of_triangle, quotient; cbn [fst].
  destruct (Req_EM_T (2 * dist A C * dist A B) 0) as [Z | Z].
  - exfalso. apply Rmult_integral in Z as [Z | Z]; [apply Rmult_integral in Z as [Z | Z]; [lra |] |]; apply dist_0 in Z; congruence.
  - cbn [degrees option_map]. rewrite cosine. do 4 f_equal. field. split; intros Q; apply Z; rewrite Q; ring.
Qed.
Lemma dist_sym A B : dist A B = dist B A.
Proof. unfold dist. f_equal. ring. Qed.
Lemma second_angle A B C : A <> B -> B <> C -> snd (fst (angles_of_triangle A B C)) = Some (acos (dotp B A C / (dist A B * dist B C)) * 180 / PI).
Proof.
  intros HB HC. unfold angles_of_triangle, quotient; cbn [fst snd].
  destruct (Req_EM_T (2 * dist B C * dist A B) 0) as [Z | Z].
  - exfalso. apply Rmult_integral in Z as [Z | Z]; [apply Rmult_integral in Z as [Z | Z]; [lra |] |]; apply dist_0 in Z; congruence.
  - cbn [degrees option_map]. pose proof (cosine B A C) as E. rewrite (dist_sym B A) in E. rewrite E. do 4 f_equal. field. split; intros Q; apply Z; rewrite Q; ring.
Qed.
Lemma third_angle A B C : A <> C -> B <> C -> snd (angles_of_triangle A B C) = Some (acos (dotp C A B / (dist A C * dist B C)) * 180 / PI).
Proof.
  intros HB HC. unfold angles_of_triangle, quotient; cbn [fst snd].
  destruct (Req_EM_T (2 * dist B C * dist A C) 0) as [Z | Z].
  - exfalso. apply Rmult_integral in Z as [Z | Z]; [apply Rmult_integral in Z as [Z | Z]; [lra |] |]; apply dist_0 in Z; congruence.
  - cbn [degrees option_map]. pose proof (cosine C A B) as E. rewrite (dist_sym C A), (dist_sym C B) in E. rewrite E. do 4 f_equal. field. split; intros Q; apply Z; rewrite Q; ring.
Qed.
Lemma angle_defined o p : o <> p -> exists t, angle o p = Some t /\ fst p - fst o = dist o p * cos t /\ snd p - snd o = dist o p * sin t.
Proof.
  intros H. unfold angle. replace (sqrt (1 ^ 2 + 0 ^ 2)) with 1 by (replace (1 ^ 2 + 0 ^ 2) with 1 by ring; now rewrite sqrt_1).
  set (x := fst p - fst o). set (y := snd p - snd o).
  assert (L : sqrt (x ^ 2 + y ^ 2) = dist o p) by (unfold dist, x, y; f_equal; ring). rewrite L. set (r := dist o p) in *.
  assert (r0 : 0 < r) by (destruct (dist_nonneg o p) as [Q | Q]; [exact Q | symmetry in Q; now apply dist_0 in Q]).
  assert (r2 : r ^ 2 = x ^ 2 + y ^ 2) by (unfold r; rewrite dist_pos; unfold x, y; ring).
  unfold quotient. destruct (Req_EM_T (1 * r) 0) as [Z | Z]; [lra |].
  replace ((1 * x + 0 * y) / (1 * r)) with (x / r) by (field; lra).
  assert (B : -1 <= x / r <= 1).
  { assert (S' : Rabs x <= Rabs r) by (apply Rsqr_le_abs_0; unfold Rsqr; nra). rewrite (Rabs_pos_eq r) in S' by lra. apply Rabs_le_between in S'.
    split; apply (Rmult_le_reg_r r); try assumption; unfold Rdiv; rewrite Rmult_assoc, Rinv_l by lra; lra. }
  assert (Sn : sin (acos (x / r)) = Rabs y / r).
  { rewrite sin_acos by assumption. replace (1 - (x / r)²) with ((Rabs y / r)²).
    - apply sqrt_Rsqr. apply Rmult_le_pos; [apply Rabs_pos | left; now apply Rinv_0_lt_compat].
    - unfold Rsqr, Rdiv. replace (Rabs y * / r * (Rabs y * / r)) with ((Rabs y * Rabs y) * / r ^ 2) by (field; lra). rewrite <- Rabs_mult, Rabs_pos_eq by (apply Rle_0_sqr).
      replace (y * y) with (r ^ 2 - x ^ 2) by (rewrite r2; ring). field. lra. }
  destruct (Rlt_dec y 0) as [N | N]; cbn [option_map]; eexists; (split; [reflexivity |]).
  - replace (2 * PI - acos (x / r)) with (- acos (x / r) + 2 * INR 1 * PI) by (cbn; ring). rewrite cos_period, sin_period, cos_neg, sin_neg, Sn, cos_acos by assumption.
    rewrite Rabs_left by assumption. split; field; lra.
  - rewrite cos_acos, Sn, Rabs_pos_eq by (assumption || lra). split; field; lra.
Qed.
Lemma acos_inj x y : -1 <= x <= 1 -> -1 <= y <= 1 -> acos x * 180 / PI = acos y * 180 / PI -> x = y.
Proof.
  intros Hx Hy H. rewrite <- (cos_acos x Hx), <- (cos_acos y Hy). f_equal. pose proof PI_RGT_0.
  apply (Rmult_eq_reg_r (180 / PI)); [unfold Rdiv in *; lra |]. apply Rgt_not_eq. apply Rmult_lt_0_compat; [lra | now apply Rinv_0_lt_compat].
Qed.
(** equal cosines on the same side of the line *)
Lemma cos_side p q r p' q' r' : 0 < r -> 0 < r' -> r ^ 2 = p ^ 2 + q ^ 2 -> r' ^ 2 = p' ^ 2 + q' ^ 2 -> 0 < q * q' -> p / r = p' / r' -> p * q' = p' * q.
Proof.
  intros r0 r0' R R' Q H.
  assert (E : p * r' = p' * r) by (apply (f_equal (fun t => t * (r * r'))) in H; revert H; replace (p / r * (r * r')) with (p * r') by (field; lra); now replace (p' / r' * (r * r')) with (p' * r) by (field; lra)).
  assert (S : p ^ 2 * q' ^ 2 = p' ^ 2 * q ^ 2).
  { assert (p ^ 2 * r' ^ 2 = p' ^ 2 * r ^ 2) by (replace (p ^ 2 * r' ^ 2) with ((p * r') ^ 2) by ring; rewrite E; ring). rewrite R, R' in *. lra. }
  assert (F : (p * q' - p' * q) * (p * q' + p' * q) = 0) by (replace ((p * q' - p' * q) * (p * q' + p' * q)) with (p ^ 2 * q' ^ 2 - p' ^ 2 * q ^ 2) by ring; lra).
  apply Rmult_integral in F as [F | F]; [lra |].
  (* opposite signs: both vanish *)
  assert (G : p * p' * (q * q') <= 0). { replace (p * p' * (q * q')) with ((p * q') * (p' * q)) by ring. replace (p * q') with (- (p' * q)) by lra. pose proof (Rle_0_sqr (p' * q)). unfold Rsqr in *. lra. }
  assert (K : 0 <= p * p').
  { replace (p * p') with ((p * r') * (p' * r) * / (r * r')) by (field; lra). rewrite E. apply Rmult_le_pos; [apply Rle_0_sqr |]. left. apply Rinv_0_lt_compat. now apply Rmult_lt_0_compat. }
  assert (M : p * p' = 0) by nra.
  assert (p = 0 \/ p' = 0) as [-> | ->] by now apply Rmult_integral.
  - assert (p' * r = 0) by lra. assert (p' = 0) as -> by nra. ring.
  - assert (p * r' = 0) by lra. assert (p = 0) as -> by nra. ring.
Qed.
Lemma triangle_same A B C A' B' C' : turn A B C <> 0 -> 0 < turn A B C * turn A' B' C' -> triangle_numbers A B C = triangle_numbers A' B' C' ->
  fst B - fst A = fst B' - fst A' /\ snd B - snd A = snd B' - snd A' /\ fst C - fst A = fst C' - fst A' /\ snd C - snd A = snd C' - snd A'.
Proof.
  intros T S N.
  assert (T' : turn A' B' C' <> 0) by (intros Q; rewrite Q in S; lra).
  assert (ne : forall A B C : pt2, turn A B C <> 0 -> A <> B /\ A <> C /\ B <> C) by (clear; intros A B C T; repeat split; intros ->; apply T; unfold turn; ring).
  destruct (ne _ _ _ T) as (n1 & n2 & n3), (ne _ _ _ T') as (n1' & n2' & n3').
  pose proof (first_angle A B C n1 n2) as a1. pose proof (second_angle A B C n1 n3) as a2. pose proof (first_angle A' B' C' n1' n2') as b1. pose proof (second_angle A' B' C' n1' n3') as b2.
  unfold triangle_numbers in N. destruct (angles_of_triangle A B C) as [[x y] z], (angles_of_triangle A' B' C') as [[x' y'] z']. cbn [fst snd] in *. subst x y x' y'.
  injection N as E1 E2 E3 E4.
  destruct (angle_defined A B n1) as (t & At & Bx & By), (angle_defined A' B' n1') as (t' & At' & Bx' & By'). rewrite At, At' in E3. injection E3 as <-. rewrite E4 in *.
  rewrite <- Bx' in Bx. rewrite <- By' in By. split; [exact Bx |]. split; [exact By |].
  assert (pos : forall P Q : pt2, P <> Q -> 0 < dist P Q) by (clear; intros P Q H; destruct (dist_nonneg P Q) as [K | K]; [exact K | symmetry in K; now apply dist_0 in K]).
  apply acos_inj in E1; [| rewrite <- E4; now apply cos_range | now apply cos_range].
  apply acos_inj in E2; [| rewrite <- E4, (dist_sym A B); apply cos_range; congruence | rewrite (dist_sym A' B'); apply cos_range; congruence].
  pose proof (pos _ _ n1') as d0. pose proof (pos _ _ n2) as c0. pose proof (pos _ _ n2') as c0'. pose proof (pos _ _ n3) as e0. pose proof (pos _ _ n3') as e0'.
  pose proof (lagrange_id A B C) as L1. pose proof (lagrange_id A' B' C') as L1'. pose proof (lagrange_id B A C) as L2. pose proof (lagrange_id B' A' C') as L2'.
  rewrite (dist_sym B A), E4 in L2. rewrite (dist_sym B' A') in L2'. rewrite E4 in L1.
  assert (TB : turn B A C = - turn A B C) by (unfold turn; ring). assert (TB' : turn B' A' C' = - turn A' B' C') by (unfold turn; ring). rewrite TB in L2. rewrite TB' in L2'.
  assert (S1 : dotp A B C * turn A' B' C' = dotp A' B' C' * turn A B C).
  { apply (cos_side _ _ (dist A' B' * dist A C) _ _ (dist A' B' * dist A' C')); try assumption; try (now apply Rmult_lt_0_compat); rewrite Rpow_mult_distr; lra. }
  assert (S2 : dotp B A C * turn A' B' C' = dotp B' A' C' * turn A B C).
  { apply (cos_side _ _ (dist A' B' * dist B C) _ _ (dist A' B' * dist B' C')); try assumption; try (now apply Rmult_lt_0_compat); rewrite Rpow_mult_distr;
      match goal with |- _ = _ + ?t ^ 2 => replace (t ^ 2) with ((- t) ^ 2) by ring end; lra. }
  assert (D : dotp A B C + dotp B A C = dist A' B' ^ 2) by (rewrite <- E4, dist_pos; ring).
  assert (D' : dotp A' B' C' + dotp B' A' C' = dist A' B' ^ 2) by (rewrite dist_pos; ring).
  assert (TT : turn A B C = turn A' B' C').
  { apply (Rmult_eq_reg_l (dist A' B' ^ 2)); [| apply pow_nonzero; lra]. rewrite <- D' at 1. rewrite <- D. lra. }
  assert (PP : dotp A B C = dotp A' B' C') by (rewrite TT in S1; now apply Rmult_eq_reg_r in S1).
  (* C - A from its dot and cross products with B - A *)
  pose proof (dist_pos A' B') as DD. unfold turn in TT. rewrite Bx, By in TT, PP.
  set (u := fst B' - fst A') in *. set (v := snd B' - snd A') in *. set (p := fst C - fst A) in *. set (q := snd C - snd A) in *. set (p' := fst C' - fst A') in *. set (q' := snd C' - snd A') in *.
  assert (DD' : dist A' B' ^ 2 = u ^ 2 + v ^ 2) by (rewrite DD; unfold u, v; ring).
  assert (W : u ^ 2 + v ^ 2 <> 0) by (rewrite <- DD'; apply pow_nonzero; lra).
  split; apply (Rmult_eq_reg_l (u ^ 2 + v ^ 2)); try assumption.
  - replace ((u ^ 2 + v ^ 2) * p) with (u * (u * p + v * q) - v * (u * q - v * p)) by ring. rewrite PP, TT. ring.
  - replace ((u ^ 2 + v ^ 2) * q) with (v * (u * p + v * q) + u * (u * q - v * p)) by ring. rewrite PP, TT. ring.
Qed.
Lemma triangle_J A B C A' B' C' : fst B - fst A = fst B' - fst A' -> snd B - snd A = snd B' - snd A' -> fst C - fst A = fst C' - fst A' -> snd C - snd A = snd C' - snd A' ->
  same_matrices (own_J (Triangle5 A B C)) (own_J (Triangle5 A' B' C')).
Proof.
  intros H1 H2 H3 H4 xi et i j. destruct A as [a b], B as [c d], C as [e f], A' as [a' b'], B' as [c' d'], C' as [e' f']; cbn [fst snd] in *.
  unfold own_J, tri5_J, mat2, tri_dxi, tri_det, tri_T, tri_invA, xs_of, ys_of. assert (E : c = c' + (a - a')) by lra. assert (F : d = d' + (b - b')) by lra. assert (G : e = e' + (a - a')) by lra. assert (K : f = f' + (b - b')) by lra. subst c d e f.
  destruct i as [| [| i]]; [destruct j as [| [| [| j]]] | destruct j as [| [| [| j]]] | destruct i, j; reflexivity]; cbn; try reflexivity; field.
Qed.

(** * collisions *)
(** rectangles with the diagonal from (0, 0) to (5, 0) *)
Definition thales (x y : R) : element := Quad9 (0, 0) (x, - y) (5, 0) (5 - x, y).
Lemma acos_complement a b : 0 <= a -> 0 <= b -> a ^ 2 + b ^ 2 = 1 -> acos a + acos b = PI / 2.
Proof.
  intros A B H. assert (Ha : -1 <= a <= 1) by nra. assert (Hb : -1 <= b <= 1) by nra.
  rewrite (acos_asin b Hb). enough (acos a = asin b) by lra.
  pose proof (acos_bound a) as [L U].
  assert (E : sin (acos a) = b). { rewrite sin_acos by assumption. replace (1 - a²) with (b²) by (unfold Rsqr; lra). now apply sqrt_Rsqr. }
  rewrite <- E. rewrite asin_sin; [reflexivity |]. split; [pose proof PI_RGT_0; lra |].
  destruct (Rle_dec (acos a) (PI / 2)) as [K | K]; [exact K |]. exfalso.
  assert (cos (acos a) < cos (PI / 2)) by (apply cos_decreasing_1; pose proof PI_RGT_0; lra). rewrite cos_acos, cos_PI2 in * by assumption. lra.
Qed.
Lemma thales_numbers x y : 0 < x < 5 -> 0 < y -> x * (5 - x) = y ^ 2 ->
  quad_numbers (0, 0) (x, - y) (5, 0) (5 - x, y) = [Some 90; Some 90; Some 90; Some 0; Some 5].
Proof.
  intros Hx Hy E.
  set (A := (0, 0)). set (B := (x, - y)). set (C := (5, 0)). set (D := (5 - x, y)).
  assert (AB : A <> B) by (intros Q; injection Q; lra). assert (AC : A <> C) by (intros Q; injection Q; lra). assert (BC : B <> C) by (intros Q; injection Q; lra).
  assert (AD : A <> D) by (intros Q; injection Q; lra). assert (CD : C <> D) by (intros Q; injection Q; lra).
  pose proof (first_angle A B C AB AC) as a0. pose proof (second_angle A B C AB BC) as b. pose proof (third_angle A B C AC BC) as c0.
  pose proof (first_angle A C D AC AD) as a1. pose proof (second_angle A C D AC CD) as c1.
  assert (d5 : dist A C = 5) by (unfold dist, A, C; cbn [fst snd]; replace ((0 - 5) ^ 2 + (0 - 0) ^ 2) with (5 ^ 2) by ring; apply sqrt_pow2; lra).
  assert (p2 : dist A B ^ 2 = 5 * x) by (rewrite dist_pos; unfold A, B; cbn [fst snd]; nra).
  assert (q2 : dist B C ^ 2 = 5 * (5 - x)) by (rewrite dist_pos; unfold B, C; cbn [fst snd]; nra).
  assert (r2 : dist A D ^ 2 = 5 * (5 - x)) by (rewrite dist_pos; unfold A, D; cbn [fst snd]; nra).
  assert (s2 : dist C D ^ 2 = 5 * x) by (rewrite dist_pos; unfold C, D; cbn [fst snd]; nra).
  assert (pos : forall P Q : pt2, P <> Q -> 0 < dist P Q) by (clear; intros P Q H; destruct (dist_nonneg P Q) as [K | K]; [exact K | symmetry in K; now apply dist_0 in K]).
  pose proof (pos _ _ AB). pose proof (pos _ _ BC). pose proof (pos _ _ AD). pose proof (pos _ _ CD).
  destruct (angle_defined A C AC) as (t & At & Ct & St).
  unfold quad_numbers. destruct (angles_of_triangle A B C) as [[u v] w], (angles_of_triangle A C D) as [[u' v'] w']. cbn [fst snd] in a0, b, c0, a1, c1. subst u v w u' v'.
  assert (pi : PI <> 0) by (pose proof PI_RGT_0; lra).
  assert (half : forall a b, 0 <= a -> 0 <= b -> a ^ 2 + b ^ 2 = 1 -> nan_plus (Some (acos a * 180 / PI)) (Some (acos b * 180 / PI)) = Some 90).
  { intros a b0 Ha Hb Hab. cbn. f_equal. pose proof (acos_complement a b0 Ha Hb Hab) as Q. replace (acos a * 180 / PI + acos b0 * 180 / PI) with ((acos a + acos b0) * 180 / PI) by (field; exact pi). rewrite Q. field. exact pi. }
  rewrite !d5.
  assert (da : dotp A B C = 5 * x) by (unfold A, B, C; cbn [fst snd]; ring). assert (da' : dotp A C D = 5 * (5 - x)) by (unfold A, C, D; cbn [fst snd]; ring).
  assert (dc : dotp C A B = 5 * (5 - x)) by (unfold A, B, C; cbn [fst snd]; ring). assert (dc' : dotp C A D = 5 * x) by (unfold A, C, D; cbn [fst snd]; ring).
  assert (db : dotp B A C = 0) by (unfold A, B, C; cbn [fst snd]; nra).
  rewrite da, da', dc, dc', db.
  assert (sq : forall z r, 0 < r -> (5 * z / (r * 5)) ^ 2 = z ^ 2 / r ^ 2) by (intros; field; lra).
  assert (sq' : forall z r, 0 < r -> (5 * z / (5 * r)) ^ 2 = z ^ 2 / r ^ 2) by (intros; field; lra).
  assert (nn : forall z r, 0 < z -> 0 < r -> 0 <= z / r) by (intros; left; apply Rmult_lt_0_compat; [assumption | now apply Rinv_0_lt_compat]).
  f_equal; [| f_equal; [| f_equal; [| f_equal]]].
  - apply half; [apply nn; nra | apply nn; nra |]. rewrite sq, sq', p2, r2 by assumption. field. lra.
  - f_equal. replace (0 / (dist A B * dist B C)) with 0 by (field; lra). rewrite acos_0. field. exact pi.
  - apply half; [apply nn; nra | apply nn; nra |]. rewrite !sq', q2, s2 by assumption. field. lra.
  - unfold angle, A, C; cbn [fst snd]. destruct (Rlt_dec (0 - 0) 0); [lra |]. replace ((5 - 0) ^ 2 + (0 - 0) ^ 2) with (5 ^ 2) by ring. replace (1 ^ 2 + 0 ^ 2) with 1 by ring.
    rewrite sqrt_1, sqrt_pow2 by lra. unfold quotient. destruct (Req_EM_T (1 * 5) 0); [lra |]. cbn [option_map]. replace ((1 * (5 - 0) + 0 * (0 - 0)) / (1 * 5)) with 1 by field. f_equal. apply acos_1.
Qed.
Lemma thales_same x y x' y' : 0 < x < 5 -> 0 < y -> x * (5 - x) = y ^ 2 -> 0 < x' < 5 -> 0 < y' -> x' * (5 - x') = y' ^ 2 -> metric_signature (thales x y) = metric_signature (thales x' y').
Proof. intros. unfold thales, metric_signature. now rewrite !thales_numbers. Qed.
Lemma thales_det x y xi et : determinant 2 (own_J (thales x y) xi et) = 5 * y / 4.
Proof. rewrite det_expand2. unfold own_J, thales, quad9_J, mat2. cbn. field. Qed.
Lemma quad_wrong : exists A B C D A' B' C' D', convex_anticlockwise A B C D /\ convex_anticlockwise A' B' C' D' /\
  metric_signature (Quad9 A B C D) = metric_signature (Quad9 A' B' C' D') /\
  forall xi et, determinant 2 (own_J (Quad9 A B C D) xi et) = 25/8 /\ determinant 2 (own_J (Quad9 A' B' C' D') xi et) = 3.
Proof.
  exists (0, 0), (5/2, -(5/2)), (5, 0), (5 - 5/2, 5/2), (0, 0), (9/5, -(12/5)), (5, 0), (5 - 9/5, 12/5).
  refine (conj _ (conj _ (conj (thales_same (5/2) (5/2) (9/5) (12/5) ltac:(lra) ltac:(lra) ltac:(lra) ltac:(lra) ltac:(lra) ltac:(lra)) (fun xi et => conj _ _)))).
  - unfold convex_anticlockwise, turn; cbn [fst snd]; lra.
  - unfold convex_anticlockwise, turn; cbn [fst snd]; lra.
  - etransitivity; [exact (thales_det (5/2) (5/2) xi et) | field].
  - etransitivity; [exact (thales_det (9/5) (12/5) xi et) | field].
Qed.

Lemma numbers_distances A B C A' B' C' : dist A B = dist A' B' -> dist A C = dist A' C' -> dist B C = dist B' C' -> angles_of_triangle A B C = angles_of_triangle A' B' C'.
Proof. intros H1 H2 H3. unfold angles_of_triangle. now rewrite H1, H2, H3. Qed.
Lemma triangle_mirrored : exists A B C C', metric_signature (Triangle5 A B C) = metric_signature (Triangle5 A B C') /\
  forall xi et, determinant 2 (own_J (Triangle5 A B C) xi et) = (xi + 1) / 8 /\ determinant 2 (own_J (Triangle5 A B C') xi et) = - ((xi + 1) / 8).
Proof.
  exists (0, 0), (1, 0), (0, 1), (0, -1). split.
  - unfold metric_signature, triangle_numbers. rewrite (numbers_distances (0, 0) (1, 0) (0, 1) (0, 0) (1, 0) (0, -1)); [reflexivity | reflexivity | |]; unfold dist; cbn [fst snd]; f_equal; ring.
  - intros xi et. rewrite !det_expand2. unfold own_J, tri5_J, mat2, tri_dxi, tri_det, tri_T, tri_invA, xs_of, ys_of. cbn. split; field.
Qed.
(** a triangle turned by 3e-4 *)
Definition tilt : R := 3/10000.
Lemma turned_angle : exists t, angle (0, 0) (1, tilt) = Some t /\ 0 <= t < 5/10000.
Proof.
  unfold angle; cbn [fst snd]. destruct (Rlt_dec (tilt - 0) 0) as [N | N]; [unfold tilt in N; lra |]. replace (1 ^ 2 + 0 ^ 2) with 1 by ring. rewrite sqrt_1.
  set (s := sqrt ((1 - 0) ^ 2 + (tilt - 0) ^ 2)).
  assert (s2 : s ^ 2 = 1 + tilt ^ 2) by (unfold s; rewrite pow2_sqrt; [ring | unfold tilt; lra]).
  assert (s0 : 0 <= s) by apply sqrt_pos. unfold tilt in s2.
  assert (sb : 1 < s < 1 + 46/1000000000) by nra.
  unfold quotient. destruct (Req_EM_T (1 * s) 0) as [Z | Z]; [lra |]. cbn [option_map]. eexists. split; [reflexivity |].
  replace ((1 * (1 - 0) + 0 * (tilt - 0)) / (1 * s)) with (/ s) by (field; lra).
  assert (is : 1 - 46/1000000000 < / s < 1).
  { split; [apply (Rmult_lt_reg_r s); [lra |]; rewrite Rinv_l by lra; nra |]. rewrite <- Rinv_1. apply Rinv_lt_contravar; lra. }
  pose proof (acos_bound (/ s)) as [L U]. split; [exact L |].
  destruct (Rlt_dec (acos (/ s)) (5/10000)) as [K | K]; [exact K | exfalso].
  pose proof PI2_3_2. assert (Q : cos (acos (/ s)) <= cos (5/10000)) by (apply cos_decr_1; lra). rewrite cos_acos in Q by lra.
  assert (C2 : cos (5/10000) = 1 - 2 * sin (5/20000) * sin (5/20000)) by (rewrite <- cos_2a_sin; f_equal; field).
  assert (SB : 5/20000 - (5/20000) ^ 3 / 6 <= sin (5/20000)).
  { pose proof (sin_bound (5/20000) 0 ltac:(lra) ltac:(lra)) as [LB _]. unfold sin_approx, sin_term in LB. cbn in LB. lra. }
  nra.
Qed.
Lemma turned_distance : 1 < dist (0, 0) (1, tilt) < 1 + 46/1000000000.
Proof.
  pose proof (dist_pos (0, 0) (1, tilt)) as D. pose proof (dist_nonneg (0, 0) (1, tilt)). cbn [fst snd] in D. unfold tilt in *. nra.
Qed.
Lemma triangle_turned : exists A B C B' C', 0 < turn A B C /\ 0 < turn A B' C' /\ metric_signature (Triangle5 A B C) = metric_signature (Triangle5 A B' C') /\
  forall xi et, own_J (Triangle5 A B C) xi et 1%nat 0%nat - own_J (Triangle5 A B' C') xi et 1%nat 0%nat = - tilt * (1 - et) / 4.
Proof.
  exists (0, 0), (1, 0), (0, 1), (1, tilt), (- tilt, 1).
  refine (conj _ (conj _ (conj _ _))); [unfold turn; cbn; lra | unfold turn, tilt; cbn; lra | |].
  2: { intros xi et. unfold own_J, tri5_J, mat2, tri_dxi, tri_det, tri_T, tri_invA, xs_of, ys_of. cbn. field. }
  destruct turned_angle as (t & At & t0). pose proof turned_distance as d0.
  assert (ab : angles_of_triangle (0, 0) (1, 0) (0, 1) = angles_of_triangle (0, 0) (1, tilt) (- tilt, 1)).
  { assert (E1 : dist (0, 0) (1, 0) = 1) by (unfold dist; cbn [fst snd]; replace ((0 - 1) ^ 2 + (0 - 0) ^ 2) with (1 ^ 2) by ring; apply sqrt_pow2; lra).
    assert (E2 : dist (0, 0) (0, 1) = 1) by (unfold dist; cbn [fst snd]; replace ((0 - 0) ^ 2 + (0 - 1) ^ 2) with (1 ^ 2) by ring; apply sqrt_pow2; lra).
    set (s := dist (0, 0) (1, tilt)) in *.
    assert (E3 : dist (0, 0) (- tilt, 1) = s) by (unfold s, dist; cbn [fst snd]; f_equal; ring).
    assert (E4 : dist (1, tilt) (- tilt, 1) = s * dist (1, 0) (0, 1)).
    { unfold s, dist; cbn [fst snd]. rewrite <- sqrt_mult; [f_equal; ring | |]; unfold tilt; lra. }
    set (h := dist (1, 0) (0, 1)) in *. assert (h0 : 0 < h) by (unfold h, dist; cbn [fst snd]; apply sqrt_lt_R0; lra).
    unfold angles_of_triangle. fold h. fold s. rewrite E1, E2, E3, E4. unfold quotient.
    repeat match goal with |- context [Req_EM_T ?x 0] => destruct (Req_EM_T x 0) as [Z | Z]; [exfalso; revert Z; apply Rgt_not_eq; repeat apply Rmult_lt_0_compat; lra | clear Z] end.
    unfold degrees; cbn [option_map]. repeat apply f_equal2; repeat (f_equal; try (field; lra)). }
  assert (A0 : angle (0, 0) (1, 0) = Some 0).
  { unfold angle; cbn [fst snd]. destruct (Rlt_dec (0 - 0) 0); [lra |]. replace ((1 - 0) ^ 2 + (0 - 0) ^ 2) with 1 by ring. replace (1 ^ 2 + 0 ^ 2) with 1 by ring. rewrite sqrt_1. unfold quotient.
    destruct (Req_EM_T (1 * 1) 0); [lra |]. cbn [option_map]. f_equal. replace ((1 * (1 - 0) + 0 * (0 - 0)) / (1 * 1)) with 1 by field. apply acos_1. }
  assert (T1 : text 3 0 = text 3 t) by (unfold text; rewrite (rnd_near (0 * 10 ^ 3) 0), (rnd_near (t * 10 ^ 3) 0); [reflexivity | apply Rabs_def1; lra | apply Rabs_def1; lra]).
  assert (T2 : text 6 (dist (0, 0) (1, 0)) = text 6 (dist (0, 0) (1, tilt))).
  { replace (dist (0, 0) (1, 0)) with 1 by (unfold dist; cbn [fst snd]; replace ((0 - 1) ^ 2 + (0 - 0) ^ 2) with (1 ^ 2) by ring; symmetry; apply sqrt_pow2; lra).
    unfold text. rewrite (rnd_near (1 * 10 ^ 6) 1000000), (rnd_near (dist (0, 0) (1, tilt) * 10 ^ 6) 1000000); [reflexivity | apply Rabs_def1; lra | apply Rabs_def1; lra]. }
  assert (W : forall A B C A' B' C' u v, angles_of_triangle A B C = angles_of_triangle A' B' C' -> angle A B = Some u -> angle A' B' = Some v -> text 3 u = text 3 v ->
    text 6 (dist A B) = text 6 (dist A' B') -> metric_signature (Triangle5 A B C) = metric_signature (Triangle5 A' B' C')).
  { clear. intros A B C A' B' C' u v E1 E2 E3 E4 E5. unfold metric_signature, triangle_numbers. rewrite E1, E2, E3. destruct (angles_of_triangle A' B' C') as [[a b] c].
    unfold write; cbn [combine map fst snd text_of option_map]. now rewrite E4, E5. }
  exact (W _ _ _ _ _ _ _ _ ab A0 At T1 T2).
Qed.
(** sizes of boxes: up to 1e-5 *)
Lemma rectangle_near ox oy dx dy ox' oy' dx' dy' xi et i j : metric_signature (Rectangle ox oy dx dy) = metric_signature (Rectangle ox' oy' dx' dy') ->
  Rabs (own_J (Rectangle ox oy dx dy) xi et i j - own_J (Rectangle ox' oy' dx' dy') xi et i j) <= 5 / 10 ^ 6.
Proof.
  intros H. injection H as H1 H2. apply text_close in H1, H2. unfold own_J, mat2.
  assert (Z : Rabs (0 - 0) <= 5 / 10 ^ 6) by (rewrite Rminus_diag_eq, Rabs_R0 by reflexivity; lra).
  assert (K : forall a b, Rabs (a - b) <= / 10 ^ 5 -> Rabs (a / 2 - b / 2) <= 5 / 10 ^ 6) by (intros a b Q; replace (a / 2 - b / 2) with ((a - b) * / 2) by field; rewrite Rabs_mult, (Rabs_pos_eq (/ 2)) by lra; lra).
  destruct i as [| [| i]]; [destruct j as [| [| [| j]]] | destruct j as [| [| [| j]]] | destruct i, j]; cbn [nth]; auto.
Qed.
Lemma rectangle_tiny : exists dx dx', metric_signature (Rectangle 0 0 dx 1) = metric_signature (Rectangle 0 0 dx' 1) /\ dx' = 4 * dx /\ 0 < dx.
Proof.
  exists (1/1000000), (4/1000000). split; [| lra]. unfold metric_signature, write, text_of, text; cbn [combine map fst snd option_map].
  rewrite (rnd_near (1 / 1000000 * 10 ^ 5) 0), (rnd_near (4 / 1000000 * 10 ^ 5) 0); [reflexivity | apply Rabs_def1; lra | apply Rabs_def1; lra].
Qed.
Lemma hexahedron_near ox oy oz dx dy dz ox' oy' oz' dx' dy' dz' xi et i j :
  metric_signature (Hexahedron ox oy oz dx dy dz) = metric_signature (Hexahedron ox' oy' oz' dx' dy' dz') ->
  Rabs (own_J (Hexahedron ox oy oz dx dy dz) xi et i j - own_J (Hexahedron ox' oy' oz' dx' dy' dz') xi et i j) <= 5 / 10 ^ 6.
Proof.
  intros H. injection H as H1 H2 H3. apply text_close in H1, H2, H3. unfold own_J, mat3.
  assert (Z : Rabs (0 - 0) <= 5 / 10 ^ 6) by (rewrite Rminus_diag_eq, Rabs_R0 by reflexivity; lra).
  assert (K : forall a b, Rabs (a - b) <= / 10 ^ 5 -> Rabs (a / 2 - b / 2) <= 5 / 10 ^ 6) by (intros a b Q; replace (a / 2 - b / 2) with ((a - b) * / 2) by field; rewrite Rabs_mult, (Rabs_pos_eq (/ 2)) by lra; lra).
  destruct i as [| [| [| i]]]; destruct j as [| [| [| j]]]; cbn [nth]; auto; try destruct i; try destruct j; auto.
Qed.
Lemma triangle_exact A B C A' B' C' : turn A B C <> 0 -> 0 < turn A B C * turn A' B' C' -> triangle_numbers A B C = triangle_numbers A' B' C' ->
  shifted [A; B; C] [A'; B'; C'] /\ same_matrices (own_J (Triangle5 A B C)) (own_J (Triangle5 A' B' C')).
Proof.
  intros T O N. destruct (triangle_same A B C A' B' C' T O N) as (H1 & H2 & H3 & H4). split; [| now apply triangle_J].
  exists (fst A' - fst A), (snd A' - snd A). destruct A, B, C, A', B', C'; cbn [fst snd map] in *. repeat (apply f_equal2); try reflexivity; lra.
Qed.
(** the signature is read off unrounded numbers *)
Lemma shifted_triangle A B C A' B' C' : shifted [A; B; C] [A'; B'; C'] -> metric_signature (Triangle5 A B C) = metric_signature (Triangle5 A' B' C').
Proof.
  intros (s & t & H). cbn in H. injection H as -> -> ->. unfold metric_signature. f_equal. f_equal. f_equal. unfold triangle_numbers, angles_of_triangle, angle, dist; cbn [fst snd].
  repeat match goal with |- context [?a + ?u - (?b + ?u)] => replace (a + u - (b + u)) with (a - b) by ring end. reflexivity.
Qed.
Lemma shifted_quad A B C D A' B' C' D' : shifted [A; B; C; D] [A'; B'; C'; D'] ->
  metric_signature (Quad9 A B C D) = metric_signature (Quad9 A' B' C' D') /\ same_matrices (own_J (Quad9 A B C D)) (own_J (Quad9 A' B' C' D')).
Proof.
  intros (s & t & H). cbn in H. injection H as -> -> -> ->. split.
  - unfold metric_signature. f_equal. f_equal. f_equal. unfold quad_numbers, angles_of_triangle, angle, dist; cbn [fst snd].
    repeat match goal with |- context [?a + ?u - (?b + ?u)] => replace (a + u - (b + u)) with (a - b) by ring end. reflexivity.
  - intros xi et i j. destruct A as [a b], B as [c d], C as [e f], D as [g h]. unfold own_J, quad9_J, mat2. destruct i as [| [| i]]; [destruct j as [| [| [| j]]] | destruct j as [| [| [| j]]] | destruct i, j]; cbn; try field; reflexivity.
Qed.
(** elements of different types and unique elements do not share *)
Lemma signature_kind e e' : metric_signature e = metric_signature e' ->
  match e, e' with
  | Triangle5 _ _ _, Triangle5 _ _ _ | Quad9 _ _ _ _, Quad9 _ _ _ _ | Rectangle _ _ _ _, Rectangle _ _ _ _ | Hexahedron _ _ _ _ _ _, Hexahedron _ _ _ _ _ _ => True
  | Unique i _, Unique j _ => i = j
  | _, _ => False
  end.
Proof. destruct e, e'; cbn; intros H; try exact I; try discriminate; now injection H. Qed.
(** ** what the cache returns *)
Definition jac_at (e : element) (p : R * R) : R := determinant 2 (own_J e (fst p) (snd p)).
Lemma shared_wrong (peq : forall p q : R * R, {p = q} + {p <> q}) : exists A B C D A' B' C' D', convex_anticlockwise A B C D /\ convex_anticlockwise A' B' C' D' /\
  forall p, calls peq jac_at [] [(Quad9 A B C D, p); (Quad9 A' B' C' D', p)] = [25/8; 25/8] /\ calls peq jac_at [] [(Quad9 A' B' C' D', p); (Quad9 A B C D, p)] = [3; 3] /\
    map (fun ep => jac_at (fst ep) (snd ep)) [(Quad9 A B C D, p); (Quad9 A' B' C' D', p)] = [25/8; 3].
Proof.
  destruct quad_wrong as (A & B & C & D & A' & B' & C' & D' & K & K' & M & J). exists A, B, C, D, A', B', C', D'. refine (conj K (conj K' (fun p => _))).
  destruct (J (fst p) (snd p)) as [J1 J2]. cbn [map fst snd]. unfold calls, shared. rewrite <- M. change (metric_signature (Quad9 A B C D)) with (@inl (kind * list (option Z)) nat (K9, write [2; 2; 2; 3; 5]%nat (quad_numbers A B C D))).
  cbv iota beta. cbn [found]. destruct (key_eq_dec _ _) as [_ | N]; [| now contradiction N]. destruct (peq p p) as [_ | N]; [| now contradiction N]. unfold jac_at. rewrite J1, J2. auto.
Qed.
