From Coq Require Import List Arith Bool Reals Lra Lia Machin.
From Coquelicot Require Import Coquelicot.
From Verif Require Import MappingModel RegionModel RegionProofs CrazySpec JacobianModel JacobianSpec JacobianProofs.
Import ListNotations.
Local Open Scope R_scope.

Lemma PI_below : PI < 10 / 3.
Proof.
  pose proof (proj2 (PI_2_3_7_ineq 0)) as H. cbn in H. unfold tg_alt, PI_2_3_7_tg, Ratan_seq in H. cbn in H. lra.
Qed.
Lemma PI_above : 3 < PI. Proof. pose proof PI2_3_2. lra. Qed.
Lemma small_product k x y : Rabs k * x < y -> 0 <= x -> forall w, -1 <= w <= 1 -> - y < k * x * w.
Proof.
  intros H Hx w Hw. assert (A : Rabs (k * x * w) <= Rabs k * x).
  { rewrite !Rabs_mult, (Rabs_pos_eq x Hx). rewrite <- (Rmult_1_r (Rabs k * x)) at 2.
    apply Rmult_le_compat_l; [apply Rmult_le_pos; [apply Rabs_pos | exact Hx] |]. now apply Rabs_le. }
  pose proof (Rle_abs (- (k * x * w))) as L. rewrite Rabs_Ropp in L. lra.
Qed.

(** * determinants *)
Lemma crazy1_det a b k r : jac_det 1 (crazy1_J a b k r) = Some ((b - a) * (1 + k * PI * cos (tau r))).
Proof. cbn. unfold crazy1_J, mat1. cbn. destruct (Req_EM_T k 0) as [-> |]; f_equal; field. Qed.
Lemma tau_plus r s : tau (r + s) = tau r + tau s. Proof. unfold tau. ring. Qed.
Lemma crazy2_det a b c d k r s : jac_det 2 (crazy2_J a b c d k r s) = Some ((b - a) * (d - c) * (1 + k * PI * sin (tau (r + s)))).
Proof.
  cbn [jac_det]. rewrite tau_plus, sin_plus. unfold crazy2_J, mat2.
  destruct (Req_EM_T k 0) as [-> |]; cbn [nth]; f_equal; field.
Qed.
Definition wave (A B C : R) : R := cos A * sin B * sin C + sin A * cos B * sin C + sin A * sin B * cos C.
Lemma crazy3_det a b c d e f k r s t : jac_det 3 (crazy3_J a b c d e f k r s t) =
  Some ((b - a) * (d - c) * (f - e) * (1 + k * PI * wave (tau r) (tau s) (tau t))).
Proof.
  cbn [jac_det]. unfold crazy3_J, mat3, wave.
  destruct (Req_EM_T k 0) as [-> |]; cbn [nth]; f_equal; field.
Qed.
Lemma wave_bound A B C : wave A B C ^ 2 <= 4 / 3.
Proof.
  set (u := cos (A + B)). set (w := sin A * sin B).
  assert (E : wave A B C = sin (A + B) * sin C + w * cos C) by (unfold wave, w; rewrite sin_plus; ring).
  assert (S1 : sin (A + B) ^ 2 = 1 - u ^ 2).
  { unfold u. pose proof (sin2_cos2 (A + B)) as Q. unfold Rsqr in Q. lra. }
  assert (S2 : sin C ^ 2 + cos C ^ 2 = 1) by (pose proof (sin2_cos2 C) as Q; unfold Rsqr in Q; lra).
  assert (W : 2 * w = cos (A - B) - u) by (unfold w, u; rewrite cos_plus, cos_minus; ring).
  pose proof (COS_bound (A - B)) as B1. pose proof (COS_bound (A + B)) as B2. fold u in B2.
  assert (CS : wave A B C ^ 2 <= (sin (A + B) ^ 2 + w ^ 2) * (sin C ^ 2 + cos C ^ 2)).
  { rewrite E. assert (0 <= (sin (A + B) * cos C - w * sin C) ^ 2) by apply pow2_ge_0. nra. }
  rewrite S2, S1, Rmult_1_r in CS. apply (Rle_trans _ _ _ CS).
  set (v := cos (A - B)) in *. assert (w = (v - u) / 2) as -> by lra.
  assert (Hv : (v - u) ^ 2 <= (1 + Rabs u) ^ 2).
  { apply pow_maj_Rabs. apply Rle_trans with (Rabs v + Rabs u); [unfold Rminus; rewrite <- (Rabs_Ropp u); apply Rabs_triang |].
    assert (Rabs v <= 1) by (apply Rabs_le; lra). lra. }
  assert (Hu : u ^ 2 = Rabs u ^ 2) by (rewrite <- (Rsqr_abs u) || (rewrite pow2_abs; reflexivity)).
  pose proof (pow2_ge_0 (Rabs u - 1/3)) as P. nra.
Qed.
Lemma sqrt3_sq : sqrt 3 * sqrt 3 = 3. Proof. apply sqrt_sqrt. lra. Qed.
Lemma sqrt3_pos : 0 < sqrt 3. Proof. apply sqrt_lt_R0. lra. Qed.
Lemma wave_abs A B C : Rabs (wave A B C) <= 2 / sqrt 3.
Proof.
  pose proof (wave_bound A B C) as H. pose proof sqrt3_pos. pose proof sqrt3_sq.
  apply Rsqr_incr_0_var.
  - rewrite <- Rsqr_abs. unfold Rsqr. replace (2 / sqrt 3 * (2 / sqrt 3)) with (4 / (sqrt 3 * sqrt 3)) by (field; lra).
    rewrite H1. lra.
  - apply Rlt_le, Rdiv_lt_0_compat; lra.
Qed.

(** a point whose angle has a given sine and cosine *)
Lemma angle_cos v : -1 <= v <= 1 -> exists r, cos (tau r) = v /\ 0 <= sin (tau r).
Proof.
  intros H. exists (acos v / (2 * PI)). replace (tau (acos v / (2 * PI))) with (acos v) by (unfold tau; field; apply PI_neq0).
  rewrite cos_acos, sin_acos by exact H. split; [reflexivity | apply sqrt_pos].
Qed.

Lemma crazy1_untangled a b k : a < b -> ((forall r, exists D, jac_det 1 (crazy1_J a b k r) = Some D /\ 0 < D) <-> Rabs k * PI < 1).
Proof.
  intros Hab. pose proof PI_above as P. split.
  - intros H. destruct (Rcase_abs k) as [N | N].
    + destruct (H 0) as [D [E HD]]. rewrite crazy1_det in E. injection E as <-. unfold tau in HD. rewrite Rmult_0_r, cos_0 in HD.
      rewrite Rabs_left by exact N. nra.
    + destruct (H (1/2)) as [D [E HD]]. rewrite crazy1_det in E. injection E as <-. replace (tau (1/2)) with PI in HD by (unfold tau; field).
      rewrite cos_PI in HD. rewrite Rabs_right by exact N. nra.
  - intros H r. rewrite crazy1_det. eexists. split; [reflexivity |]. apply Rmult_lt_0_compat; [lra |].
    pose proof (small_product k PI 1 H ltac:(lra) _ (COS_bound (tau r))). lra.
Qed.
Lemma crazy2_untangled a b c d k : a < b -> c < d ->
  ((forall r s, exists D, jac_det 2 (crazy2_J a b c d k r s) = Some D /\ 0 < D) <-> Rabs k * PI < 1).
Proof.
  intros Hab Hcd. pose proof PI_above as P. assert (Q : 0 < (b - a) * (d - c)) by (apply Rmult_lt_0_compat; lra). split.
  - intros H. destruct (Rcase_abs k) as [N | N].
    + destruct (H (1/4) 0) as [D [E HD]]. rewrite crazy2_det in E. injection E as <-.
      replace (tau (1/4 + 0)) with (PI / 2) in HD by (unfold tau; field). rewrite sin_PI2 in HD.
      rewrite Rabs_left by exact N. nra.
    + destruct (H (3/4) 0) as [D [E HD]]. rewrite crazy2_det in E. injection E as <-.
      replace (tau (3/4 + 0)) with (3 * (PI / 2)) in HD by (unfold tau; field). rewrite sin_3PI2 in HD.
      rewrite Rabs_right by exact N. nra.
  - intros H r s. rewrite crazy2_det. eexists. split; [reflexivity |]. apply Rmult_lt_0_compat; [exact Q |].
    pose proof (small_product k PI 1 H ltac:(lra) _ (SIN_bound (tau (r + s)))). lra.
Qed.
Lemma wave_small k A B C : Rabs k * (2 * PI) < sqrt 3 -> 0 < 1 + k * PI * wave A B C.
Proof.
  intros H. pose proof PI_above as P. pose proof sqrt3_pos as S. pose proof (wave_abs A B C) as W.
  assert (W1 : Rabs (wave A B C * (sqrt 3 / 2)) <= 1).
  { rewrite Rabs_mult, (Rabs_pos_eq (sqrt 3 / 2)) by lra. apply Rle_trans with (2 / sqrt 3 * (sqrt 3 / 2)).
    - apply Rmult_le_compat_r; lra.
    - right. field. lra. }
  apply Rabs_le_between in W1.
  pose proof (small_product k (2 * PI) (sqrt 3) H ltac:(lra) _ W1) as K.
  replace (k * (2 * PI) * (wave A B C * (sqrt 3 / 2))) with (sqrt 3 * (k * PI * wave A B C)) in K by field.
  apply Rmult_lt_reg_l with (sqrt 3); [exact S |]. lra.
Qed.
Lemma crazy3_untangled a b c d e f k : a < b -> c < d -> e < f ->
  ((forall r s t, exists D, jac_det 3 (crazy3_J a b c d e f k r s t) = Some D /\ 0 < D) <-> Rabs k * (2 * PI) < sqrt 3).
Proof.
  intros Hab Hcd Hef. pose proof PI_above as P. pose proof sqrt3_pos as S. pose proof sqrt3_sq as S2.
  assert (Q : 0 < (b - a) * (d - c) * (f - e)) by (apply Rmult_lt_0_compat; [apply Rmult_lt_0_compat |]; lra). split.
  - intros H.
    assert (G : forall v, v * v = 1/3 -> 0 < 1 + k * PI * (3 * (2/3) * v)).
    { intros v Hv. destruct (angle_cos v) as [r [Hc Hs]]; [split; nra |].
      destruct (H r r r) as [D [E HD]]. rewrite crazy3_det in E. injection E as <-.
      assert (0 < 1 + k * PI * wave (tau r) (tau r) (tau r)) as K.
      { apply Rmult_lt_reg_l with ((b - a) * (d - c) * (f - e)); [exact Q |]. lra. }
      replace (wave (tau r) (tau r) (tau r)) with (3 * (sin (tau r) * sin (tau r)) * cos (tau r)) in K by (unfold wave; ring).
      rewrite Hc in K. replace (sin (tau r) * sin (tau r)) with (2/3) in K; [exact K |].
      pose proof (sin2_cos2 (tau r)) as T. unfold Rsqr in T. rewrite Hc in T. lra. }
    assert (V : 1 / sqrt 3 * (1 / sqrt 3) = 1/3) by (replace (1 / sqrt 3 * (1 / sqrt 3)) with (1 / (sqrt 3 * sqrt 3)) by (field; lra); now rewrite S2).
    assert (K1 := G (1 / sqrt 3) V). assert (K2 := G (- (1 / sqrt 3)) ltac:(lra)).
    assert (M : forall x, 0 < 1 + k * PI * (3 * (2/3) * (x * (1 / sqrt 3))) -> 0 < sqrt 3 + k * (2 * PI) * x).
    { intros x Hx. replace (sqrt 3 + k * (2 * PI) * x) with (sqrt 3 * (1 + k * PI * (3 * (2/3) * (x * (1 / sqrt 3))))) by (field; lra).
      now apply Rmult_lt_0_compat. }
    assert (M1 := M 1 ltac:(rewrite Rmult_1_l; exact K1)).
    assert (M2 := M (-1) ltac:(replace (-1 * (1 / sqrt 3)) with (- (1 / sqrt 3)) by ring; exact K2)).
    destruct (Rcase_abs k) as [N | N]; [rewrite Rabs_left by exact N; lra | rewrite Rabs_right by exact N; lra].
  - intros H r s t. rewrite crazy3_det. eexists. split; [reflexivity |]. apply Rmult_lt_0_compat; [exact Q |]. now apply wave_small.
Qed.
Lemma c_03_2d k : 0 <= k <= 3/10 -> Rabs k * PI < 1.
Proof. intros H. rewrite Rabs_right by lra. pose proof PI_below. pose proof PI_above. nra. Qed.
Lemma c_27_3d k : 0 <= k <= 1/4 -> Rabs k * (2 * PI) < sqrt 3.
Proof.
  intros H. rewrite Rabs_right by lra. pose proof PI_below. pose proof PI_above.
  apply Rle_lt_trans with (1/4 * (2 * PI)); [nra |]. apply Rlt_le_trans with (5/3); [lra |].
  rewrite <- (sqrt_square (5/3)) by lra. apply sqrt_le_1; lra.
Qed.
Lemma crazy3_tangled a b c d e f : a < b -> c < d -> e < f ->
  exists r s t D, unit r /\ unit s /\ unit t /\ jac_det 3 (crazy3_J a b c d e f (3/10) r s t) = Some D /\ D < 0.
Proof.
  intros Hab Hcd Hef. exists (1/3), (1/3), (1/3). eexists. rewrite crazy3_det.
  refine (conj _ (conj _ (conj _ (conj eq_refl _)))); [unfold unit; lra | unfold unit; lra | unfold unit; lra |].
  replace (tau (1/3)) with (2 * (PI / 3)) by (unfold tau; field). unfold wave. rewrite cos_2PI3, sin_2PI3.
  assert (Q : 0 < (b - a) * (d - c) * (f - e)) by (apply Rmult_lt_0_compat; [apply Rmult_lt_0_compat |]; lra).
  pose proof PI_above. pose proof sqrt3_sq as S2.
  replace (-1 / 2 * (sqrt 3 / 2) * (sqrt 3 / 2) + sqrt 3 / 2 * (-1 / 2) * (sqrt 3 / 2) + sqrt 3 / 2 * (sqrt 3 / 2) * (-1 / 2))
    with (-3 / 8 * (sqrt 3 * sqrt 3)) by field.
  rewrite S2. nra.
Qed.

(** * one to one *)
Lemma increasing h dh : (forall x, is_derive h x (dh x)) -> (forall x, 0 < dh x) -> forall x y, x < y -> h x < h y.
Proof.
  intros H P x y L. apply (incr_function h m_infty p_infty dh); [intros; apply H | intros; apply P | exact I | exact L | exact I].
Qed.
Lemma injective h dh : (forall x, is_derive h x (dh x)) -> (forall x, 0 < dh x) -> forall x y, h x = h y -> x = y.
Proof.
  intros H P x y E. destruct (Rtotal_order x y) as [L | [L | L]]; [| exact L |].
  - pose proof (increasing h dh H P x y L). lra.
  - pose proof (increasing h dh H P y x L). lra.
Qed.
Lemma reach (h dh : R -> R) lo hi y : (forall x, is_derive h x (dh x)) -> lo <= hi -> h lo <= y <= h hi -> exists x, lo <= x <= hi /\ h x = y.
Proof.
  intros H L [L1 L2].
  destruct (IVT_gen h lo hi y) as [x [[X1 X2] E]].
  - intros x. apply derivable_continuous_pt. exists (dh x). apply is_derive_Reals, H.
  - rewrite Rmin_left, Rmax_right by lra. lra.
  - exists x. rewrite Rmin_left, Rmax_right in * by lra. auto.
Qed.
(** positions along a line in direction (1, 1) or (1, 1, 1) *)
Definition g1 k x := x + 1/2 * k * sin (tau x).
Definition g2 k dl x := x + 1/2 * k * sin (tau (x + dl)) * sin (tau x).
Definition g3 k dl em x := x + 1/2 * k * sin (tau (x + dl)) * sin (tau x) * sin (tau (x + em)).
Lemma g1_d k x : is_derive (g1 k) x (1 + k * PI * cos (tau x)).
Proof. unfold g1, tau. auto_derive; [trivial |]. field. Qed.
Lemma g2_d k dl x : is_derive (g2 k dl) x (1 + k * PI * sin (tau (x + dl) + tau x)).
Proof. unfold g2, tau. auto_derive; [trivial |]. rewrite sin_plus. field. Qed.
Lemma g3_d k dl em x : is_derive (g3 k dl em) x (1 + k * PI * wave (tau (x + dl)) (tau x) (tau (x + em))).
Proof. unfold g3, wave, tau. auto_derive; [trivial |]. field. Qed.
Lemma g1_pos k x : Rabs k * PI < 1 -> 0 < 1 + k * PI * cos (tau x).
Proof. intros H. pose proof PI_above. pose proof (small_product k PI 1 H ltac:(lra) _ (COS_bound (tau x))). lra. Qed.
Lemma g2_pos k dl x : Rabs k * PI < 1 -> 0 < 1 + k * PI * sin (tau (x + dl) + tau x).
Proof. intros H. pose proof PI_above. pose proof (small_product k PI 1 H ltac:(lra) _ (SIN_bound (tau (x + dl) + tau x))). lra. Qed.

Lemma g_in (h : R -> R) dh x : (forall y, is_derive h y (dh y)) -> (forall y, 0 < dh y) -> forall lo hi, h lo = lo -> h hi = hi -> lo <= x <= hi -> lo <= h x <= hi.
Proof.
  intros H P lo hi E1 E2 [L1 L2].
  split.
  - rewrite <- E1. destruct L1 as [L1 | ->]; [left; now apply (increasing h dh H P) | right; reflexivity].
  - rewrite <- E2. destruct L2 as [L2 | ->]; [left; now apply (increasing h dh H P) | right; reflexivity].
Qed.
Lemma scale_range a b u : a < b -> unit u -> a <= (b - a) * u + a <= b.
Proof. unfold unit. intros. nra. Qed.
Lemma scale_inj a b u v : a < b -> (b - a) * u + a = (b - a) * v + a -> u = v.
Proof. intros. apply Rmult_eq_reg_l with (b - a); lra. Qed.
Lemma scale_back a b X : a < b -> a <= X <= b -> unit ((X - a) / (b - a)) /\ (b - a) * ((X - a) / (b - a)) + a = X.
Proof.
  intros L H. split; [| field; lra]. unfold unit. split.
  - apply Rmult_le_pos; [lra | left; apply Rinv_0_lt_compat; lra].
  - apply Rmult_le_reg_r with (b - a); [lra |]. unfold Rdiv. rewrite Rmult_assoc, Rinv_l by lra. lra.
Qed.

Lemma g1_0 k : g1 k 0 = 0. Proof. unfold g1. rewrite sin_tau_0. ring. Qed.
Lemma g1_1 k : g1 k 1 = 1. Proof. unfold g1. rewrite sin_tau_1. ring. Qed.
Lemma crazy1_bijection a b k : a < b -> Rabs k * PI < 1 -> bijection1 (crazy1 a b k) a b.
Proof.
  intros Hab Hk. pose proof (g1_d k) as D. assert (P : forall y, 0 < 1 + k * PI * cos (tau y)) by (intros; now apply g1_pos).
  assert (E : forall r, crazy1 a b k r = (b - a) * g1 k r + a) by reflexivity.
  refine (conj _ (conj _ _)).
  - intros r Hr. rewrite E. apply scale_range; [exact Hab |]. apply (g_in (g1 k) _ r D P 0 1 (g1_0 k) (g1_1 k) Hr).
  - intros r r' _ _. rewrite !E. intros K. apply (injective (g1 k) _ D P). now apply (scale_inj a b).
  - intros X HX. destruct (scale_back a b X Hab HX) as [U B].
    destruct (reach (g1 k) _ 0 1 ((X - a) / (b - a)) D ltac:(lra)) as [r [Hr Er]]; [rewrite g1_0, g1_1; exact U |].
    exists r. split; [exact Hr |]. now rewrite E, Er.
Qed.

(** the ends of the line through the square or cube in direction (1, ..., 1) *)
Lemma crazy2_line a b c d k r s : crazy2 a b c d k r s = ((b - a) * (g2 k (r - s) s + (r - s)) + a, (d - c) * g2 k (r - s) s + c).
Proof.
  unfold crazy2, g2. replace (s + (r - s)) with r by ring. destruct (Req_EM_T k 0) as [-> |]; f_equal; ring.
Qed.
Lemma crazy2_fixed k dl s : sin (tau (s + dl)) = 0 \/ sin (tau s) = 0 -> g2 k dl s = s.
Proof. unfold g2. intros [-> | ->]; ring. Qed.
Lemma tau_zero x : x = 0 \/ x = 1 -> sin (tau x) = 0.
Proof. intros [-> | ->]; [apply sin_tau_0 | apply sin_tau_1]. Qed.
Definition low dl := Rmax 0 (- dl).
Definition high dl := Rmin 1 (1 - dl).
Lemma low_fixed k dl : g2 k dl (low dl) = low dl.
Proof.
  apply crazy2_fixed. unfold low. apply Rmax_case_strong; intros; [right | left]; apply tau_zero; left; ring.
Qed.
Lemma high_fixed k dl : g2 k dl (high dl) = high dl.
Proof.
  apply crazy2_fixed. unfold high. apply Rmin_case_strong; intros; [right | left]; apply tau_zero; right; ring.
Qed.
Lemma low_spec dl s : low dl <= s <-> 0 <= s /\ 0 <= s + dl.
Proof. unfold low. split; [intros H; pose proof (Rmax_l 0 (- dl)); pose proof (Rmax_r 0 (- dl)); lra | intros; apply Rmax_lub; lra]. Qed.
Lemma high_spec dl s : s <= high dl <-> s <= 1 /\ s + dl <= 1.
Proof. unfold high. split; [intros H; pose proof (Rmin_l 1 (1 - dl)); pose proof (Rmin_r 1 (1 - dl)); lra | intros; apply Rmin_glb; lra]. Qed.
Lemma crazy2_bijection a b c d k : a < b -> c < d -> Rabs k * PI < 1 -> bijection2 (crazy2 a b c d k) a b c d.
Proof.
  intros Hab Hcd Hk.
  assert (D : forall dl y, is_derive (g2 k dl) y (1 + k * PI * sin (tau (y + dl) + tau y))) by (intros; apply g2_d).
  assert (P : forall dl y, 0 < 1 + k * PI * sin (tau (y + dl) + tau y)) by (intros; now apply g2_pos).
  refine (conj _ (conj _ _)).
  - intros r s Hr Hs. rewrite crazy2_line. cbn [fst snd]. unfold unit in *.
    assert (L : low (r - s) <= s) by (apply low_spec; lra). assert (H : s <= high (r - s)) by (apply high_spec; lra).
    destruct (g_in (g2 k (r - s)) _ s (D _) (P _) _ _ (low_fixed k (r - s)) (high_fixed k (r - s)) (conj L H)) as [L' H'].
    apply low_spec in L'. apply high_spec in H'. split; apply scale_range; unfold unit; auto; lra.
  - intros r s r' s' _ _ _ _. rewrite !crazy2_line. intros [= E1 E2].
    apply (scale_inj a b _ _ Hab) in E1. apply (scale_inj c d _ _ Hcd) in E2.
    assert (Ed : r - s = r' - s') by lra. rewrite <- Ed in E2.
    assert (s = s') by (apply (injective (g2 k (r - s)) _ (D _) (P _)); exact E2). lra.
  - intros X Y HX HY. destruct (scale_back a b X Hab HX) as [UX BX]. destruct (scale_back c d Y Hcd HY) as [UY BY].
    set (x := (X - a) / (b - a)) in *. set (y := (Y - c) / (d - c)) in *. unfold unit in *.
    destruct (reach (g2 k (x - y)) _ (low (x - y)) (high (x - y)) y (D _)) as [s [[Hs1 Hs2] Es]].
    + apply Rle_trans with y; [apply low_spec; lra | apply high_spec; lra].
    + rewrite low_fixed, high_fixed. split; [apply low_spec; lra | apply high_spec; lra].
    + apply low_spec in Hs1. apply high_spec in Hs2. exists (s + (x - y)), s. split; [lra |]. split; [lra |].
      rewrite crazy2_line. replace (s + (x - y) - s) with (x - y) by ring. rewrite Es.
      replace (y + (x - y)) with x by ring. now rewrite BX, BY.
Qed.

Lemma crazy3_line a b c d e f k r s t : crazy3 a b c d e f k r s t =
  ((b - a) * (g3 k (r - s) (t - s) s + (r - s)) + a, (d - c) * g3 k (r - s) (t - s) s + c, (f - e) * (g3 k (r - s) (t - s) s + (t - s)) + e).
Proof.
  unfold crazy3, g3. replace (s + (r - s)) with r by ring. replace (s + (t - s)) with t by ring.
  destruct (Req_EM_T k 0) as [-> |]; (apply f_equal2; [apply f_equal2 |]); ring.
Qed.
Lemma g3_fixed k dl em s : sin (tau (s + dl)) = 0 \/ sin (tau s) = 0 \/ sin (tau (s + em)) = 0 -> g3 k dl em s = s.
Proof. unfold g3. intros [-> | [-> | ->]]; ring. Qed.
Definition low3 dl em := Rmax (low dl) (- em).
Definition high3 dl em := Rmin (high dl) (1 - em).
Lemma low3_fixed k dl em : g3 k dl em (low3 dl em) = low3 dl em.
Proof.
  apply g3_fixed. unfold low3, low. apply Rmax_case_strong; intros; [| right; right; apply tau_zero; left; ring].
  apply Rmax_case_strong; intros; [right; left | left]; apply tau_zero; left; ring.
Qed.
Lemma high3_fixed k dl em : g3 k dl em (high3 dl em) = high3 dl em.
Proof.
  apply g3_fixed. unfold high3, high. apply Rmin_case_strong; intros; [| right; right; apply tau_zero; right; ring].
  apply Rmin_case_strong; intros; [right; left | left]; apply tau_zero; right; ring.
Qed.
Lemma low3_spec dl em s : low3 dl em <= s <-> 0 <= s /\ 0 <= s + dl /\ 0 <= s + em.
Proof.
  unfold low3. split.
  - intros H. pose proof (Rmax_l (low dl) (- em)). pose proof (Rmax_r (low dl) (- em)).
    assert (L : low dl <= s) by lra. apply low_spec in L. lra.
  - intros H. apply Rmax_lub; [apply low_spec; lra | lra].
Qed.
Lemma high3_spec dl em s : s <= high3 dl em <-> s <= 1 /\ s + dl <= 1 /\ s + em <= 1.
Proof.
  unfold high3. split.
  - intros H. pose proof (Rmin_l (high dl) (1 - em)). pose proof (Rmin_r (high dl) (1 - em)).
    assert (L : s <= high dl) by lra. apply high_spec in L. lra.
  - intros H. apply Rmin_glb; [apply high_spec; lra | lra].
Qed.
Lemma crazy3_bijection a b c d e f k : a < b -> c < d -> e < f -> Rabs k * (2 * PI) < sqrt 3 -> bijection3 (crazy3 a b c d e f k) a b c d e f.
Proof.
  intros Hab Hcd Hef Hk.
  assert (D : forall dl em y, is_derive (g3 k dl em) y (1 + k * PI * wave (tau (y + dl)) (tau y) (tau (y + em)))) by (intros; apply g3_d).
  assert (P : forall dl em y, 0 < 1 + k * PI * wave (tau (y + dl)) (tau y) (tau (y + em))) by (intros; now apply wave_small).
  refine (conj _ (conj _ _)).
  - intros r s t Hr Hs Ht. rewrite crazy3_line. cbn [fst snd]. unfold unit in *.
    assert (L : low3 (r - s) (t - s) <= s) by (apply low3_spec; lra). assert (H : s <= high3 (r - s) (t - s)) by (apply high3_spec; lra).
    destruct (g_in (g3 k (r - s) (t - s)) _ s (D _ _) (P _ _) _ _ (low3_fixed k _ _) (high3_fixed k _ _) (conj L H)) as [L' H'].
    apply low3_spec in L'. apply high3_spec in H'. split; [| split]; apply scale_range; unfold unit; auto; lra.
  - intros r s t r' s' t' _ _ _ _ _ _. rewrite !crazy3_line. intros [= E1 E2 E3].
    apply (scale_inj a b _ _ Hab) in E1. apply (scale_inj c d _ _ Hcd) in E2. apply (scale_inj e f _ _ Hef) in E3.
    assert (Ed : r - s = r' - s') by lra. assert (Ee : t - s = t' - s') by lra. rewrite <- Ed, <- Ee in E2.
    assert (s = s') by (apply (injective (g3 k (r - s) (t - s)) _ (D _ _) (P _ _)); exact E2). lra.
  - intros X Y Z HX HY HZ. destruct (scale_back a b X Hab HX) as [UX BX]. destruct (scale_back c d Y Hcd HY) as [UY BY].
    destruct (scale_back e f Z Hef HZ) as [UZ BZ].
    set (x := (X - a) / (b - a)) in *. set (y := (Y - c) / (d - c)) in *. set (z := (Z - e) / (f - e)) in *. unfold unit in *.
    destruct (reach (g3 k (x - y) (z - y)) _ (low3 (x - y) (z - y)) (high3 (x - y) (z - y)) y (D _ _)) as [s [[Hs1 Hs2] Es]].
    + apply Rle_trans with y; [apply low3_spec; lra | apply high3_spec; lra].
    + rewrite low3_fixed, high3_fixed. split; [apply low3_spec; lra | apply high3_spec; lra].
    + apply low3_spec in Hs1. apply high3_spec in Hs2. exists (s + (x - y)), s, (s + (z - y)).
      split; [lra |]. split; [lra |]. split; [lra |].
      rewrite crazy3_line. replace (s + (x - y) - s) with (x - y) by ring. replace (s + (z - y) - s) with (z - y) by ring. rewrite Es.
      replace (y + (x - y)) with x by ring. replace (y + (z - y)) with z by ring. now rewrite BX, BY, BZ.
Qed.
(** with c = 0.3, the largest value the documentation allows, two points of the cube have the same image *)
Lemma crazy3_not_injective a b c d e f :
  exists s s', unit s /\ unit s' /\ s <> s' /\ crazy3 a b c d e f (3/10) s s s = crazy3 a b c d e f (3/10) s' s' s'.
Proof.
  set (h := g3 (3/10) 0 0).
  assert (A : h (3/8) <= h (1/3)).
  { unfold h, g3. rewrite !Rplus_0_r. replace (tau (1/3)) with (2 * (PI / 3)) by (unfold tau; field).
    replace (tau (3/8)) with (3 * (PI / 4)) by (unfold tau; field). rewrite sin_2PI3, sin_3PI4.
    pose proof sqrt3_sq as S3. pose proof sqrt3_pos as P3. pose proof sqrt2_neq_0 as N2.
    assert (P2 : 0 < sqrt 2) by (apply sqrt_lt_R0; lra). assert (S2 : sqrt 2 * sqrt 2 = 2) by (apply sqrt_sqrt; lra).
    replace (1 / 2 * (3 / 10) * (1 / sqrt 2) * (1 / sqrt 2) * (1 / sqrt 2)) with (3 / 20 * (sqrt 2 / ((sqrt 2 * sqrt 2) * (sqrt 2 * sqrt 2)))) by (field; exact N2).
    replace (1 / 2 * (3 / 10) * (sqrt 3 / 2) * (sqrt 3 / 2) * (sqrt 3 / 2)) with (3 / 160 * ((sqrt 3 * sqrt 3) * sqrt 3)) by field.
    rewrite S2, S3. assert (sqrt 2 <= 142/100) by nra. assert (173/100 <= sqrt 3) by nra. lra. }
  destruct (reach h _ 0 (1/3) (h (3/8)) (g3_d (3/10) 0 0)) as [s [Hs E]]; [lra | |].
  - split; [| exact A]. unfold h at 1. unfold g3. rewrite !Rplus_0_r, sin_tau_0.
    unfold h, g3. rewrite !Rplus_0_r. replace (tau (3/8)) with (3 * (PI / 4)) by (unfold tau; field). rewrite sin_3PI4.
    assert (P2 : 0 < sqrt 2) by (apply sqrt_lt_R0; lra). assert (0 < 1 / sqrt 2) by (apply Rdiv_lt_0_compat; lra).
    assert (0 < 1 / sqrt 2 * (1 / sqrt 2) * (1 / sqrt 2)) by (apply Rmult_lt_0_compat; [apply Rmult_lt_0_compat |]; assumption). lra.
  - exists s, (3/8). split; [unfold unit; lra |]. split; [unfold unit; lra |]. split; [lra |].
    rewrite !crazy3_line. unfold Rminus. rewrite !Rplus_opp_r. fold h. now rewrite E.
Qed.
