From Coq Require Import List Arith Reals Lra Lia.
From Coquelicot Require Import Coquelicot.
From Verif Require Import MappingModel MappingSpec.
Import ListNotations.
Local Open Scope R_scope.

(** * differentiating functions of two variables *)
Notation D2 := differentiable_pt_lim.

Lemma D2_val f x y lx ly kx ky : D2 f x y kx ky -> kx = lx -> ky = ly -> D2 f x y lx ly.
Proof. intros H <- <-. exact H. Qed.
Lemma D2_ext f g x y lx ly : (forall u v, g u v = f u v) -> D2 f x y lx ly -> D2 g x y lx ly.
Proof. intros E H. apply (differentiable_pt_lim_ext f); [apply locally_2d_forall; intros; symmetry; apply E | exact H]. Qed.

Lemma D2_const c x y : D2 (fun _ _ => c) x y 0 0.
Proof.
  intros eps. apply locally_2d_forall. intros u v.
  replace (c - c - (0 * (u - x) + 0 * (v - y))) with 0 by ring. rewrite Rabs_R0.
  apply Rmult_le_pos; [left; apply cond_pos | apply Rle_trans with (Rabs (u - x)); [apply Rabs_pos | apply Rmax_l]].
Qed.
Lemma D2_linear a b x y : D2 (fun u v => a * u + b * v) x y a b.
Proof.
  intros eps. apply locally_2d_forall. intros u v.
  replace (a * u + b * v - (a * x + b * y) - (a * (u - x) + b * (v - y))) with 0 by ring. rewrite Rabs_R0.
  apply Rmult_le_pos; [left; apply cond_pos | apply Rle_trans with (Rabs (u - x)); [apply Rabs_pos | apply Rmax_l]].
Qed.
Lemma D2_prod x y : D2 (fun u v => u * v) x y y x.
Proof.
  intros eps. exists eps. intros u v Hu Hv.
  replace (u * v - x * y - (y * (u - x) + x * (v - y))) with ((u - x) * (v - y)) by ring.
  rewrite Rabs_mult. apply Rmult_le_compat; try apply Rabs_pos; [left; exact Hu | apply Rmax_r].
Qed.
Lemma D2_fst x y : D2 (fun u _ => u) x y 1 0.
Proof. apply (D2_ext (fun u v => 1 * u + 0 * v)); [intros; ring | apply D2_linear]. Qed.
Lemma D2_snd x y : D2 (fun _ v => v) x y 0 1.
Proof. apply (D2_ext (fun u v => 0 * u + 1 * v)); [intros; ring | apply D2_linear]. Qed.

Lemma D2_plus f g x y a b c d : D2 f x y a b -> D2 g x y c d -> D2 (fun u v => f u v + g u v) x y (a + c) (b + d).
Proof.
  intros Hf Hg. eapply D2_val.
  - apply (differentiable_pt_lim_comp (fun u v => u + v) f g); [| exact Hf | exact Hg].
    apply (D2_ext (fun u v => 1 * u + 1 * v)); [intros; ring | apply D2_linear].
  - ring.
  - ring.
Qed.
Lemma D2_minus f g x y a b c d : D2 f x y a b -> D2 g x y c d -> D2 (fun u v => f u v - g u v) x y (a - c) (b - d).
Proof.
  intros Hf Hg. eapply D2_val.
  - apply (differentiable_pt_lim_comp (fun u v => u - v) f g); [| exact Hf | exact Hg].
    apply (D2_ext (fun u v => 1 * u + (-1) * v)); [intros; ring | apply D2_linear].
  - ring.
  - ring.
Qed.
Lemma D2_mult f g x y a b c d : D2 f x y a b -> D2 g x y c d ->
  D2 (fun u v => f u v * g u v) x y (a * g x y + f x y * c) (b * g x y + f x y * d).
Proof.
  intros Hf Hg. eapply D2_val.
  - apply (differentiable_pt_lim_comp (fun u v => u * v) f g); [apply D2_prod | exact Hf | exact Hg].
  - ring.
  - ring.
Qed.
Lemma D2_1 (h : R -> R) f x y l a b : is_derive h (f x y) l -> D2 f x y a b -> D2 (fun u v => h (f u v)) x y (l * a) (l * b).
Proof.
  intros Hh Hf. apply is_derive_Reals in Hh. eapply D2_val.
  - apply (differentiable_pt_lim_comp (fun u _ => h u) f f); [| exact Hf | exact Hf].
    apply differentiable_pt_lim_proj1_0. exact Hh.
  - ring.
  - ring.
Qed.
Lemma D2_comp (f : R -> R -> R) g h x y a b c d e k : D2 f (g x y) (h x y) a b -> D2 g x y c d -> D2 h x y e k ->
  D2 (fun u v => f (g u v) (h u v)) x y (a * c + b * e) (a * d + b * k).
Proof. apply differentiable_pt_lim_comp. Qed.
Lemma D2_of_1 (h : R -> R) x y l : is_derive h x l -> D2 (fun u _ => h u) x y l 0.
Proof. intros H. apply differentiable_pt_lim_proj1_0. now apply is_derive_Reals. Qed.
Lemma D2_of_2 (h : R -> R) x y l : is_derive h y l -> D2 (fun _ v => h v) x y 0 l.
Proof. intros H. eapply D2_val; [apply (D2_1 h (fun _ v => v)); [exact H | apply D2_snd] | ring | ring]. Qed.

(** partial derivatives of differentiable functions *)
Lemma D2_partial f x y a b : D2 f x y a b -> is_derive (fun u => f u y) x a /\ is_derive (fun v => f x v) y b.
Proof.
  intros H. split; apply is_derive_Reals.
  - replace a with (a * 1 + b * 0) by ring.
    apply (derivable_pt_lim_comp_2d f (fun u => u) (fun _ => y)); [exact H | apply derivable_pt_lim_id | apply derivable_pt_lim_const].
  - replace b with (a * 0 + b * 1) by ring.
    apply (derivable_pt_lim_comp_2d f (fun _ => x) (fun v => v)); [exact H | apply derivable_pt_lim_const | apply derivable_pt_lim_id].
Qed.

Ltac rg := cbn beta; ring.
Ltac rf := cbn beta; field.

(** * jacobian_of2 under changes of variables *)
Lemma jac_comp f J g G x y : jacobian_of2 g G x y -> jacobian_of2 f J (fst (g x y)) (snd (g x y)) ->
  jacobian_of2 (fun u v => f (fst (g u v)) (snd (g u v)))
    (fun u v i j => J (fst (g u v)) (snd (g u v)) i 0%nat * G u v 0%nat j + J (fst (g u v)) (snd (g u v)) i 1%nat * G u v 1%nat j) x y.
Proof.
  intros [G0 G1] [F0 F1]. split.
  - exact (D2_comp (fun u v => fst (f u v)) _ _ _ _ _ _ _ _ _ _ F0 G0 G1).
  - exact (D2_comp (fun u v => snd (f u v)) _ _ _ _ _ _ _ _ _ _ F1 G0 G1).
Qed.
Lemma jac_val f J K x y : jacobian_of2 f K x y ->
  (forall i j, (i < 2)%nat -> (j < 2)%nat -> J x y i j = K x y i j) -> jacobian_of2 f J x y.
Proof.
  intros [H0 H1] E. split; (eapply D2_val; [eassumption | symmetry; apply E; lia | symmetry; apply E; lia]).
Qed.
Lemma jac_ext f g J x y : (forall u v, g u v = f u v) -> jacobian_of2 f J x y -> jacobian_of2 g J x y.
Proof. intros E [H0 H1]. split; (eapply D2_ext; [intros; rewrite E; reflexivity | assumption]). Qed.
Lemma two i : (i < 2)%nat -> i = 0%nat \/ i = 1%nat. Proof. lia. Qed.
Ltac cases2 := let i := fresh in let j := fresh in let Hi := fresh in let Hj := fresh in
  intros i j Hi Hj; destruct (two i Hi) as [-> | ->]; destruct (two j Hj) as [-> | ->].

Lemma is_derive_val (f : R -> R) x l k : is_derive f x k -> k = l -> is_derive f x l.
Proof. now intros H <-. Qed.

Lemma sin_tau r : is_derive (fun u => sin (tau u)) r (2 * PI * cos (tau r)).
Proof. unfold tau. auto_derive; [trivial | ring]. Qed.

(** * crazy *)
Lemma crazy1_jac a b k x : jacobian_of1 (crazy1 a b k) (crazy1_J a b k) x.
Proof.
  unfold jacobian_of1, crazy1, crazy1_J, mat1, tau. cbn [nth].
  destruct (Req_EM_T k 0) as [-> |]; auto_derive; trivial; field.
Qed.
Lemma sinsin x y : D2 (fun u v => sin (tau u) * sin (tau v)) x y (2 * PI * cos (tau x) * sin (tau y)) (sin (tau x) * (2 * PI * cos (tau y))).
Proof.
  eapply D2_val; [eapply D2_mult; [apply (D2_of_1 (fun u => sin (tau u))), sin_tau | apply (D2_of_2 (fun u => sin (tau u))), sin_tau] | rg | rg].
Qed.
Lemma wavy a b k m n x y : D2 (fun u v => (b - a) * (m * u + n * v + 1/2 * k * sin (tau u) * sin (tau v)) + a) x y
   ((b - a) * (m + 1/2 * k * (2 * PI * cos (tau x) * sin (tau y)))) ((b - a) * (n + 1/2 * k * (sin (tau x) * (2 * PI * cos (tau y))))).
Proof.
  apply (D2_ext (fun u v => (b - a) * ((m * u + n * v) + 1/2 * k * (sin (tau u) * sin (tau v))) + a)); [intros; ring |].
  eapply D2_val.
  - eapply D2_plus; [eapply D2_mult; [apply D2_const | eapply D2_plus; [apply D2_linear | eapply D2_mult; [apply D2_const | apply sinsin]]] | apply D2_const].
  - rg.
  - rg.
Qed.
Lemma straight a b m n x y : D2 (fun u v => (b - a) * (m * u + n * v) + a) x y ((b - a) * m) ((b - a) * n).
Proof.
  eapply D2_val; [eapply D2_plus; [eapply D2_mult; [apply D2_const | apply D2_linear] | apply D2_const] | rg | rg].
Qed.
Lemma crazy2_jac a b c d k x y : jacobian_of2 (crazy2 a b c d k) (crazy2_J a b c d k) x y.
Proof.
  unfold jacobian_of2, crazy2, crazy2_J, mat2.
  destruct (Req_EM_T k 0); cbn [fst snd nth]; split.
  - apply (D2_ext (fun u v => (b - a) * (1 * u + 0 * v) + a)); [intros; ring |].
    eapply D2_val; [apply straight | rg | rg].
  - apply (D2_ext (fun u v => (d - c) * (0 * u + 1 * v) + c)); [intros; ring |].
    eapply D2_val; [apply straight | rg | rg].
  - apply (D2_ext (fun u v => (b - a) * (1 * u + 0 * v + 1/2 * k * sin (tau u) * sin (tau v)) + a)); [intros; ring |].
    eapply D2_val; [apply wavy | rf | rf].
  - apply (D2_ext (fun u v => (d - c) * (0 * u + 1 * v + 1/2 * k * sin (tau u) * sin (tau v)) + c)); [intros; ring |].
    eapply D2_val; [apply wavy | rf | rf].
Qed.
Lemma crazy3_jac a b c d e f k x y z : jacobian_of3 (crazy3 a b c d e f k) (crazy3_J a b c d e f k) x y z.
Proof.
  intros m Hm. unfold crazy3, crazy3_J, mat3, tau.
  assert (m = 0 \/ m = 1 \/ m = 2)%nat as [-> | [-> | ->]] by lia;
    destruct (Req_EM_T k 0) as [-> |]; cbn [fst snd nth coordinate3]; refine (conj _ (conj _ _));
    auto_derive; trivial; field.
Qed.

(** * linear regions *)
Lemma linear2_jac x0 x1 y0 y1 x y : jacobian_of2 (linear2 x0 x1 y0 y1) (fun _ _ => linear_J [(x0, x1 - x0); (y0, y1 - y0)]) x y.
Proof.
  unfold jacobian_of2, linear2, linear_J. cbn [fst snd nth Nat.eqb]. split.
  - apply (D2_ext (fun u v => (x1 - x0) * (1 * u + 0 * v) + x0)); [intros; ring |].
    eapply D2_val; [apply straight | rg | rg].
  - apply (D2_ext (fun u v => (y1 - y0) * (0 * u + 1 * v) + y0)); [intros; ring |].
    eapply D2_val; [apply straight | rg | rg].
Qed.
Lemma linear3_jac x0 x1 y0 y1 z0 z1 x y z :
  jacobian_of3 (linear3 x0 x1 y0 y1 z0 z1) (fun _ _ _ => linear_J [(x0, x1 - x0); (y0, y1 - y0); (z0, z1 - z0)]) x y z.
Proof.
  intros m Hm. unfold linear3, linear_J.
  assert (m = 0 \/ m = 1 \/ m = 2)%nat as [-> | [-> | ->]] by lia; cbn [fst snd nth coordinate3 Nat.eqb]; refine (conj _ (conj _ _));
    auto_derive; trivial; ring.
Qed.
Lemma linear_two x0 x1 y0 y1 r s : x0 < x1 -> y0 < y1 ->
  match linear_init [x0; x1; y0; y1] with Some o => linear o [r; s] | None => None end
  = Some [fst (linear2 x0 x1 y0 y1 r s); snd (linear2 x0 x1 y0 y1 r s)].
Proof.
  intros H0 H1. unfold linear_init. cbn [length Nat.leb bounds_pairs].
  destruct (Rlt_dec x0 x1); [| tauto]. destruct (Rlt_dec y0 y1); [| tauto].
  unfold linear. cbn. reflexivity.
Qed.
Lemma linear_three x0 x1 y0 y1 z0 z1 r s t : x0 < x1 -> y0 < y1 -> z0 < z1 ->
  match linear_init [x0; x1; y0; y1; z0; z1] with Some o => linear o [r; s; t] | None => None end
  = Some (let p := linear3 x0 x1 y0 y1 z0 z1 r s t in [fst (fst p); snd (fst p); snd p]).
Proof.
  intros H0 H1 H2. unfold linear_init. cbn [length Nat.leb bounds_pairs].
  destruct (Rlt_dec x0 x1); [| tauto]. destruct (Rlt_dec y0 y1); [| tauto]. destruct (Rlt_dec z0 z1); [| tauto].
  unfold linear. cbn. reflexivity.
Qed.
(** any number of axes: the i-th coordinate depends on the i-th variable only, with slope delta *)
Lemma linear_axis o rst p i : linear o rst = Some p -> (i < length o)%nat ->
  nth i p 0 = nth i rst 0 * snd (nth i o (0, 0)) + fst (nth i o (0, 0)).
Proof.
  unfold linear. destruct (length rst =? length o)%nat eqn:E; [| discriminate]. intros [= <-] Hi.
  apply Nat.eqb_eq in E. revert rst i E Hi. induction o as [| a o IH]; intros [| b rst] i E Hi; cbn in *; try lia.
  destruct i; [reflexivity | apply IH; lia].
Qed.

(** * curves *)
Lemma line_velocity p q : velocity_of (line p q) (line_d p q).
Proof. intros o. unfold line, line_d. cbn [fst snd]. split; auto_derive; trivial; ring. Qed.
Lemma arc_theta_lin cw c p q o : arc_theta cw c p q o = o * arc_span cw c p q + arc_theta cw c p q 0.
Proof. unfold arc_span, arc_theta. destruct cw; [destruct (Rlt_dec _ _) | destruct (Rlt_dec _ _)]; ring. Qed.
Lemma arc_theta_d cw c p q o : is_derive (arc_theta cw c p q) o (arc_span cw c p q).
Proof.
  apply (is_derive_ext (fun o => o * arc_span cw c p q + arc_theta cw c p q 0)); [intros; symmetry; apply arc_theta_lin |].
  auto_derive; trivial; ring.
Qed.
Lemma arc_velocity cw c p q : velocity_of (arc cw c p q) (arc_d cw c p q).
Proof.
  intros o. unfold arc, arc_d. cbn [fst snd]. split.
  - eapply is_derive_val.
    + apply (is_derive_comp (fun t => fst c + radius c p * cos t) (arc_theta cw c p q)); [| apply arc_theta_d].
      auto_derive; [trivial | reflexivity].
    + unfold scal, mult, one. cbn. unfold mult, one. rg.
  - eapply is_derive_val.
    + apply (is_derive_comp (fun t => snd c + radius c p * sin t) (arc_theta cw c p q)); [| apply arc_theta_d].
      auto_derive; [trivial | reflexivity].
    + unfold scal, mult, one. cbn. unfold mult, one. rg.
Qed.

(** * transfinite interpolation *)
Lemma tf_one_d L D R' U dL dD dR dU x y : is_derive L x dL -> is_derive D y dD -> is_derive R' x dR -> is_derive U y dU ->
  D2 (tf_one L D R' U) x y (- U y + D y + (1 - y) * dL + y * dR + ((1 - y) * L 0 + y * R' 0) - ((1 - y) * L 1 + y * R' 1))
     ((1 - x) * dU + x * dD - L x + R' x - (1 - x) * (- L 0 + R' 0) - x * (- L 1 + R' 1)).
Proof.
  intros HL HD HR HU. unfold tf_one.
  pose proof (D2_of_1 L x y _ HL) as KL. pose proof (D2_of_1 R' x y _ HR) as KR.
  pose proof (D2_of_2 D x y _ HD) as KD. pose proof (D2_of_2 U x y _ HU) as KU.
  assert (P1 : D2 (fun u v => 1 - u) x y (0 - 1) (0 - 0)) by (eapply D2_minus; [apply D2_const | apply D2_fst]).
  assert (P2 : D2 (fun u v => 1 - v) x y (0 - 0) (0 - 1)) by (eapply D2_minus; [apply D2_const | apply D2_snd]).
  assert (C0 : D2 (fun u v => (1 - v) * L 0 + v * R' 0) x y 0 (- L 0 + R' 0)).
  { eapply D2_val; [eapply D2_plus; [eapply D2_mult; [exact P2 | apply D2_const] | eapply D2_mult; [apply D2_snd | apply D2_const]] | rg | rg]. }
  assert (C1 : D2 (fun u v => (1 - v) * L 1 + v * R' 1) x y 0 (- L 1 + R' 1)).
  { eapply D2_val; [eapply D2_plus; [eapply D2_mult; [exact P2 | apply D2_const] | eapply D2_mult; [apply D2_snd | apply D2_const]] | rg | rg]. }
  eapply D2_val.
  - eapply D2_minus.
    + eapply D2_minus.
      * eapply D2_plus; [eapply D2_plus; [eapply D2_plus |] |].
        -- eapply D2_mult; [exact P1 | exact KU].
        -- eapply D2_mult; [apply D2_fst | exact KD].
        -- eapply D2_mult; [exact P2 | exact KL].
        -- eapply D2_mult; [apply D2_snd | exact KR].
      * eapply D2_mult; [exact P1 | exact C0].
    + eapply D2_mult; [apply D2_fst | exact C1].
  - rg.
  - rg.
Qed.
Lemma tf2_jac x0 x1 y0 y1 dx0 dx1 dy0 dy1 x y :
  velocity_of x0 dx0 -> velocity_of x1 dx1 -> velocity_of y0 dy0 -> velocity_of y1 dy1 ->
  jacobian_of2 (tf2 x0 x1 y0 y1) (tf2_J x0 x1 y0 y1 dx0 dx1 dy0 dy1) x y.
Proof.
  intros V0 V1 W0 W1. unfold jacobian_of2, tf2, transfinite, tf2_J, mat2. cbn [fst snd nth]. split.
  - apply tf_one_d; [apply W0 | apply V1 | apply W1 | apply V0].
  - apply tf_one_d; [apply W0 | apply V1 | apply W1 | apply V0].
Qed.

(** * elements in regions *)
Lemma axis_d o d x : is_derive (axis o d) x (d / 2).
Proof. unfold axis. auto_derive; trivial; field. Qed.
Lemma in_element1_jac f J o d x : (forall r, jacobian_of1 f J r) -> jacobian_of1 (in_element1 f o d) (in_element1_J J o d) x.
Proof.
  intros H. unfold jacobian_of1, in_element1, in_element1_J. eapply is_derive_val.
  - apply (is_derive_comp f (axis o d)); [apply H | apply axis_d].
  - unfold scal. cbn. unfold mult. rg.
Qed.
Lemma axes_jac o0 o1 d0 d1 x y : jacobian_of2 (fun u v => (axis o0 d0 u, axis o1 d1 v)) (fun _ _ => mat2 (d0 / 2) 0 0 (d1 / 2)) x y.
Proof.
  split; cbn.
  - apply (D2_of_1 (axis o0 d0)), axis_d.
  - apply (D2_of_2 (axis o1 d1)), axis_d.
Qed.
Lemma in_element2_jac f J o0 o1 d0 d1 x y : (forall r s, jacobian_of2 f J r s) ->
  jacobian_of2 (in_element2 f o0 o1 d0 d1) (in_element2_J J o0 o1 d0 d1) x y.
Proof.
  intros H. eapply jac_val; [apply (jac_comp f J (fun u v => (axis o0 d0 u, axis o1 d1 v))); [apply axes_jac | apply H] |].
  cases2; unfold in_element2_J, mat2; cbn [nth fst snd]; ring.
Qed.
Lemma in_element3_jac f J o0 o1 o2 d0 d1 d2 x y z : (forall r s t, jacobian_of3 f J r s t) ->
  jacobian_of3 (in_element3 f o0 o1 o2 d0 d1 d2) (in_element3_J J o0 o1 o2 d0 d1 d2) x y z.
Proof.
  intros H m Hm. destruct (H (axis o0 d0 x) (axis o1 d1 y) (axis o2 d2 z) m Hm) as [A [B C]].
  unfold in_element3, in_element3_J. cbn [nth]. refine (conj _ (conj _ _)).
  - eapply is_derive_val; [apply (is_derive_comp (fun u => coordinate3 m (f u _ _)) (axis o0 d0)); [exact A | apply axis_d] | unfold scal; cbn; unfold mult; cbn; ring].
  - eapply is_derive_val; [apply (is_derive_comp (fun u => coordinate3 m (f _ u _)) (axis o1 d1)); [exact B | apply axis_d] | unfold scal; cbn; unfold mult; cbn; ring].
  - eapply is_derive_val; [apply (is_derive_comp (fun u => coordinate3 m (f _ _ u)) (axis o2 d2)); [exact C | apply axis_d] | unfold scal; cbn; unfold mult; cbn; ring].
Qed.
Lemma region_ct_jac f J a b c d x y : (forall r s, jacobian_of2 f J r s) ->
  jacobian_of2 (region_ct f a b c d) (region_ct_J J a b c d) x y.
Proof.
  intros H. eapply jac_val; [apply (in_element2_jac f J a c (b - a) (d - c) x y H) |].
  cases2; unfold in_element2_J, region_ct_J, mat2, axis; cbn [nth]; field.
Qed.

(** * rectangles, boxes *)
Lemma rectangle_jac xl xu yl yu x y : jacobian_of2 (rectangle xl xu yl yu) (fun _ _ => rectangle_J xl xu yl yu) x y.
Proof.
  eapply jac_val; [apply (linear2_jac xl xu yl yu) |]. cases2; unfold linear_J, rectangle_J, mat2; cbn; ring.
Qed.
Lemma ortho_rect_jac (rd8 : R -> R) ox oy dx dy x y : rd8 (dx / 2) = dx / 2 -> rd8 (dy / 2) = dy / 2 ->
  jacobian_of2 (ortho_rect ox oy dx dy) (fun _ _ => ortho_rect_J rd8 dx dy) x y.
Proof.
  intros E F. unfold jacobian_of2, ortho_rect, ortho_rect_J, mat2. cbn [fst snd nth]. rewrite E, F. split.
  - eapply D2_ext; [| apply (D2_of_1 (axis ox dx)), axis_d]. intros. unfold axis. field.
  - eapply D2_ext; [| apply (D2_of_2 (axis oy dy)), axis_d]. intros. unfold axis. field.
Qed.
(** the entries are never further from the derivative than the rounding *)
Lemma ortho_rect_near (rd8 : R -> R) eps ox oy dx dy x y : (forall v, Rabs (rd8 v - v) <= eps) ->
  exists J, jacobian_of2 (ortho_rect ox oy dx dy) J x y /\ forall i j, Rabs (ortho_rect_J rd8 dx dy i j - J x y i j) <= eps.
Proof.
  intros H. exists (fun _ _ => ortho_rect_J (fun v => v) dx dy). split; [now apply ortho_rect_jac |].
  assert (E0 : 0 <= eps) by (eapply Rle_trans; [apply Rabs_pos | apply (H 0)]).
  assert (Z : Rabs (0 - 0) <= eps) by (rewrite Rminus_0_r, Rabs_R0; exact E0).
  intros i j. unfold ortho_rect_J, mat2. destruct i as [| [| i]]; destruct j as [| [| j]]; cbn [nth]; try exact Z; try apply H;
    try (destruct j; exact Z); try (destruct i; cbn [nth]; exact Z).
Qed.
Lemma ortho_hex_jac (rd8 : R -> R) ox oy oz dx dy dz x y z : rd8 (dx / 2) = dx / 2 -> rd8 (dy / 2) = dy / 2 -> rd8 (dz / 2) = dz / 2 ->
  jacobian_of3 (ortho_hex ox oy oz dx dy dz) (fun _ _ _ => ortho_hex_J rd8 dx dy dz) x y z.
Proof.
  intros E F G m Hm. unfold ortho_hex, ortho_hex_J, mat3. rewrite E, F, G.
  assert (m = 0 \/ m = 1 \/ m = 2)%nat as [-> | [-> | ->]] by lia; cbn [fst snd nth coordinate3]; refine (conj _ (conj _ _));
    auto_derive; trivial; field.
Qed.

(** * quadrilaterals *)
Lemma four {A} (P : list A) : length P = 4%nat -> exists a b c d, P = [a; b; c; d].
Proof. destruct P as [| a [| b [| c [| d [| e P]]]]]; cbn; try lia. eauto. Qed.
Lemma bilinear_d v x y : D2 (bilinear v) x y (quad_coef v 1 + quad_coef v 3 * y) (quad_coef v 2 + quad_coef v 3 * x).
Proof.
  unfold bilinear. eapply D2_val.
  - eapply D2_plus; [eapply D2_plus; [eapply D2_plus |] |].
    + apply D2_const.
    + eapply D2_mult; [apply D2_const | apply D2_fst].
    + eapply D2_mult; [apply D2_const | apply D2_snd].
    + eapply D2_mult; [eapply D2_mult; [apply D2_const | apply D2_fst] | apply D2_snd].
  - rg.
  - rg.
Qed.
Lemma quad_map_jac P x y : jacobian_of2 (quad_map P) (fun r s => mat2 (quad_coef (xs_of P) 1 + quad_coef (xs_of P) 3 * s)
   (quad_coef (xs_of P) 2 + quad_coef (xs_of P) 3 * r) (quad_coef (ys_of P) 1 + quad_coef (ys_of P) 3 * s) (quad_coef (ys_of P) 2 + quad_coef (ys_of P) 3 * r)) x y.
Proof. split; cbn [quad_map fst snd mat2 nth]; apply bilinear_d. Qed.
Lemma quad9_jac P x y : jacobian_of2 (quad9 P) (quad9_J P) x y.
Proof.
  eapply jac_val.
  - apply (jac_ext (in_element2 (quad_map P) 0 0 1 1)).
    + intros u v. unfold quad9, in_element2, axis. f_equal; ring.
    + apply (in_element2_jac (quad_map P)). intros. apply quad_map_jac.
  - cases2; unfold quad9_J, in_element2_J, mat2, axis; cbn [nth]; field.
Qed.

(** * chaotic *)
Lemma unit_axis a b x : a < b -> is_derive (fun u => (u - a) / (b - a)) x (1 / (b - a)).
Proof. intros H. auto_derive; [lra | field; lra]. Qed.
Lemma chaotic_total_jac a b c d k x y : a < b -> c < d -> jacobian_of2 (chaotic_total a b c d k) (chaotic_total_J a b c d k) x y.
Proof.
  intros Hab Hcd. unfold chaotic_total, chaotic_total_J. destruct (Req_EM_T k 0).
  - split; cbn; [apply D2_fst | apply D2_snd].
  - assert (G : jacobian_of2 (fun u v => ((u - a) / (b - a), (v - c) / (d - c))) (fun _ _ => mat2 (1 / (b - a)) 0 0 (1 / (d - c))) x y).
    { split; cbn; [apply (D2_of_1 (fun u => (u - a) / (b - a))), unit_axis; lra | apply (D2_of_2 (fun u => (u - c) / (d - c))), unit_axis; lra]. }
    assert (W : forall r s, jacobian_of2 (fun r s => (r + 1/2 * k * sin (tau r) * sin (tau s) + a, s + 1/2 * k * sin (tau r) * sin (tau s)))
              (fun r s => mat2 (1 + 1/2 * k * 2 * PI * cos (tau r) * sin (tau s)) (1/2 * k * sin (tau r) * 2 * PI * cos (tau s))
                 (1/2 * k * 2 * PI * cos (tau r) * sin (tau s)) (1 + 1/2 * k * sin (tau r) * 2 * PI * cos (tau s))) r s).
    { intros r s. split; cbn [fst snd mat2 nth].
      - eapply D2_val.
        + apply (D2_ext (fun u v => (1 - 0) * (1 * u + 0 * v + 1/2 * k * sin (tau u) * sin (tau v)) + 0 + a)); [intros; ring |].
          eapply D2_plus; [apply wavy | apply D2_const].
        + rf.
        + rf.
      - eapply D2_val.
        + apply (D2_ext (fun u v => (1 - 0) * (0 * u + 1 * v + 1/2 * k * sin (tau u) * sin (tau v)) + 0)); [intros; ring |].
          apply wavy.
        + rf.
        + rf. }
    eapply jac_val; [exact (jac_comp _ _ _ _ x y G (W _ _)) |].
    cases2; unfold mat2; cbn [nth fst snd]; field; lra.
Qed.
Lemma chaotic_region_jac P tm tJ x y : (forall p q, jacobian_of2 tm tJ p q) ->
  jacobian_of2 (chaotic_region P tm) (chaotic_region_J P tJ) x y.
Proof.
  intros H. eapply jac_val; [apply (jac_comp tm tJ (quad_map P)); [apply quad_map_jac | apply H] |].
  cases2; unfold chaotic_region_J, quad_map, mat2; cbn [nth fst snd]; ring.
Qed.

(** * triangles *)
Lemma tri_one_d v x y : D2 (tri_one v) x y (tri_dxi v y) (tri_det v x).
Proof.
  unfold tri_one, tri_dxi, tri_det.
  apply (D2_ext (fun u w => tri_T v 0 * u + (tri_T v 1 * (1/2)) * (w * (u + 1)) + tri_T v 2)); [intros; field |].
  eapply D2_val.
  - eapply D2_plus; [eapply D2_plus |].
    + eapply D2_mult; [apply D2_const | apply D2_fst].
    + eapply D2_mult; [apply D2_const |]. eapply D2_mult; [apply D2_snd | eapply D2_plus; [apply D2_fst | apply D2_const]].
    + apply D2_const.
  - rf.
  - rf.
Qed.
Lemma tri5_jac P x y : jacobian_of2 (tri5 P) (tri5_J P) x y.
Proof. split; cbn [tri5 tri5_J fst snd mat2 nth]; apply tri_one_d. Qed.
Lemma tri_in_quad_jac P f J x y : (forall u v, jacobian_of2 f J u v) -> jacobian_of2 (tri_in_quad P f) (tri_in_quad_J P J) x y.
Proof.
  intros H. eapply jac_val; [apply (jac_comp f J (tri5 P)); [apply tri5_jac | apply H] |].
  cases2; unfold tri_in_quad_J, tri5_J, tri5, mat2; cbn [nth fst snd]; ring.
Qed.
Lemma curv_tri_jac P f J o0 o1 d0 d1 x y : (forall u v, jacobian_of2 f J u v) ->
  jacobian_of2 (curv_tri P f o0 o1 d0 d1) (curv_tri_J P J o0 o1 d0 d1) x y.
Proof.
  intros H. eapply jac_val; [apply (tri_in_quad_jac P (in_element2 f o0 o1 d0 d1) (in_element2_J J o0 o1 d0 d1)) |].
  - intros. now apply in_element2_jac.
  - cases2; reflexivity.
Qed.

(** * quarters *)
Lemma quarter_jac q f J x y : (forall u v, jacobian_of2 f J u v) -> jacobian_of2 (quarter_map q f) (quarter_J q J) x y.
Proof.
  intros H.
  set (o0 := match q with NW | NE => -1 | _ => 0 end). set (o1 := match q with NW | SW => -1 | _ => 0 end).
  assert (E : forall u v, quarter_ref q u v = (axis o0 1 u, axis o1 1 v)).
  { intros u v. subst o0 o1. destruct q; unfold quarter_ref, axis; f_equal; field. }
  eapply jac_val; [apply (jac_ext (in_element2 f o0 o1 1 1)); [| apply in_element2_jac, H] |].
  - intros u v. unfold quarter_map, in_element2. now rewrite E.
  - cases2; unfold quarter_J, in_element2_J, mat2; cbn [nth]; rewrite E; cbn [fst snd]; field.
Qed.
