From Coq Require Import List Arith Bool Reals Lra Lia.
From Coquelicot Require Import Coquelicot.
From Verif Require Import MappingModel MappingSpec MappingProofs JacobianSpec JacobianProofs NormalModel NormalSpec.
Import ListNotations.
Local Open Scope R_scope.
Local Notation i0 := 0%nat.
Local Notation i1 := 1%nat.
Local Notation i2 := 2%nat.

Lemma pos_sq x : x <> 0 -> 0 < x ^ 2.
Proof. intros H. pose proof (pow2_ge_0 x). destruct (Req_dec (x ^ 2) 0) as [E | E]; [| lra]. exfalso. apply H. nra. Qed.
Lemma dot2_expand v w : dot 2 v w = v i0 * w i0 + v i1 * w i1. Proof. unfold dot. cbn. ring. Qed.
Lemma dot3_expand v w : dot 3 v w = v i0 * w i0 + v i1 * w i1 + v i2 * w i2. Proof. unfold dot. cbn. ring. Qed.
Lemma image2_expand J w i : image 2 J w i = J i i0 * w i0 + J i i1 * w i1. Proof. unfold image. cbn. ring. Qed.
Lemma image3_expand J w i : image 3 J w i = J i i0 * w i0 + J i i1 * w i1 + J i i2 * w i2. Proof. unfold image. cbn. ring. Qed.

Lemma unit_of2_unit v : fst v <> 0 \/ snd v <> 0 -> dot 2 (vec2 (unit_of2 v)) (vec2 (unit_of2 v)) = 1 /\ 0 < sqrt (fst v ^ 2 + snd v ^ 2).
Proof.
  intros H. assert (P : 0 < fst v ^ 2 + snd v ^ 2).
  { pose proof (pow2_ge_0 (fst v)). pose proof (pow2_ge_0 (snd v)). destruct H as [H | H]; pose proof (pos_sq _ H); lra. }
  pose proof (sqrt_lt_R0 _ P) as Q. pose proof (sqrt_sqrt _ (Rlt_le _ _ P)) as S.
  split; [| exact Q]. rewrite dot2_expand. unfold unit_of2, vec2. cbn [fst snd].
  set (m := sqrt (fst v ^ 2 + snd v ^ 2)) in *.
  replace (fst v / m * (fst v / m) + snd v / m * (snd v / m)) with ((fst v ^ 2 + snd v ^ 2) / (m * m)) by (field; lra).
  rewrite S. field. lra.
Qed.
Lemma dot_unit v w : fst v <> 0 \/ snd v <> 0 ->
  dot 2 (vec2 (unit_of2 v)) w = (fst v * w i0 + snd v * w i1) / sqrt (fst v ^ 2 + snd v ^ 2).
Proof. intros H. destruct (unit_of2_unit v H) as [_ P]. rewrite dot2_expand. unfold unit_of2, vec2. cbn [fst snd]. field. lra. Qed.

(** the turned tangent *)
Lemma turn_nonzero m n J : (m < 2)%nat -> determinant 2 J <> 0 ->
  fst (turn2 m n (tangent2 m J)) <> 0 \/ snd (turn2 m n (tangent2 m J)) <> 0.
Proof.
  intros Hm D. rewrite det_expand2 in D.
  assert (A : forall x y : R, (x <> 0 \/ y <> 0) -> (- y <> 0 \/ x <> 0) /\ (y <> 0 \/ - x <> 0)).
  { intros x y [H | H]; split; [right | right | left | left]; lra. }
  assert (B : fst (tangent2 m J) <> 0 \/ snd (tangent2 m J) <> 0).
  { destruct m as [| [| m]]; try lia; cbn [tangent2 fst snd].
    - destruct (Req_dec (J i0 i1) 0) as [E |]; [| now left]. right. intros F. apply D. rewrite E, F. ring.
    - destruct (Req_dec (J i0 i0) 0) as [E |]; [| now left]. right. intros F. apply D. rewrite E, F. ring. }
  destruct (tangent2 m J) as [x y]. cbn [fst snd] in B. destruct (A x y B) as [A1 A2]. unfold turn2.
  destruct ((m =? 0) && (n =? 0))%nat; [exact A1 |]. destruct ((m =? 1) && (n =? 1))%nat; [exact A1 | exact A2].
Qed.
Lemma turn_dot m n J w : (m < 2)%nat -> (n < 2)%nat ->
  fst (turn2 m n (tangent2 m J)) * image 2 J w i0 + snd (turn2 m n (tangent2 m J)) * image 2 J w i1 = determinant 2 J * (end_sign n * w m).
Proof.
  intros Hm Hn. rewrite det_expand2, !image2_expand. destruct m as [| [| m]]; try lia; destruct n as [| [| n]]; try lia; cbn; ring.
Qed.
Lemma ounv2_cases (J : R -> R -> mat) m n t v : ounv2 J m n t = Some v ->
  (m < 2)%nat /\ (n < 2)%nat /\ exists x y, face_ref2 m n t = Some (x, y) /\ v = unit_of2 (turn2 m n (tangent2 m (J x y))).
Proof.
  unfold ounv2, face_J2. destruct m as [| [| m]]; destruct n as [| [| n]]; cbn [face_ref2 option_map]; intros [= <-];
    (split; [lia |]; split; [lia |]; do 2 eexists; split; reflexivity).
Qed.
Lemma ounv2_some (J : R -> R -> mat) m n t : (m < 2)%nat -> (n < 2)%nat -> exists v, ounv2 J m n t = Some v.
Proof. intros Hm Hn. destruct m as [| [| m]]; try lia; destruct n as [| [| n]]; try lia; eexists; reflexivity. Qed.
Lemma ounv2_outward J m n t v x y : ounv2 J m n t = Some v -> face_ref2 m n t = Some (x, y) -> 0 < determinant 2 (J x y) ->
  outward 2 (J x y) m n (vec2 v).
Proof.
  intros H E D. destruct (ounv2_cases J m n t v H) as (Hm & Hn & x' & y' & E' & ->). rewrite E in E'. injection E' as <- <-.
  assert (N := turn_nonzero m n (J x y) Hm (Rgt_not_eq _ _ D)). destruct (unit_of2_unit _ N) as [U P]. split; [exact U |].
  exists (determinant 2 (J x y) / sqrt (fst (turn2 m n (tangent2 m (J x y))) ^ 2 + snd (turn2 m n (tangent2 m (J x y))) ^ 2)).
  split; [now apply Rdiv_lt_0_compat |]. intros w. rewrite dot_unit by exact N. rewrite turn_dot by assumption. field. lra.
Qed.
Lemma ounv2_inward J m n t v x y : ounv2 J m n t = Some v -> face_ref2 m n t = Some (x, y) -> determinant 2 (J x y) < 0 ->
  inward 2 (J x y) m n (vec2 v).
Proof.
  intros H E D. destruct (ounv2_cases J m n t v H) as (Hm & Hn & x' & y' & E' & ->). rewrite E in E'. injection E' as <- <-.
  assert (N := turn_nonzero m n (J x y) Hm (Rlt_not_eq _ _ D)). destruct (unit_of2_unit _ N) as [U P]. split; [exact U |].
  exists (- determinant 2 (J x y) / sqrt (fst (turn2 m n (tangent2 m (J x y))) ^ 2 + snd (turn2 m n (tangent2 m (J x y))) ^ 2)).
  split; [apply Rdiv_lt_0_compat; lra |]. intros w. rewrite dot_unit by exact N. rewrite turn_dot by assumption. field. lra.
Qed.
(** triangles: the same vectors *)
Lemma tri_ounv2_same J m n t : (m, n) <> (0%nat, 0%nat) -> tri_ounv2 J m n t = ounv2 J m n t.
Proof.
  intros H. unfold tri_ounv2, ounv2, tri_face_J2, face_J2, tri_ref2.
  destruct m as [| [| m]]; destruct n as [| [| n]]; cbn; try reflexivity. now contradiction H.
Qed.
Lemma tri_face_spec f m n : tri_face f = Some (m, n) -> (m, n) <> (0%nat, 0%nat) /\ (m < 2)%nat /\ (n < 2)%nat.
Proof. destruct f as [| [| [| f]]]; intros [= <- <-]; split; try discriminate; lia. Qed.

(** * moving into the element leads behind the face *)
Lemma lin_decrease (f g : R -> R -> R) x y fx fy gx gy vx vy w0 w1 :
  differentiable_pt_lim f x y fx fy -> differentiable_pt_lim g x y gx gy ->
  vx * (fx * w0 + fy * w1) + vy * (gx * w0 + gy * w1) < 0 ->
  exists del, 0 < del /\ forall eps, 0 < eps < del ->
    vx * (f (x + eps * w0) (y + eps * w1) - f x y) + vy * (g (x + eps * w0) (y + eps * w1) - g x y) < 0.
Proof.
  intros Hf Hg L. set (s := vx * (fx * w0 + fy * w1) + vy * (gx * w0 + gy * w1)) in *.
  assert (K : is_derive (fun e => vx * (f (x + e * w0) (y + e * w1) - f x y) + vy * (g (x + e * w0) (y + e * w1) - g x y)) 0 s).
  { assert (Cf : forall (h : R -> R -> R) hx hy, differentiable_pt_lim h x y hx hy ->
       is_derive (fun e => h (x + e * w0) (y + e * w1)) 0 (hx * w0 + hy * w1)).
    { intros h hx hy Hh. apply is_derive_Reals.
      apply (derivable_pt_lim_comp_2d h (fun e => x + e * w0) (fun e => y + e * w1) 0 hx hy w0 w1).
      - rewrite !Rmult_0_l, !Rplus_0_r. exact Hh.
      - apply is_derive_Reals. auto_derive; [trivial | ring].
      - apply is_derive_Reals. auto_derive; [trivial | ring]. }
    assert (D : is_derive (fun e => vx * f (x + e * w0) (y + e * w1) + vy * g (x + e * w0) (y + e * w1) + (- vx * f x y - vy * g x y)) 0 s).
    { eapply is_derive_val.
      - refine (@is_derive_plus R_AbsRing R_NormedModule _ _ 0 _ _ (@is_derive_plus R_AbsRing R_NormedModule _ _ 0 _ _ _ _) (@is_derive_const R_AbsRing R_NormedModule (- vx * f x y - vy * g x y) 0)).
        + refine (is_derive_scal _ 0 vx _ _). exact (Cf f fx fy Hf).
        + refine (is_derive_scal _ 0 vy _ _). exact (Cf g gx gy Hg).
      - unfold s, plus, scal, zero; cbn; unfold mult; cbn. ring. }
    eapply is_derive_ext; [| exact D]. intros e. cbn. ring. }
  apply is_derive_Reals in K. unfold derivable_pt_lim in K.
  destruct (K (- s / 2) ltac:(lra)) as [del Hd]. exists del. split; [apply cond_pos |].
  intros eps [E1 E2]. specialize (Hd eps ltac:(lra) ltac:(rewrite Rabs_pos_eq; lra)).
  rewrite Rplus_0_l, !Rmult_0_l, !Rplus_0_r in Hd.
  set (F := vx * (f (x + eps * w0) (y + eps * w1) - f x y) + vy * (g (x + eps * w0) (y + eps * w1) - g x y)) in *.
  replace (vx * (f x y - f x y) + vy * (g x y - g x y)) with 0 in Hd by ring. rewrite Rminus_0_r in Hd.
  apply Rabs_def2 in Hd. destruct Hd as [Hd _]. assert (Q : F / eps < s / 2) by lra.
  apply Rmult_lt_reg_r with (/ eps); [now apply Rinv_0_lt_compat |]. rewrite Rmult_0_l. unfold Rdiv in Q at 1. lra.
Qed.
Lemma ounv2_behind phi J m n t v x y : ounv2 J m n t = Some v -> face_ref2 m n t = Some (x, y) -> 0 < determinant 2 (J x y) ->
  jacobian_of2 phi J x y -> forall w : nat -> R, end_sign n * w m < 0 ->
  exists del, 0 < del /\ forall eps, 0 < eps < del ->
    dot 2 (vec2 v) (fun i => vec2 (phi (x + eps * w i0) (y + eps * w i1)) i - vec2 (phi x y) i) < 0.
Proof.
  intros H E D [J1 J2] w Hw. destruct (ounv2_outward J m n t v x y H E D) as [_ [c [Hc Hv]]].
  specialize (Hv w). rewrite dot2_expand, !image2_expand in Hv.
  destruct (lin_decrease _ _ x y _ _ _ _ (vec2 v i0) (vec2 v i1) (w i0) (w i1) J1 J2) as [del [Hd HH]].
  - rewrite Hv. nra.
  - exists del. split; [exact Hd |]. intros eps He. specialize (HH eps He). rewrite dot2_expand. exact HH.
Qed.

(** * three dimensions *)
Definition cross3 (a b : R * R * R) : R * R * R :=
  (snd (fst a) * snd b - snd a * snd (fst b), snd a * fst (fst b) - fst (fst a) * snd b, fst (fst a) * snd (fst b) - snd (fst a) * fst (fst b)).
Lemma normal3_cross n a b : normal3 n (a, b) =
  let c := cross3 a b in let l := norm3 c in
  if (n =? 0)%nat then (- (fst (fst c) / l), - (snd (fst c) / l), - (snd c / l)) else (fst (fst c) / l, snd (fst c) / l, snd c / l).
Proof.
  destruct a as [[a0 a1] a2], b as [[b0 b1] b2]. unfold normal3, cross3, norm3, dot3. cbn [fst snd].
  replace ((a1 * b2 - a2 * b1) ^ 2 + (a2 * b0 - a0 * b2) ^ 2 + (a0 * b1 - a1 * b0) ^ 2)
    with ((a1 * b2 - a2 * b1) * (a1 * b2 - a2 * b1) + (a2 * b0 - a0 * b2) * (a2 * b0 - a0 * b2) + (a0 * b1 - a1 * b0) * (a0 * b1 - a1 * b0)) by ring.
  reflexivity.
Qed.
Definition cr (m : nat) (J : mat) : R * R * R := cross3 (fst (columns3 m J)) (snd (columns3 m J)).
Lemma cross_det m J w : (m < 3)%nat -> dot 3 (vec3 (cr m J)) (image 3 J w) = determinant 3 J * w m.
Proof.
  intros Hm. rewrite dot3_expand, !image3_expand, det_expand3. unfold cr.
  destruct m as [| [| [| m]]]; try lia; cbn; ring.
Qed.
Lemma cross_nonzero m J : (m < 3)%nat -> determinant 3 J <> 0 -> 0 < dot3 (cr m J) (cr m J).
Proof.
  intros Hm D. assert (H := cross_det m J (fun i => if (i =? m)%nat then 1 else 0) Hm). cbn beta in H. rewrite Nat.eqb_refl, Rmult_1_r in H.
  destruct (cr m J) as [[a b] c]. unfold dot3. cbn [fst snd].
  pose proof (pow2_ge_0 a) as A. pose proof (pow2_ge_0 b) as B. pose proof (pow2_ge_0 c) as C.
  destruct (Req_dec (a * a + b * b + c * c) 0) as [E |]; [| nra].
  exfalso. apply D. rewrite <- H. assert (a = 0) by nra. assert (b = 0) by nra. assert (c = 0) by nra. subst.
  rewrite dot3_expand. unfold vec3. cbn [fst snd]. ring.
Qed.
Lemma normal3_outward m n J s : (m < 3)%nat -> (n < 2)%nat -> s = 1 \/ s = -1 -> 0 < s * determinant 3 J ->
  dot 3 (vec3 (normal3 n (columns3 m J))) (vec3 (normal3 n (columns3 m J))) = 1 /\
  exists c, 0 < c /\ forall w, dot 3 (vec3 (normal3 n (columns3 m J))) (image 3 J w) = s * (c * (end_sign n * w m)).
Proof.
  intros Hm Hn Hs D. assert (D0 : determinant 3 J <> 0) by (intros E; rewrite E in D; lra).
  assert (P := cross_nonzero m J Hm D0). pose proof (sqrt_lt_R0 _ P) as Q. pose proof (sqrt_sqrt _ (Rlt_le _ _ P)) as S.
  fold (norm3 (cr m J)) in Q, S.
  assert (E : normal3 n (columns3 m J) = normal3 n (fst (columns3 m J), snd (columns3 m J))) by now destruct (columns3 m J).
  rewrite E, normal3_cross. fold (cr m J). cbv zeta.
  assert (W := fun w => cross_det m J w Hm). set (c := cr m J) in *. set (l := norm3 c) in *.
  assert (L : forall w, dot 3 (vec3 c) w = fst (fst c) * w i0 + snd (fst c) * w i1 + snd c * w i2) by (intros; rewrite dot3_expand; reflexivity).
  assert (U : fst (fst c) / l * (fst (fst c) / l) + snd (fst c) / l * (snd (fst c) / l) + snd c / l * (snd c / l) = 1).
  { replace (fst (fst c) / l * (fst (fst c) / l) + snd (fst c) / l * (snd (fst c) / l) + snd c / l * (snd c / l)) with (dot3 c c / (l * l)) by (unfold dot3; field; lra).
    rewrite S. field. lra. }
  assert (M : forall w, fst (fst c) / l * image 3 J w i0 + snd (fst c) / l * image 3 J w i1 + snd c / l * image 3 J w i2 = determinant 3 J / l * w m).
  { intros w. specialize (W w). rewrite L in W. replace (determinant 3 J / l * w m) with ((determinant 3 J * w m) / l) by (field; lra). rewrite <- W. field. lra. }
  assert (C : 0 < s * determinant 3 J / l) by now apply Rdiv_lt_0_compat.
  assert (S2 : s * s = 1) by (destruct Hs as [-> | ->]; ring).
  destruct n as [| [| n]]; try lia; cbn [Nat.eqb]; rewrite dot3_expand; unfold vec3; cbn [fst snd end_sign].
  - split; [lra |]. exists (s * determinant 3 J / l). split; [exact C |]. intros w. rewrite dot3_expand. cbn [fst snd].
    replace (s * (s * determinant 3 J / l * (-1 * w m))) with ((s * s) * - (determinant 3 J / l * w m)) by (field; lra). rewrite S2, <- M. ring.
  - split; [lra |]. exists (s * determinant 3 J / l). split; [exact C |]. intros w. rewrite dot3_expand. cbn [fst snd].
    replace (s * (s * determinant 3 J / l * (1 * w m))) with ((s * s) * (determinant 3 J / l * w m)) by (field; lra). rewrite S2, <- M. ring.
Qed.
Lemma ounv3_cases (J : R -> R -> R -> mat) m n xi et sg v : ounv3 J m n xi et sg = Some v ->
  (m < 3)%nat /\ (n < 2)%nat /\ exists p, face_ref3 m n xi et sg = Some p /\ v = normal3 n (columns3 m (at_ref3 J p)).
Proof.
  unfold ounv3. destruct m as [| [| [| m]]]; destruct n as [| [| n]]; cbn [face_ref3 option_map]; intros [= <-];
    (split; [lia |]; split; [lia |]; eexists; split; reflexivity).
Qed.
Lemma ounv3_outward J m n xi et sg v p : ounv3 J m n xi et sg = Some v -> face_ref3 m n xi et sg = Some p ->
  (0 < determinant 3 (at_ref3 J p) -> outward 3 (at_ref3 J p) m n (vec3 v)) /\
  (determinant 3 (at_ref3 J p) < 0 -> inward 3 (at_ref3 J p) m n (vec3 v)).
Proof.
  intros H E. destruct (ounv3_cases J m n xi et sg v H) as (Hm & Hn & p' & E' & ->). rewrite E in E'. injection E' as <-. split; intros D.
  - destruct (normal3_outward m n (at_ref3 J p) 1 Hm Hn (or_introl eq_refl) ltac:(lra)) as [U [c [Hc K]]].
    split; [exact U |]. exists c. split; [exact Hc |]. intros w. rewrite K. ring.
  - destruct (normal3_outward m n (at_ref3 J p) (-1) Hm Hn (or_intror eq_refl) ltac:(lra)) as [U [c [Hc K]]].
    split; [exact U |]. exists c. split; [exact Hc |]. intros w. rewrite K. ring.
Qed.
(** msepy: the face point with the two coordinates in cyclic order *)
Lemma ounv3_msepy_same J m n t s : (m < 3)%nat -> (n < 2)%nat ->
  ounv3_msepy J m n t s = match m with 0%nat => ounv3 J m n 0 t s | 1%nat => ounv3 J m n s 0 t | _ => ounv3 J m n t s 0 end.
Proof. intros Hm Hn. destruct m as [| [| [| m]]]; try lia; destruct n as [| [| n]]; try lia; reflexivity. Qed.
