From Coq Require Import List Arith Bool Reals Lra Lia.
From Coquelicot Require Import Coquelicot.
From Verif Require Import MappingModel MappingSpec MappingProofs JacobianSpec JacobianProofs NormalModel NormalSpec NormalProofs.
Import ListNotations.
Local Open Scope R_scope.
Local Notation i0 := 0%nat.
Local Notation i1 := 1%nat.
Local Notation i2 := 2%nat.

(** * triangles and convex quadrilaterals: the whole element is behind each face *)
Lemma unit_along v p q : fst v <> 0 \/ snd v <> 0 ->
  (along v p q <= 0 -> along (unit_of2 v) p q <= 0) /\ (along v p q = 0 -> along (unit_of2 v) p q = 0).
Proof.
  intros H. destruct (unit_of2_unit v H) as [_ P].
  assert (E : along (unit_of2 v) p q = / sqrt (fst v ^ 2 + snd v ^ 2) * along v p q) by (unfold along, unit_of2; cbn [fst snd]; field; lra).
  pose proof (Rinv_0_lt_compat _ P). rewrite E. split; intros K; [nra | rewrite K; ring].
Qed.
Lemma not_both (x y z w : R) : x * y - z * w <> 0 -> (x <> 0 \/ z <> 0) /\ (y <> 0 \/ w <> 0) /\ (x <> 0 \/ w <> 0) /\ (y <> 0 \/ z <> 0).
Proof.
  intros H. refine (conj _ (conj _ (conj _ _))).
  - destruct (Req_dec x 0) as [-> |]; [| now left]. right. intros ->. apply H. ring.
  - destruct (Req_dec y 0) as [-> |]; [| now left]. right. intros ->. apply H. ring.
  - destruct (Req_dec x 0) as [-> |]; [| now left]. right. intros ->. apply H. ring.
  - destruct (Req_dec y 0) as [-> |]; [| now left]. right. intros ->. apply H. ring.
Qed.
Ltac ne H := let E := fresh in intros E; apply H; lra.
Lemma tri5_at A B C x y : tri5 [A; B; C] x y =
  (fst A + (x + 1) / 2 * ((1 - y) / 2 * (fst B - fst A) + (1 + y) / 2 * (fst C - fst A)),
   snd A + (x + 1) / 2 * ((1 - y) / 2 * (snd B - snd A) + (1 + y) / 2 * (snd C - snd A))).
Proof. unfold tri5, tri_one, tri_T, tri_invA, xs_of, ys_of. cbn. f_equal; field. Qed.
Lemma tri5_J_at A B C x y : tri5_J [A; B; C] x y =
  mat2 (1/2 * ((1 - y) / 2 * (fst B - fst A) + (1 + y) / 2 * (fst C - fst A))) ((x + 1) / 4 * (fst C - fst B))
       (1/2 * ((1 - y) / 2 * (snd B - snd A) + (1 + y) / 2 * (snd C - snd A))) ((x + 1) / 4 * (snd C - snd B)).
Proof. unfold tri5_J, tri_dxi, tri_det, tri_T, tri_invA, xs_of, ys_of. cbn. f_equal; field. Qed.
Lemma neg_sum (k a b : R) : 0 <= k -> 0 <= a -> 0 <= b -> - (k * (a * b)) <= 0.
Proof. intros. assert (0 <= a * b) by (now apply Rmult_le_pos). assert (0 <= k * (a * b)) by (now apply Rmult_le_pos). lra. Qed.
Lemma tri_normal_behind A B C f m n t t' v p x y : 0 < turn A B C -> tri_face f = Some (m, n) ->
  tri_ounv2 (tri5_J [A; B; C]) m n t = Some v -> face_map2 (tri5 [A; B; C]) m n t' = Some p -> ref x -> ref y ->
  dot 2 (vec2 v) (vec2 v) = 1 /\ along v (tri5 [A; B; C] x y) p <= 0 /\
  (forall t'' q, face_map2 (tri5 [A; B; C]) m n t'' = Some q -> along v q p = 0).
Proof.
  intros D Hf Hv Hp [Hx1 Hx2] [Hy1 Hy2]. unfold turn in D.
  assert (X : 0 <= x + 1) by lra. assert (Y : 0 <= y + 1) by lra. assert (X' : 0 <= 1 - x) by lra. assert (Y' : 0 <= 1 - y) by lra.
  assert (S : exists u, v = unit_of2 u /\ (fst u <> 0 \/ snd u <> 0) /\ along u (tri5 [A; B; C] x y) p <= 0 /\
      (forall t'' q, face_map2 (tri5 [A; B; C]) m n t'' = Some q -> along u q p = 0)).
  { destruct f as [| [| [| f]]]; try discriminate; injection Hf as <- <-;
      unfold tri_ounv2, tri_face_J2 in Hv; cbn [tri_ref2 face_ref2 option_map fst snd] in Hv; rewrite tri5_J_at in Hv; injection Hv as <-;
      unfold face_map2 in *; cbn [face_ref2 option_map fst snd] in *; injection Hp as <-;
      unfold mat2 in *; cbn [tri_turn2 tangent2 nth Nat.eqb andb] in *; eexists; (split; [reflexivity |]); cbn [fst snd].
    - split.
      + destruct (not_both _ _ _ _ (Rgt_not_eq _ _ D)) as (H & _). destruct H as [H | H]; [right | left]; ne H.
      + split.
        * rewrite !tri5_at. unfold along. cbn [fst snd].
          match goal with |- ?g <= 0 => replace g with (- (((fst B - fst A) * (snd C - snd A) - (snd B - snd A) * (fst C - fst A)) / 8 * ((x + 1) * (y + 1)))) by field end.
          apply neg_sum; lra.
        * intros t'' q [= <-]. rewrite !tri5_at. unfold along. cbn [fst snd]. field.
    - split.
      + assert (D' : (fst C - fst B) * (snd A - snd B) - (snd C - snd B) * (fst A - fst B) <> 0) by (apply Rgt_not_eq; lra).
        destruct (not_both _ _ _ _ D') as (H & _). destruct H as [H | H]; [right | left]; ne H.
      + split.
        * rewrite !tri5_at. unfold along. cbn [fst snd].
          match goal with |- ?g <= 0 => replace g with (- (((fst B - fst A) * (snd C - snd A) - (snd B - snd A) * (fst C - fst A)) / 4 * ((1 - x) * 1))) by field end.
          apply neg_sum; lra.
        * intros t'' q [= <-]. rewrite !tri5_at. unfold along. cbn [fst snd]. field.
    - split.
      + destruct (not_both _ _ _ _ (Rgt_not_eq _ _ D)) as (_ & H & _). destruct H as [H | H]; [left | right]; ne H.
      + split.
        * rewrite !tri5_at. unfold along. cbn [fst snd].
          match goal with |- ?g <= 0 => replace g with (- (((fst B - fst A) * (snd C - snd A) - (snd B - snd A) * (fst C - fst A)) / 8 * ((x + 1) * (1 - y)))) by field end.
          apply neg_sum; lra.
        * intros t'' q [= <-]. rewrite !tri5_at. unfold along. cbn [fst snd]. field. }
  destruct S as (u & -> & N & L & Z). split; [now apply unit_of2_unit |]. split; [now apply unit_along |].
  intros t'' q Hq. apply unit_along; [exact N |]. now apply (Z t'').
Qed.
Lemma quad9_at A B C D x y (r := (x + 1) / 2) (s := (y + 1) / 2) : quad9 [A; B; C; D] x y =
  ((1 - r) * (1 - s) * fst A + r * (1 - s) * fst B + r * s * fst C + (1 - r) * s * fst D,
   (1 - r) * (1 - s) * snd A + r * (1 - s) * snd B + r * s * snd C + (1 - r) * s * snd D).
Proof. unfold quad9, quad_map, bilinear, quad_coef, quad_invA, dot4, xs_of, ys_of. cbn. unfold r, s. f_equal; field. Qed.
Lemma quad9_J_at A B C D x y (r := (x + 1) / 2) (s := (y + 1) / 2) : quad9_J [A; B; C; D] x y =
  mat2 (1/2 * ((1 - s) * (fst B - fst A) + s * (fst C - fst D))) (1/2 * ((1 - r) * (fst D - fst A) + r * (fst C - fst B)))
       (1/2 * ((1 - s) * (snd B - snd A) + s * (snd C - snd D))) (1/2 * ((1 - r) * (snd D - snd A) + r * (snd C - snd B))).
Proof. unfold quad9_J, quad_coef, quad_invA, dot4, xs_of, ys_of. cbn. unfold r, s. f_equal; field. Qed.
Lemma neg_two (k l a b c d : R) : 0 <= k -> 0 <= l -> 0 <= a -> 0 <= b -> 0 <= c -> 0 <= d -> - (k * (a * b)) - l * (c * d) <= 0.
Proof. intros. pose proof (neg_sum k a b). pose proof (neg_sum l c d). lra. Qed.
Lemma quad_normal_behind A B C D m n t t' v p x y :
  0 < turn A B C -> 0 < turn B C D -> 0 < turn C D A -> 0 < turn D A B ->
  ounv2 (quad9_J [A; B; C; D]) m n t = Some v -> face_map2 (quad9 [A; B; C; D]) m n t' = Some p -> ref x -> ref y ->
  dot 2 (vec2 v) (vec2 v) = 1 /\ along v (quad9 [A; B; C; D] x y) p <= 0 /\
  (forall t'' q, face_map2 (quad9 [A; B; C; D]) m n t'' = Some q -> along v q p = 0).
Proof.
  intros D1 D2 D3 D4 Hv Hp [Hx1 Hx2] [Hy1 Hy2]. unfold turn in *.
  assert (X : 0 <= x + 1) by lra. assert (Y : 0 <= y + 1) by lra. assert (X' : 0 <= 1 - x) by lra. assert (Y' : 0 <= 1 - y) by lra.
  assert (S : exists u, v = unit_of2 u /\ (fst u <> 0 \/ snd u <> 0) /\ along u (quad9 [A; B; C; D] x y) p <= 0 /\
      (forall t'' q, face_map2 (quad9 [A; B; C; D]) m n t'' = Some q -> along u q p = 0)).
  { destruct (ounv2_cases _ _ _ _ _ Hv) as (Hm & Hn & _).
    destruct m as [| [| m]]; try lia; destruct n as [| [| n]]; try lia;
      unfold ounv2, face_J2 in Hv; cbn [face_ref2 option_map fst snd] in Hv; rewrite quad9_J_at in Hv; injection Hv as <-;
      unfold face_map2 in *; cbn [face_ref2 option_map fst snd] in *; injection Hp as <-;
      unfold mat2 in *; cbn [turn2 tangent2 nth Nat.eqb andb] in *; eexists; (split; [reflexivity |]); cbn [fst snd].
    - (* x-: A D *) split.
      + destruct (not_both _ _ _ _ (Rgt_not_eq _ _ D4)) as (H & _). destruct (not_both _ _ _ _ (Rgt_not_eq _ _ D3)) as (_ & H' & _).
        destruct H as [H | H]; [right | left]; ne H.
      + split.
        * rewrite !quad9_at. unfold along. cbn [fst snd].
          match goal with |- ?g <= 0 => replace g with
            (- (((fst A - fst D) * (snd B - snd D) - (snd A - snd D) * (fst B - fst D)) / 8 * ((x + 1) * (1 - y)))
             - ((fst D - fst C) * (snd A - snd C) - (snd D - snd C) * (fst A - fst C)) / 8 * ((x + 1) * (y + 1))) by field end.
          apply neg_two; lra.
        * intros t'' q [= <-]. rewrite !quad9_at. unfold along. cbn [fst snd]. field.
    - (* x+: B C *) split.
      + destruct (not_both _ _ _ _ (Rgt_not_eq _ _ D2)) as (H & _). destruct H as [H | H]; [right | left]; ne H.
      + split.
        * rewrite !quad9_at. unfold along. cbn [fst snd].
          match goal with |- ?g <= 0 => replace g with
            (- (((fst B - fst A) * (snd C - snd A) - (snd B - snd A) * (fst C - fst A)) / 8 * ((1 - x) * (1 - y)))
             - ((fst C - fst B) * (snd D - snd B) - (snd C - snd B) * (fst D - fst B)) / 8 * ((1 - x) * (y + 1))) by field end.
          apply neg_two; lra.
        * intros t'' q [= <-]. rewrite !quad9_at. unfold along. cbn [fst snd]. field.
    - (* y-: A B *) split.
      + destruct (not_both _ _ _ _ (Rgt_not_eq _ _ D1)) as (H & _). destruct H as [H | H]; [right | left]; ne H.
      + split.
        * rewrite !quad9_at. unfold along. cbn [fst snd].
          match goal with |- ?g <= 0 => replace g with
            (- (((fst B - fst A) * (snd C - snd A) - (snd B - snd A) * (fst C - fst A)) / 8 * ((x + 1) * (y + 1)))
             - ((fst A - fst D) * (snd B - snd D) - (snd A - snd D) * (fst B - fst D)) / 8 * ((1 - x) * (y + 1))) by field end.
          apply neg_two; lra.
        * intros t'' q [= <-]. rewrite !quad9_at. unfold along. cbn [fst snd]. field.
    - (* y+: D C *) split.
      + destruct (not_both _ _ _ _ (Rgt_not_eq _ _ D3)) as (H & _). destruct H as [H | H]; [right | left]; ne H.
      + split.
        * rewrite !quad9_at. unfold along. cbn [fst snd].
          match goal with |- ?g <= 0 => replace g with
            (- (((fst C - fst B) * (snd D - snd B) - (snd C - snd B) * (fst D - fst B)) / 8 * ((x + 1) * (1 - y)))
             - ((fst D - fst C) * (snd A - snd C) - (snd D - snd C) * (fst A - fst C)) / 8 * ((1 - x) * (1 - y))) by field end.
          apply neg_two; lra.
        * intros t'' q [= <-]. rewrite !quad9_at. unfold along. cbn [fst snd]. field. }
  destruct S as (u & -> & N & L & Z). split; [now apply unit_of2_unit |]. split; [now apply unit_along |].
  intros t'' q Hq. apply unit_along; [exact N |]. now apply (Z t'').
Qed.

(** * is_plane looks at few points *)
Lemma isclose_refl a : isclose a a.
Proof. unfold isclose. rewrite Rminus_diag_eq, Rabs_R0 by reflexivity. pose proof (Rabs_pos a). lra. Qed.
(** 2-d: a wave with the same slope at the 23 points *)
Definition wavy (x y : R) : pt2 := (x, y + sin (22 * PI * x)).
Definition wavy_J (x y : R) : mat := mat2 1 0 (22 * PI * cos (22 * PI * x)) 1.
Lemma wavy_jac x y : jacobian_of2 wavy wavy_J x y.
Proof.
  unfold jacobian_of2, wavy, wavy_J, mat2. cbn [fst snd nth]. split.
  - apply D2_fst.
  - assert (A : differentiable_pt_lim (fun u v : R => v) x y 0 1) by apply D2_snd.
    assert (B : differentiable_pt_lim (fun u v : R => sin (22 * PI * u)) x y (22 * PI * cos (22 * PI * x)) 0).
    { apply (D2_of_1 (fun u => sin (22 * PI * u)) x y). auto_derive; [trivial | ring]. }
    eapply D2_val; [exact (D2_plus _ _ _ _ _ _ _ _ A B) | ring | ring].
Qed.
Lemma cos_full k : cos (2 * PI * INR k) = 1.
Proof. replace (2 * PI * INR k) with (0 + 2 * INR k * PI) by ring. rewrite cos_period. apply cos_0. Qed.
Lemma wavy_sample x : In x (linspace_m1_1 23) -> cos (22 * PI * x) = 1.
Proof.
  unfold linspace_m1_1. rewrite in_map_iff. intros [i [<- _]].
  replace (22 * PI * (-1 + INR i * (2 / INR (23 - 1)))) with (- (2 * PI * INR 11 - 2 * PI * INR i)).
  - rewrite cos_neg, cos_minus, !cos_full. assert (S : forall k, sin (2 * PI * INR k) = 0).
    { intros k. replace (2 * PI * INR k) with (0 + 2 * INR k * PI) by ring. rewrite sin_period. apply sin_0. }
    rewrite !S. ring.
  - replace (INR 11) with 11 by (cbn; ring). replace (INR (23 - 1)) with 22 by (cbn; ring). field.
Qed.
Definition face_points2 (phi : R -> R -> pt2) (m n : nat) (p : R * R) : Prop := exists t, ref t /\ face_map2 phi m n t = Some p.
Lemma is_plane2_refuted : exists phi J, (forall x y, jacobian_of2 phi J x y) /\ (forall x y, 0 < determinant 2 (J x y)) /\
  is_plane2 J 1 1 /\ ~ in_line (face_points2 phi 1 1).
Proof.
  exists wavy, wavy_J. refine (conj _ (conj _ (conj _ _))).
  - intros; apply wavy_jac.
  - intros x y. rewrite det_expand2. unfold wavy_J, mat2. cbn [nth]. lra.
  - assert (K : forall x, cos (22 * PI * x) = 1 -> ounv2 wavy_J 1 1 x = Some (unit_of2 (- (22 * PI * 1), 1))).
    { intros x Hx. unfold ounv2, face_J2. cbn [face_ref2 option_map fst snd tangent2 turn2 Nat.eqb andb]. unfold wavy_J, mat2. cbn [nth]. now rewrite Hx. }
    exists (unit_of2 (- (22 * PI * 1), 1)). split.
    + apply K. apply wavy_sample. unfold linspace_m1_1. apply in_map_iff. exists 0%nat. split; [cbn; field |]. apply in_seq. lia.
    + intros x v Hx Hv. rewrite (K x (wavy_sample x Hx)) in Hv. injection Hv as <-. split; apply isclose_refl.
  - intros (a & b & c & N & H).
    assert (P : forall t, ref t -> a * t + b * (1 + sin (22 * PI * t)) = c).
    { intros t Ht. apply (H (t, 1 + sin (22 * PI * t))). exists t. split; [exact Ht | reflexivity]. }
    assert (E0 := P 0 ltac:(unfold ref; lra)). assert (E1 := P (1/44) ltac:(unfold ref; lra)). assert (E2 := P (1/22) ltac:(unfold ref; lra)).
    replace (22 * PI * 0) with 0 in E0 by ring. replace (22 * PI * (1/44)) with (PI / 2) in E1 by field. replace (22 * PI * (1/22)) with PI in E2 by field.
    rewrite sin_0 in E0. rewrite sin_PI2 in E1. rewrite sin_PI in E2. destruct N as [N | N]; apply N; lra.
Qed.
(** 3-d: only at points of the diagonal *)
Definition bowl (x y z : R) : pt3 := (x, y, z + (x - y) ^ 2).
Definition bowl_J (x y z : R) : mat := mat3 1 0 0 0 1 0 (2 * (x - y)) (- (2 * (x - y))) 1.
Lemma bowl_jac x y z : jacobian_of3 bowl bowl_J x y z.
Proof.
  intros m Hm. destruct (three m Hm) as [-> | [-> | ->]]; unfold bowl, bowl_J, mat3, coordinate3; cbn [nth fst snd];
    refine (conj _ (conj _ _)); auto_derive; trivial; ring.
Qed.
Definition face_points3 (phi : R -> R -> R -> pt3) (m n : nat) (p : R * R * R) : Prop :=
  exists a b c q, ref a /\ ref b /\ ref c /\ face_ref3 m n a b c = Some q /\ p = at_ref3 phi q.
Lemma bowl_normal x : ounv3 bowl_J 2 1 x x x = Some (0, 0, 1).
Proof.
  unfold ounv3, at_ref3, columns3, normal3, bowl_J, mat3. cbn [face_ref3 option_map fst snd nth Nat.eqb].
  replace (x - x) with 0 by ring.
  replace ((0 * - (2 * 0) - 2 * 0 * 1) ^ 2 + (2 * 0 * 0 - 1 * - (2 * 0)) ^ 2 + (1 * 1 - 0 * 0) ^ 2) with 1 by ring.
  rewrite sqrt_1. f_equal. (apply f_equal2; [apply f_equal2 |]); field.
Qed.
Lemma is_plane3_refuted : exists phi J, (forall x y z, jacobian_of3 phi J x y z) /\ (forall x y z, 0 < determinant 3 (J x y z)) /\
  is_plane3 J 2 1 /\ ~ in_plane (face_points3 phi 2 1).
Proof.
  exists bowl, bowl_J. refine (conj _ (conj _ (conj _ _))).
  - intros; apply bowl_jac.
  - intros x y z. rewrite det_expand3. unfold bowl_J, mat3. cbn [nth]. lra.
  - exists (0, 0, 1). split; [apply bowl_normal |]. intros x v _ Hv. rewrite bowl_normal in Hv. injection Hv as <-.
    refine (conj _ (conj _ _)); apply isclose_refl.
  - intros (a & b & c & d & N & H).
    assert (P : forall x y, ref x -> ref y -> a * x + b * y + c * (1 + (x - y) ^ 2) = d).
    { intros x y Hx Hy. apply (H (x, y, 1 + (x - y) ^ 2)). exists x, y, 0, (x, y, 1). refine (conj Hx (conj Hy (conj _ (conj eq_refl eq_refl)))). unfold ref; lra. }
    assert (E0 := P 0 0 ltac:(unfold ref; lra) ltac:(unfold ref; lra)). assert (E1 := P 1 0 ltac:(unfold ref; lra) ltac:(unfold ref; lra)).
    assert (E2 := P (-1) 0 ltac:(unfold ref; lra) ltac:(unfold ref; lra)). assert (E3 := P 0 1 ltac:(unfold ref; lra) ltac:(unfold ref; lra)).
    destruct N as [N | [N | N]]; apply N; lra.
Qed.
(** * is_perp_plane and area: an element turned by 45 degrees about the z-axis *)
Definition turned (x y z : R) : pt3 := (x - y, x + y, z).
Definition turned_J (x y z : R) : mat := mat3 1 (-1) 0 1 1 0 0 0 1.
Lemma turned_jac x y z : jacobian_of3 turned turned_J x y z.
Proof.
  intros m Hm. destruct (three m Hm) as [-> | [-> | ->]]; unfold turned, turned_J, mat3, coordinate3; cbn [nth fst snd];
    refine (conj _ (conj _ _)); auto_derive; trivial; ring.
Qed.
Lemma turned_x x y z : ounv3 turned_J 0 1 x y z = Some (1 / sqrt 2, 1 / sqrt 2, 0).
Proof.
  unfold ounv3, at_ref3, columns3, normal3, turned_J, mat3. cbn [face_ref3 option_map fst snd nth Nat.eqb].
  replace ((1 * 1 - 0 * 0) ^ 2 + (0 * 0 - -1 * 1) ^ 2 + (-1 * 0 - 1 * 0) ^ 2) with 2 by ring. pose proof sqrt2_neq_0.
  f_equal. (apply f_equal2; [apply f_equal2 |]); field; assumption.
Qed.
Lemma turned_z x y z : ounv3 turned_J 2 1 x y z = Some (0, 0, 1).
Proof.
  unfold ounv3, at_ref3, columns3, normal3, turned_J, mat3. cbn [face_ref3 option_map fst snd nth Nat.eqb].
  replace ((1 * 0 - 0 * 1) ^ 2 + (0 * -1 - 1 * 0) ^ 2 + (1 * 1 - 1 * -1) ^ 2) with (2 * 2) by ring. rewrite sqrt_square by lra.
  f_equal. (apply f_equal2; [apply f_equal2 |]); field.
Qed.
Lemma perp_plane_refuted : exists J v, (forall x y z, ounv3 J 0 1 x y z = Some v) /\
  fst (fst v) <> 0 /\ snd (fst v) <> 0 /\ is_perp_plane3 J 0 1.
Proof.
  exists turned_J, (1 / sqrt 2, 1 / sqrt 2, 0). assert (P : 0 < 1 / sqrt 2) by (apply Rdiv_lt_0_compat; [lra | apply sqrt_lt_R0; lra]).
  refine (conj turned_x (conj _ (conj _ _))); cbn [fst snd]; try lra. split.
  - eexists. split; [apply turned_x |]. intros x v _ Hv. rewrite turned_x in Hv. injection Hv as <-. refine (conj _ (conj _ _)); apply isclose_refl.
  - right. right. intros x v _ Hv. rewrite turned_x in Hv. injection Hv as <-. apply isclose_refl.
Qed.
Lemma right_angle (A o B : R * R * R) : dot3 (sub3 A o) (sub3 B o) = 0 -> isclose (angle3 A o B) (PI * (1/2)).
Proof.
  intros H. unfold angle3. rewrite H. unfold Rdiv at 1. rewrite Rmult_0_l, acos_0. replace (PI * (1/2)) with (PI / 2) by field. apply isclose_refl.
Qed.
Ltac corner := unfold ref; refine (conj _ (conj _ (conj _ (conj eq_refl _)))); try lra; unfold at_ref3, turned; cbn [fst snd]; (apply f_equal2; [apply f_equal2 |]); ring.
Lemma area_refuted : exists phi J, (forall x y z, jacobian_of3 phi J x y z) /\ (forall x y z, 0 < determinant 3 (J x y z)) /\
  is_perp_plane3 J 2 1 /\ is_rectangle3 phi J 2 1 /\
  face_points3 phi 2 1 (0, -2, 1) /\ face_points3 phi 2 1 (2, 0, 1) /\ face_points3 phi 2 1 (0, 2, 1) /\ face_points3 phi 2 1 (-2, 0, 1) /\ face_area isclose isclose_dec phi 2 1 = Some 0.
Proof.
  assert (PP : is_plane3 turned_J 2 1).
  { eexists. split; [apply turned_z |]. intros x v _ Hv. rewrite turned_z in Hv. injection Hv as <-. refine (conj _ (conj _ _)); apply isclose_refl. }
  exists turned, turned_J. refine (conj _ (conj _ (conj _ (conj _ (conj _ (conj _ (conj _ (conj _ _)))))))).
  - intros; apply turned_jac.
  - intros x y z. rewrite det_expand3. unfold turned_J, mat3. cbn [nth]. lra.
  - split; [exact PP |]. left. intros x v _ Hv. rewrite turned_z in Hv. injection Hv as <-. apply isclose_refl.
  - split; [exact PP |]. do 4 eexists. refine (conj eq_refl (conj eq_refl (conj eq_refl (conj eq_refl _)))).
    split; apply right_angle; unfold dot3, sub3, at_ref3, turned; cbn [fst snd]; ring.
  - exists (-1), (-1), 0; eexists; corner.
  - exists 1, (-1), 0; eexists; corner.
  - exists 1, 1, 0; eexists; corner.
  - exists (-1), 1, 0; eexists; corner.
  - unfold face_area, area_of, at_ref3, turned. cbn [face_ref3 fst snd].
    destruct (isclose_dec (-1 - -1) (1 - 1)) as [_ | N]; [f_equal; ring |]. exfalso. apply N.
    replace (-1 - -1) with (1 - 1) by ring. apply isclose_refl.
Qed.
(** boxes: the product of the two other sides, if no side is so short that its ends count as equal *)
Definition boxed (ox oy oz dx dy dz x y z : R) : pt3 := (ox + dx * (x + 1) / 2, oy + dy * (y + 1) / 2, oz + dz * (z + 1) / 2).
Lemma area_box (eq : R -> R -> Prop) (dec : forall a b, {eq a b} + {~ eq a b}) (ox oy oz dx dy dz : R) (m n : nat) : (forall a, eq a a) ->
  ~ eq ox (ox + dx) -> ~ eq oy (oy + dy) -> ~ eq oz (oz + dz) -> (m < 3)%nat -> (n < 2)%nat ->
  face_area eq dec (boxed ox oy oz dx dy dz) m n = Some (match m with 0%nat => dy * dz | 1%nat => dz * dx | _ => dx * dy end).
Proof.
  intros R0 Nx Ny Nz Hm Hn. unfold face_area, area_of, at_ref3, boxed.
  assert (L : forall o d, o + d * (-1 + 1) / 2 = o) by (intros; field). assert (U : forall o d, o + d * (1 + 1) / 2 = o + d) by (intros; field).
  destruct m as [| [| [| m]]]; try lia; destruct n as [| [| n]]; try lia; cbn [face_ref3 fst snd]; rewrite ?L, ?U.
  - destruct (dec ox ox) as [_ | N]; [f_equal; ring | now contradiction N].
  - destruct (dec (ox + dx) (ox + dx)) as [_ | N]; [f_equal; ring | now contradiction N].
  - destruct (dec ox (ox + dx)); [contradiction |]. destruct (dec oy oy) as [_ | N]; [f_equal; ring | now contradiction N].
  - destruct (dec ox (ox + dx)); [contradiction |]. destruct (dec (oy + dy) (oy + dy)) as [_ | N]; [f_equal; ring | now contradiction N].
  - destruct (dec ox (ox + dx)); [contradiction |]. destruct (dec oy (oy + dy)); [contradiction |].
    destruct (dec oz oz) as [_ | N]; [f_equal; ring | now contradiction N].
  - destruct (dec ox (ox + dx)); [contradiction |]. destruct (dec oy (oy + dy)); [contradiction |].
    destruct (dec (oz + dz) (oz + dz)) as [_ | N]; [f_equal; ring | now contradiction N].
Qed.
(** and far from the origin they do *)
Lemma area_far : face_area isclose isclose_dec (boxed 1000 0 0 (1/1000) 1 1) 1 0 = Some 0.
Proof.
  unfold face_area, area_of, at_ref3, boxed. cbn [face_ref3 fst snd].
  destruct (isclose_dec (1000 + 1/1000 * (-1 + 1) / 2) (1000 + 1/1000 * (1 + 1) / 2)) as [_ | N].
  - f_equal. field.
  - exfalso. apply N. unfold isclose. rewrite (Rabs_left1 (_ - _)) by lra. rewrite Rabs_pos_eq by lra. lra.
Qed.
