From Coq Require Import List Arith Reals Lra Lia.
From Coquelicot Require Import Coquelicot.
From Verif Require Import MappingModel MappingSpec MappingProofs JacobianModel JacobianSpec.
Import ListNotations.
Local Open Scope R_scope.

Lemma dims n : (1 <= n <= 3)%nat -> n = 1%nat \/ n = 2%nat \/ n = 3%nat. Proof. lia. Qed.
Lemma jac_det_spec n J : (1 <= n <= 3)%nat -> jac_det n J = Some (determinant n J).
Proof.
  intros H. destruct (dims n H) as [-> | [-> | ->]]; cbn [jac_det]; f_equal; cbn; unfold minor; cbn; ring.
Qed.
Lemma jac_det_refuse n J : (n = 0 \/ 4 <= n)%nat -> jac_det n J = None.
Proof. intros H. destruct n as [| [| [| [| n]]]]; try lia; reflexivity. Qed.
Lemma jac_metric_spec n J : (1 <= n <= 3)%nat -> jac_metric n J = Some (determinant n (product n (transposed J) J)).
Proof.
  intros H. unfold jac_metric. rewrite jac_det_spec by exact H. cbn [option_map]. f_equal.
  destruct (dims n H) as [-> | [-> | ->]]; cbn; unfold minor, product, transposed; cbn; ring.
Qed.
Lemma jac_inv_some n J : (1 <= n <= 3)%nat -> exists K, jac_inv n J = Some K.
Proof. intros H. destruct (dims n H) as [-> | [-> | ->]]; cbn [jac_inv]; eauto. Qed.
Lemma three i : (i < 3)%nat -> i = 0%nat \/ i = 1%nat \/ i = 2%nat. Proof. lia. Qed.
Lemma det_expand2 J : determinant 2 J = J 0%nat 0%nat * J 1%nat 1%nat - J 0%nat 1%nat * J 1%nat 0%nat.
Proof. cbn; unfold minor; cbn; ring. Qed.
Lemma det_expand3 J : determinant 3 J = (J 0%nat 0%nat * J 1%nat 1%nat * J 2%nat 2%nat + J 0%nat 1%nat * J 1%nat 2%nat * J 2%nat 0%nat
               + J 0%nat 2%nat * J 1%nat 0%nat * J 2%nat 1%nat - J 0%nat 0%nat * J 1%nat 2%nat * J 2%nat 1%nat
               - J 0%nat 1%nat * J 1%nat 0%nat * J 2%nat 2%nat - J 0%nat 2%nat * J 1%nat 1%nat * J 2%nat 0%nat).
Proof. cbn; unfold minor; cbn; ring. Qed.
Lemma det_expand1 J : determinant 1 J = J 0%nat 0%nat.
Proof. cbn; unfold minor; cbn; ring. Qed.
Lemma jac_inv_inverse n J K : determinant n J <> 0 -> jac_inv n J = Some K ->
  same_matrix n (product n J K) identity /\ same_matrix n (product n K J) identity.
Proof.
  intros Hd HK.
  assert (H : (n = 1 \/ n = 2 \/ n = 3)%nat).
  { destruct n as [| [| [| [| n]]]]; [discriminate HK | lia | lia | lia | discriminate HK]. }
  destruct H as [-> | [-> | ->]]; cbn [jac_inv] in HK; injection HK as <-.
  - rewrite det_expand1 in Hd. split; intros i j Hi Hj; (replace i with 0%nat by lia); (replace j with 0%nat by lia); cbn; field; exact Hd.
  - rewrite det_expand2 in Hd. split; intros i j Hi Hj; destruct (two i Hi) as [-> | ->]; destruct (two j Hj) as [-> | ->];
      cbn; field; exact Hd.
  - rewrite det_expand3 in Hd. split; intros i j Hi Hj; destruct (three i Hi) as [-> | [-> | ->]]; destruct (three j Hj) as [-> | [-> | ->]];
      cbn; field; exact Hd.
Qed.
Lemma jac_inv_det_spec n J : (1 <= n <= 3)%nat -> determinant n J <> 0 -> jac_inv_det n J = Some (1 / determinant n J).
Proof.
  intros H Hd. unfold jac_inv_det. destruct (dims n H) as [-> | [-> | ->]]; cbn [jac_inv jac_det].
  - rewrite det_expand1. reflexivity.
  - rewrite det_expand2 in *. f_equal. cbn. field. exact Hd.
  - rewrite det_expand3 in *. f_equal. cbn. field. exact Hd.
Qed.

Lemma acc_sum_spec n f : (1 <= n)%nat -> acc_sum n f = sum_n n f.
Proof.
  intros H. destruct n as [| n]; [lia |]. unfold acc_sum. replace (S n - 1)%nat with n by lia. clear H.
  induction n as [| n IH]; [cbn; ring |].
  rewrite seq_S, fold_left_app. cbn [fold_left]. rewrite IH. cbn [sum_n Nat.add]. ring.
Qed.
Lemma sum_n_ext n f g : (forall i, (i < n)%nat -> f i = g i) -> sum_n n f = sum_n n g.
Proof. induction n; intros H; cbn; [reflexivity |]. rewrite IHn, H; auto. Qed.
Lemma jac_G_spec n J : (1 <= n)%nat -> forall i j, jac_G n J i j = product n (transposed J) J i j.
Proof.
  intros H i j. unfold jac_G. rewrite acc_sum_spec by exact H. unfold product, transposed.
  destruct (Nat.le_ge_cases i j) as [L | L].
  - rewrite Nat.min_l, Nat.max_r by lia. reflexivity.
  - rewrite Nat.min_r, Nat.max_l by lia. apply sum_n_ext. intros. ring.
Qed.
Lemma jac_iG_spec n K : (1 <= n)%nat -> forall i j, jac_iG n K i j = product n K (transposed K) i j.
Proof.
  intros H i j. unfold jac_iG. rewrite acc_sum_spec by exact H. unfold product, transposed.
  destruct (Nat.le_ge_cases i j) as [L | L].
  - rewrite Nat.min_l, Nat.max_r by lia. reflexivity.
  - rewrite Nat.min_r, Nat.max_l by lia. apply sum_n_ext. intros. ring.
Qed.

(** general facts of sums and products *)
Lemma sum_n_scal n c f : sum_n n (fun i => c * f i) = c * sum_n n f.
Proof. induction n; cbn; [ring | rewrite IHn; ring]. Qed.
Lemma sum_n_scal_r n c f : sum_n n (fun i => f i * c) = sum_n n f * c.
Proof. induction n; cbn; [ring | rewrite IHn; ring]. Qed.
Lemma sum_n_plus n f g : sum_n n (fun i => f i + g i) = sum_n n f + sum_n n g.
Proof. induction n; cbn; [ring | rewrite IHn; ring]. Qed.
Lemma sum_n_0 n : sum_n n (fun _ => 0) = 0.
Proof. induction n; cbn; [ring | rewrite IHn; ring]. Qed.
Lemma sum_n_swap n m f : sum_n n (fun i => sum_n m (fun j => f i j)) = sum_n m (fun j => sum_n n (fun i => f i j)).
Proof. induction n; cbn [sum_n]; [now rewrite sum_n_0 | rewrite IHn, <- sum_n_plus; reflexivity]. Qed.
Lemma sum_n_delta n i f : (i < n)%nat -> sum_n n (fun l => (if (i =? l)%nat then 1 else 0) * f l) = f i.
Proof.
  induction n as [| n IH]; intros H; [lia |]. cbn [sum_n]. destruct (Nat.eq_dec i n) as [-> | N].
  - rewrite Nat.eqb_refl. rewrite (sum_n_ext n _ (fun _ => 0)), sum_n_0; [ring |].
    intros l Hl. destruct (Nat.eqb_spec n l); [lia | ring].
  - rewrite IH by lia. destruct (Nat.eqb_spec i n); [lia | ring].
Qed.
Lemma product_assoc n A B C i j : product n (product n A B) C i j = product n A (product n B C) i j.
Proof.
  unfold product.
  rewrite (sum_n_ext n _ (fun l => sum_n n (fun k => A i k * B k l * C l j))).
  2: { intros. now rewrite <- sum_n_scal_r. }
  rewrite sum_n_swap. apply sum_n_ext. intros k _. rewrite <- sum_n_scal. apply sum_n_ext. intros. ring.
Qed.
Lemma product_id_l n A i j : (i < n)%nat -> product n identity A i j = A i j.
Proof. intros H. unfold product, identity. now apply (sum_n_delta n i (fun l => A l j)). Qed.
Lemma product_id_r n A i j : (j < n)%nat -> product n A identity i j = A i j.
Proof.
  intros H. unfold product, identity. rewrite (sum_n_ext n _ (fun l => (if (j =? l)%nat then 1 else 0) * A i l)).
  - now apply (sum_n_delta n j (fun l => A i l)).
  - intros l _. rewrite Nat.eqb_sym. ring.
Qed.
Lemma product_ext n A A' B B' i j : (forall l, (l < n)%nat -> A i l = A' i l) -> (forall l, (l < n)%nat -> B l j = B' l j) ->
  product n A B i j = product n A' B' i j.
Proof. intros H1 H2. apply sum_n_ext. intros. rewrite H1, H2 by assumption. reflexivity. Qed.
Lemma product_transposed n A B i j : product n (transposed A) (transposed B) i j = product n B A j i.
Proof. unfold product, transposed. apply sum_n_ext. intros. ring. Qed.

Lemma jac_iG_inverse n J K : determinant n J <> 0 -> jac_inv n J = Some K ->
  same_matrix n (product n (jac_G n J) (jac_iG n K)) identity.
Proof.
  intros Hd HK i j Hi Hj. destruct (jac_inv_inverse n J K Hd HK) as [JK KJ].
  assert (N : (1 <= n)%nat) by lia.
  rewrite (product_ext n _ (product n (transposed J) J) _ (product n K (transposed K))).
  2: intros; now apply jac_G_spec. 2: intros; now apply jac_iG_spec.
  rewrite product_assoc.
  rewrite (product_ext n (transposed J) (transposed J) _ (transposed K)).
  - rewrite product_transposed, (KJ j i Hj Hi). unfold identity. now rewrite Nat.eqb_sym.
  - reflexivity.
  - intros l Hl. rewrite <- product_assoc. rewrite (product_ext n _ identity _ (transposed K)).
    + now apply product_id_l.
    + intros k Hk. now apply JK.
    + reflexivity.
Qed.
Lemma jac_G_lengths n J v w : (1 <= n)%nat ->
  dot n (image n J v) (image n J w) = dot n v (image n (jac_G n J) w).
Proof.
  intros N. unfold dot, image.
  rewrite (sum_n_ext n (fun i => v i * _) (fun i => sum_n n (fun l => v i * (sum_n n (fun k => J k i * J k l) * w l)))).
  2: { intros i Hi. rewrite <- sum_n_scal. apply sum_n_ext. intros l Hl. rewrite jac_G_spec by exact N. reflexivity. }
  rewrite (sum_n_ext n (fun i => v i * 0 + _) (fun i => sum_n n (fun l => v i * (sum_n n (fun k => J k i * J k l) * w l)))) || idtac.
  rewrite (sum_n_ext n (fun i => sum_n n (fun l => J i l * v l) * _)
            (fun k => sum_n n (fun i => sum_n n (fun l => J k i * v i * (J k l * w l))))).
  2: { intros k Hk. rewrite <- sum_n_scal_r. apply sum_n_ext. intros i Hi. now rewrite <- sum_n_scal. }
  rewrite sum_n_swap. apply sum_n_ext. intros i Hi.
  rewrite sum_n_swap. apply sum_n_ext. intros l Hl.
  rewrite <- sum_n_scal_r, <- sum_n_scal. apply sum_n_ext. intros. ring.
Qed.
Lemma dot_nonneg n v : 0 <= dot n v v.
Proof. unfold dot. induction n; cbn; [lra |]. pose proof (Rle_0_sqr (v n)) as Q. unfold Rsqr in Q. lra. Qed.
Lemma dot_zero n v : dot n v v = 0 -> forall i, (i < n)%nat -> v i = 0.
Proof.
  unfold dot. induction n as [| n IH]; intros H i Hi; [lia |]. cbn [sum_n] in H.
  pose proof (Rle_0_sqr (v n)) as Q. unfold Rsqr in Q. pose proof (dot_nonneg n v) as P. unfold dot in P.
  destruct (Nat.eq_dec i n) as [-> |]; [nra | apply IH; [lra | lia]].
Qed.
Lemma image_ext n A v w i : (forall l, (l < n)%nat -> v l = w l) -> image n A v i = image n A w i.
Proof. intros H. apply sum_n_ext. intros. now rewrite H. Qed.
Lemma image_product n A B v i : image n A (image n B v) i = image n (product n A B) v i.
Proof.
  unfold image, product.
  rewrite (sum_n_ext n _ (fun l => sum_n n (fun k => A i l * (B l k * v k)))) by (intros; now rewrite <- sum_n_scal).
  rewrite sum_n_swap. apply sum_n_ext. intros k Hk. rewrite <- sum_n_scal_r. apply sum_n_ext. intros. ring.
Qed.
Lemma image_identity n v i : (i < n)%nat -> image n identity v i = v i.
Proof. intros H. unfold image, identity. now apply sum_n_delta. Qed.
Lemma jac_G_positive n J v : determinant n J <> 0 -> (1 <= n <= 3)%nat -> (exists i, (i < n)%nat /\ v i <> 0) ->
  0 < dot n v (image n (jac_G n J) v).
Proof.
  intros Hd N [i [Hi Hv]]. rewrite <- jac_G_lengths by lia.
  destruct (Rle_lt_or_eq_dec _ _ (dot_nonneg n (image n J v))) as [| E]; [assumption | exfalso].
  destruct (jac_inv_some n J N) as [K HK]. destruct (jac_inv_inverse n J K Hd HK) as [_ KJ].
  apply Hv. rewrite <- (image_identity n v i Hi).
  transitivity (image n (product n K J) v i).
  - apply sum_n_ext. intros l Hl. rewrite (KJ i l Hi Hl). reflexivity.
  - rewrite <- image_product. unfold image at 1. rewrite (sum_n_ext n _ (fun _ => 0)); [apply sum_n_0 |].
    intros l Hl. rewrite (dot_zero n (image n J v) (eq_sym E) l Hl). ring.
Qed.

(** * the inverse Jacobian matrix is the Jacobian matrix of the inverse mapping *)
Lemma inverse_mapping2 f J g K x y iJ :
  determinant 2 (J x y) <> 0 -> jac_inv 2 (J x y) = Some iJ ->
  jacobian_of2 f J x y -> jacobian_of2 g K (fst (f x y)) (snd (f x y)) ->
  (forall u v, g (fst (f u v)) (snd (f u v)) = (u, v)) ->
  same_matrix 2 (K (fst (f x y)) (snd (f x y))) iJ.
Proof.
  intros Hd Hi Hf Hg E. destruct (jac_inv_inverse 2 _ _ Hd Hi) as [JK _].
  pose proof (jac_comp g K f J x y Hf Hg) as [C0 C1].
  set (k := K (fst (f x y)) (snd (f x y))) in *.
  assert (KJ : same_matrix 2 (product 2 k (J x y)) identity).
  { assert (I0 : D2 (fun u v => fst (g (fst (f u v)) (snd (f u v)))) x y 1 0).
    { eapply D2_ext; [| apply D2_fst]. intros u v. now rewrite E. }
    assert (I1 : D2 (fun u v => snd (g (fst (f u v)) (snd (f u v)))) x y 0 1).
    { eapply D2_ext; [| apply D2_snd]. intros u v. now rewrite E. }
    destruct (differentiable_pt_lim_unique _ _ _ _ _ C0) as [A0 B0]. destruct (differentiable_pt_lim_unique _ _ _ _ _ I0) as [A0' B0'].
    destruct (differentiable_pt_lim_unique _ _ _ _ _ C1) as [A1 B1]. destruct (differentiable_pt_lim_unique _ _ _ _ _ I1) as [A1' B1'].
    cbn beta in A0, B0, A1, B1. rewrite A0' in A0. rewrite B0' in B0. rewrite A1' in A1. rewrite B1' in B1. fold k in A0, B0, A1, B1.
    cases2; cbn; lra. }
  intros i j Hi' Hj'.
  rewrite <- (product_id_r 2 k i j Hj').
  rewrite (product_ext 2 k k identity (product 2 (J x y) iJ)); [| reflexivity | intros l Hl; symmetry; now apply JK].
  rewrite <- product_assoc.
  rewrite (product_ext 2 _ identity iJ iJ); [now apply product_id_l | intros l Hl; now apply KJ | reflexivity].
Qed.

(** * orthogonal elements: the constants are those of the general formulas *)
Lemma or_constants_spec rx ry (o := or_constants rx ry) : rx <> 0 -> ry <> 0 ->
  jac_det 2 (k_JM o) = Some (k_J o) /\ jac_metric 2 (k_JM o) = Some (k_metric o) /\
  jac_inv_det 2 (k_JM o) = Some (k_iJ o) /\
  (exists K, jac_inv 2 (k_JM o) = Some K /\ same_matrix 2 (k_iJM o) K /\ same_matrix 2 (k_imm o) (jac_iG 2 K)) /\
  same_matrix 2 (k_mm o) (jac_G 2 (k_JM o)).
Proof.
  intros Hx Hy. subst o. cbn [or_constants k_J k_metric k_iJ k_JM k_iJM k_mm k_imm].
  refine (conj _ (conj _ (conj _ (conj _ _)))).
  - cbn. f_equal. ring.
  - cbn. f_equal. ring.
  - cbn. f_equal. field. auto.
  - eexists. split; [reflexivity |]. split; cases2; cbn; field; auto.
  - cases2; cbn; ring.
Qed.
Lemma oh_constants_spec rx ry rz (o := oh_constants rx ry rz) : rx <> 0 -> ry <> 0 -> rz <> 0 ->
  jac_det 3 (k_JM o) = Some (k_J o) /\ jac_metric 3 (k_JM o) = Some (k_metric o) /\
  jac_inv_det 3 (k_JM o) = Some (k_iJ o) /\
  (exists K, jac_inv 3 (k_JM o) = Some K /\ same_matrix 3 (k_iJM o) K /\ same_matrix 3 (k_imm o) (jac_iG 3 K)) /\
  same_matrix 3 (k_mm o) (jac_G 3 (k_JM o)).
Proof.
  intros Hx Hy Hz. subst o. cbn [oh_constants k_J k_metric k_iJ k_JM k_iJM k_mm k_imm].
  refine (conj _ (conj _ (conj _ (conj _ _)))).
  - cbn. f_equal. ring.
  - cbn. f_equal. ring.
  - cbn. f_equal. field. auto.
  - eexists. split; [reflexivity |].
    split; intros i j Hi Hj; destruct (three i Hi) as [-> | [-> | ->]]; destruct (three j Hj) as [-> | [-> | ->]]; cbn; field; auto.
  - intros i j Hi Hj; destruct (three i Hi) as [-> | [-> | ->]]; destruct (three j Hj) as [-> | [-> | ->]]; cbn; ring.
Qed.
(** a half size below half a unit of the eighth decimal is rounded to zero: the element has no inverse *)
Lemma tiny_rectangle (rd8 : R -> R) dx dy : (forall v, Rabs v < 5 / 10 ^ 9 -> rd8 v = 0) -> 0 < dx < 1 / 10 ^ 8 ->
  jac_det 2 (ortho_rect_J rd8 dx dy) = Some 0.
Proof.
  intros H Hx. cbn. unfold ortho_rect_J, mat2. cbn [nth]. rewrite (H (dx / 2)).
  - f_equal. ring.
  - rewrite Rabs_right by lra. lra.
Qed.
