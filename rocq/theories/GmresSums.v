(** Sums for GmresThms.v. *)
From Coq Require Import List Arith ZArith Bool Reals Lia Lra.
From Verif Require Import GmresModel GmresSpec.
Import ListNotations.
Local Open Scope R_scope.

Lemma rsum_ext n f g : (forall i, (i < n)%nat -> f i = g i) -> rsum n f = rsum n g.
Proof. induction n; intros H; [reflexivity|]. cbn [rsum]. rewrite IHn by (intros; apply H; lia). rewrite H by lia. reflexivity. Qed.
Lemma rsum_zero n f : (forall i, (i < n)%nat -> f i = 0) -> rsum n f = 0.
Proof. induction n; intros H; [reflexivity|]. cbn [rsum]. rewrite IHn by (intros; apply H; lia). rewrite H by lia. lra. Qed.
Lemma rsum_add n f g : rsum n (fun i => f i + g i) = rsum n f + rsum n g.
Proof. induction n; cbn [rsum]; [lra|]. rewrite IHn. lra. Qed.
Lemma rsum_mul n c f : rsum n (fun i => c * f i) = c * rsum n f.
Proof. induction n; cbn [rsum]; [lra|]. rewrite IHn. lra. Qed.
Lemma rsum_mul_r n c f : rsum n (fun i => f i * c) = rsum n f * c.
Proof. induction n; cbn [rsum]; [lra|]. rewrite IHn. lra. Qed.
Lemma rsum_opp n f : rsum n (fun i => - f i) = - rsum n f.
Proof. induction n; cbn [rsum]; [lra|]. rewrite IHn. lra. Qed.
Lemma rsum_sub n f g : rsum n (fun i => f i - g i) = rsum n f - rsum n g.
Proof. induction n; cbn [rsum]; [lra|]. rewrite IHn. lra. Qed.
Lemma rsum_swap n m (f : nat -> nat -> R) : rsum n (fun i => rsum m (f i)) = rsum m (fun j => rsum n (fun i => f i j)).
Proof.
  induction n; cbn [rsum].
  - symmetry. apply rsum_zero. reflexivity.
  - rewrite IHn, <- rsum_add. reflexivity.
Qed.
Lemma rsum_one n f a : (a < n)%nat -> (forall i, (i < n)%nat -> i <> a -> f i = 0) -> rsum n f = f a.
Proof.
  induction n; intros H G; [lia|]. cbn [rsum]. destruct (Nat.eq_dec a n) as [->|N].
  - rewrite rsum_zero; [lra|]. intros i I. apply G; lia.
  - rewrite IHn; [|lia|intros; apply G; lia]. rewrite (G n) by lia. lra.
Qed.
Lemma rsum_shift n f : rsum (S n) f = f 0%nat + rsum n (fun i => f (S i)).
Proof. induction n; [cbn [rsum]; lra|]. change (rsum (S (S n)) f) with (rsum (S n) f + f (S n)). rewrite IHn. cbn [rsum]. lra. Qed.
Lemma rsum_nonneg n f : (forall i, (i < n)%nat -> 0 <= f i) -> 0 <= rsum n f.
Proof.
  induction n; intros H; cbn [rsum]; [lra|].
  assert (0 <= rsum n f) by (apply IHn; intros; apply H; lia). assert (0 <= f n) by (apply H; lia). lra.
Qed.
Lemma rsum_le n f g : (forall i, (i < n)%nat -> f i <= g i) -> rsum n f <= rsum n g.
Proof.
  induction n; intros H; cbn [rsum]; [lra|].
  assert (rsum n f <= rsum n g) by (apply IHn; intros; apply H; lia). assert (f n <= g n) by (apply H; lia). lra.
Qed.
Lemma rsum_zero_each n f : (forall i, (i < n)%nat -> 0 <= f i) -> rsum n f = 0 -> forall i, (i < n)%nat -> f i = 0.
Proof.
  induction n; intros H E i I; [lia|]. cbn [rsum] in E.
  assert (0 <= rsum n f) by (apply rsum_nonneg; intros; apply H; lia). assert (0 <= f n) by (apply H; lia).
  destruct (Nat.eq_dec i n) as [->|N]; [lra|]. apply IHn; [intros; apply H; lia|lra|lia].
Qed.
Lemma rsum_more n m f : (forall i, (n <= i)%nat -> f i = 0) -> (n <= m)%nat -> rsum m f = rsum n f.
Proof.
  intros H L. induction m; [replace n with 0%nat by lia; reflexivity|].
  destruct (Nat.eq_dec n (S m)) as [->|N]; [reflexivity|]. cbn [rsum]. rewrite IHm by lia. rewrite H by lia. lra.
Qed.
Lemma rsum_plus n m f : rsum (n + m) f = rsum n f + rsum m (fun i => f (n + i)%nat).
Proof.
  induction m; [rewrite Nat.add_0_r; cbn [rsum]; lra|]. rewrite Nat.add_succ_r. cbn [rsum]. rewrite IHm. lra.
Qed.
Lemma rsum_const n c : rsum n (fun _ => c) = INR n * c.
Proof. induction n; [cbn [rsum INR]; lra|]. cbn [rsum]. rewrite IHn, S_INR. lra. Qed.
Lemma rsum_rev n f : rsum n f = rsum n (fun i => f (n - 1 - i)%nat).
Proof.
  revert f. induction n; intros f; [reflexivity|]. rewrite (rsum_shift n (fun i => f (S n - 1 - i)%nat)). cbn [rsum]. rewrite IHn.
  replace (S n - 1 - 0)%nat with n by lia. rewrite Rplus_comm. f_equal. apply rsum_ext. intros i I. f_equal. lia.
Qed.

Lemma total_rsum n g : total n g = rsum n g.
Proof.
  unfold total. induction n; [reflexivity|]. rewrite seq_S, map_app, fold_right_app. cbn [map fold_right rsum].
  rewrite <- IHn. cbn [Nat.add]. rewrite Rplus_0_r. clear. induction (map g (seq 0 n)) as [|a l IH]; cbn [fold_right]; [lra|]. rewrite IH. lra.
Qed.
Lemma apply_mv n A x i : apply n A x i = mv n A x i.
Proof. unfold apply, mv. apply total_rsum. Qed.
Lemma len_norm n v : len n v = norm n v.
Proof. unfold len, norm, dot. rewrite total_rsum. reflexivity. Qed.

(** the inner product *)
Lemma dot_ext n a b a' b' : (forall i, (i < n)%nat -> a i = a' i) -> (forall i, (i < n)%nat -> b i = b' i) -> dot n a b = dot n a' b'.
Proof. intros H G. apply rsum_ext. intros i I. rewrite H, G by exact I. reflexivity. Qed.
Lemma dot_comm n a b : dot n a b = dot n b a.
Proof. apply rsum_ext. intros. lra. Qed.
Lemma dot_add_l n a b c : dot n (fun i => a i + b i) c = dot n a c + dot n b c.
Proof. unfold dot. rewrite <- rsum_add. apply rsum_ext. intros. lra. Qed.
Lemma dot_sub_l n a b c : dot n (fun i => a i - b i) c = dot n a c - dot n b c.
Proof. unfold dot. rewrite <- rsum_sub. apply rsum_ext. intros. lra. Qed.
Lemma dot_scale_l n k a c : dot n (fun i => k * a i) c = k * dot n a c.
Proof. unfold dot. rewrite <- rsum_mul. apply rsum_ext. intros. lra. Qed.
Lemma dot_sum_l n k (g : nat -> vec) c : dot n (fun i => rsum k (fun j => g j i)) c = rsum k (fun j => dot n (g j) c).
Proof.
  unfold dot. rewrite <- rsum_swap. apply rsum_ext. intros i I. rewrite <- rsum_mul_r. reflexivity.
Qed.
Lemma dot_comb_l n k y (g : nat -> vec) c : dot n (fun i => rsum k (fun j => y j * g j i)) c = rsum k (fun j => y j * dot n (g j) c).
Proof. rewrite (dot_sum_l n k (fun j i => y j * g j i)). apply rsum_ext. intros j J. apply dot_scale_l. Qed.
Lemma dot_self n a : 0 <= dot n a a.
Proof. apply rsum_nonneg. intros i I. apply Rle_0_sqr. Qed.
Lemma dot_self_zero n a : dot n a a = 0 -> forall i, (i < n)%nat -> a i = 0.
Proof.
  intros E i I. apply (rsum_zero_each n _) with (i := i) in E; [|intros j J; apply Rle_0_sqr|exact I]. apply Rmult_integral in E. tauto.
Qed.
Lemma dot_diff_sq n r w : dot n (fun l => r l - w l) (fun l => r l - w l) = dot n r r - 2 * dot n w r + dot n w w.
Proof. unfold dot. rewrite <- rsum_mul, <- rsum_sub, <- rsum_add. apply rsum_ext. intros. ring. Qed.
Lemma norm_sq n a : norm n a * norm n a = dot n a a.
Proof. unfold norm. apply sqrt_sqrt, dot_self. Qed.
Lemma norm_pos n a : 0 <= norm n a.
Proof. apply sqrt_pos. Qed.
Lemma norm_zero n a : norm n a = 0 -> forall i, (i < n)%nat -> a i = 0.
Proof. intros E. apply dot_self_zero. rewrite <- norm_sq, E. lra. Qed.
Lemma norm_of_zero n a : (forall i, (i < n)%nat -> a i = 0) -> norm n a = 0.
Proof. intros E. unfold norm, dot. rewrite (rsum_zero n); [apply sqrt_0|]. intros i I. rewrite E by exact I. lra. Qed.
Lemma norm_le n a b : dot n a a <= dot n b b -> norm n a <= norm n b.
Proof. apply sqrt_le_1_alt. Qed.

(** the product *)
Lemma mv_ext n M M' x x' i : (forall j, (j < n)%nat -> M i j = M' i j) -> (forall j, (j < n)%nat -> x j = x' j) -> mv n M x i = mv n M' x' i.
Proof. intros H G. apply rsum_ext. intros j J. rewrite H, G by exact J. reflexivity. Qed.
Lemma mv_add n M x y i : mv n M (fun l => x l + y l) i = mv n M x i + mv n M y i.
Proof. unfold mv. rewrite <- rsum_add. apply rsum_ext. intros. lra. Qed.
Lemma mv_scale n M k x i : mv n M (fun l => k * x l) i = k * mv n M x i.
Proof. unfold mv. rewrite <- rsum_mul. apply rsum_ext. intros. lra. Qed.
Lemma mv_comb n M k y (g : nat -> vec) i : mv n M (fun l => rsum k (fun j => y j * g j l)) i = rsum k (fun j => y j * mv n M (g j) i).
Proof.
  unfold mv. rewrite (rsum_ext n _ (fun l => rsum k (fun j => y j * (M i l * g j l)))).
  - rewrite rsum_swap. apply rsum_ext. intros j J. apply rsum_mul.
  - intros l L. rewrite <- rsum_mul. apply rsum_ext. intros. lra.
Qed.
