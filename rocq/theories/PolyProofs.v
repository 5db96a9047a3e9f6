(** Proofs about the one-dimensional basis polynomials: algebra. *)
From Coq Require Import List Arith Reals Bool Lia Lra Psatz.
From Coquelicot Require Import Coquelicot.
From Verif Require Import PolyModel PolySpec.
Import ListNotations.
Local Open Scope R_scope.

(** * sums and products *)
Lemma fold_left_ext {A B} (f g : A -> B -> A) l a :
  (forall x y, In y l -> f x y = g x y) -> fold_left f l a = fold_left g l a.
Proof.
  revert a. induction l as [|b l IH]; intros a H; [reflexivity|]. cbn. rewrite H by (left; reflexivity).
  apply IH. intros. apply H. right. assumption.
Qed.
Lemma np_sum_total n f : np_sum n f = total n f.
Proof.
  unfold np_sum. induction n as [|n IH]; [reflexivity|]. rewrite seq_S, fold_left_app, IH. reflexivity.
Qed.
Fixpoint product (n : nat) (f : nat -> R) : R :=
  match n with O => 1 | S m => product m f * f m end.
Lemma np_prod_product n f : np_prod n f = product n f.
Proof.
  unfold np_prod. induction n as [|n IH]; [reflexivity|]. rewrite seq_S, fold_left_app, IH. reflexivity.
Qed.
Lemma fold_minus n f : fold_left (fun e j => e - f j) (seq 0 n) 0 = - total n f.
Proof.
  induction n as [|n IH]; [cbn; lra|]. rewrite seq_S, fold_left_app, IH. cbn. lra.
Qed.

Lemma total_ext n f g : (forall i, (i < n)%nat -> f i = g i) -> total n f = total n g.
Proof. induction n as [|n IH]; intros H; [reflexivity|]. cbn. rewrite IH, H by (intros; try apply H; lia). reflexivity. Qed.
Lemma total_0 n f : (forall i, (i < n)%nat -> f i = 0) -> total n f = 0.
Proof. induction n as [|n IH]; intros H; [reflexivity|]. cbn. rewrite IH, H by (intros; try apply H; lia). lra. Qed.
Lemma total_plus n f g : total n (fun i => f i + g i) = total n f + total n g.
Proof. induction n as [|n IH]; cbn; [lra|]. rewrite IH. lra. Qed.
Lemma total_scal n a f : total n (fun i => a * f i) = a * total n f.
Proof. induction n as [|n IH]; cbn; [lra|]. rewrite IH. lra. Qed.
Lemma total_scal_r n a f : total n (fun i => f i * a) = total n f * a.
Proof. induction n as [|n IH]; cbn; [lra|]. rewrite IH. lra. Qed.
Lemma total_opp n f : total n (fun i => - f i) = - total n f.
Proof. induction n as [|n IH]; cbn; [lra|]. rewrite IH. lra. Qed.
Lemma total_minus n f g : total n (fun i => f i - g i) = total n f - total n g.
Proof. induction n as [|n IH]; cbn; [lra|]. rewrite IH. lra. Qed.
Lemma total_swap n m f : total n (fun i => total m (fun j => f i j)) = total m (fun j => total n (fun i => f i j)).
Proof.
  induction n as [|n IH]; cbn; [symmetry; apply total_0; reflexivity|]. rewrite IH, <- total_plus. reflexivity.
Qed.
Lemma total_one n f a : (a < n)%nat -> (forall i, (i < n)%nat -> i <> a -> f i = 0) -> total n f = f a.
Proof.
  induction n as [|n IH]; intros Ha H; [lia|]. cbn. destruct (Nat.eq_dec a n) as [->|Hn].
  - rewrite total_0; [lra|]. intros i Hi. apply H; lia.
  - rewrite IH, (H n) by (intros; try apply H; lia). lra.
Qed.
Lemma total_kronecker n f a : (a < n)%nat -> total n (fun i => f i * kronecker i a) = f a.
Proof.
  intros Ha. rewrite (total_one _ _ a Ha); unfold kronecker.
  - rewrite Nat.eqb_refl. lra.
  - intros i _ Hi. apply Nat.eqb_neq in Hi. rewrite Hi. lra.
Qed.
Lemma total_shift n f : total (S n) f = f 0%nat + total n (fun i => f (S i)).
Proof. induction n as [|n IH]; [cbn; lra|]. change (total (S n) f + f (S n) = f 0%nat + (total n (fun i => f (S i)) + f (S n))). rewrite IH. lra. Qed.
Lemma total_add m n f : total (m + n) f = total m f + total n (fun i => f (m + i)%nat).
Proof. induction n as [|n IH]; [rewrite Nat.add_0_r; cbn; lra|]. rewrite Nat.add_succ_r. cbn. rewrite IH. lra. Qed.

Lemma product_ext n f g : (forall i, (i < n)%nat -> f i = g i) -> product n f = product n g.
Proof. induction n as [|n IH]; intros H; [reflexivity|]. cbn. rewrite IH, H by (intros; try apply H; lia). reflexivity. Qed.
Lemma product_mult n f g : product n (fun i => f i * g i) = product n f * product n g.
Proof. induction n as [|n IH]; cbn; [lra|]. rewrite IH. lra. Qed.
Lemma product_neq_0 n f : (forall i, (i < n)%nat -> f i <> 0) -> product n f <> 0.
Proof.
  induction n as [|n IH]; intros H; cbn; [lra|]. apply Rmult_integral_contrapositive. split; [apply IH; intros; apply H; lia|apply H; lia].
Qed.
Lemma product_0 n f a : (a < n)%nat -> f a = 0 -> product n f = 0.
Proof.
  induction n as [|n IH]; intros Ha H; [lia|]. cbn. destruct (Nat.eq_dec a n) as [->|Hn]; [rewrite H; lra|]. rewrite IH by (lia || assumption). lra.
Qed.
Lemma product_1 n f : (forall i, (i < n)%nat -> f i = 1) -> product n f = 1.
Proof. induction n as [|n IH]; intros H; [reflexivity|]. cbn. rewrite IH, H by (intros; try apply H; lia). lra. Qed.
(** take one factor out *)
Lemma product_out n f a : (a < n)%nat -> product n f = f a * product n (fun i => if Nat.eqb i a then 1 else f i).
Proof.
  induction n as [|n IH]; intros Ha; [lia|]. cbn. destruct (Nat.eq_dec a n) as [->|Hn].
  - rewrite Nat.eqb_refl. rewrite (product_ext n (fun i => if Nat.eqb i n then 1 else f i) f); [lra|].
    intros i Hi. destruct (Nat.eqb_spec i n); [lia|reflexivity].
  - rewrite IH by lia. destruct (Nat.eqb_spec n a); [lia|]. lra.
Qed.
Lemma product_div n f g : (forall i, (i < n)%nat -> g i <> 0) -> product n (fun i => f i / g i) = product n f / product n g.
Proof.
  induction n as [|n IH]; intros H; cbn; [lra|]. rewrite IH by (intros; apply H; lia).
  assert (product n g <> 0) by (apply product_neq_0; intros; apply H; lia). assert (g n <> 0) by (apply H; lia). field. split; assumption.
Qed.

(** * lagrange rows as products *)
Definition lfactor (xs : list R) (i : nat) (x : R) (j : nat) : R :=
  if Nat.eqb i j then 1 else (x - node xs j) / (node xs i - node xs j).
Lemma lfactor_eq xs i x : lfactor xs i x i = 1.
Proof. unfold lfactor. rewrite Nat.eqb_refl. reflexivity. Qed.
Lemma lfactor_neq xs i x j : i <> j -> lfactor xs i x j = (x - node xs j) / (node xs i - node xs j).
Proof. intros H. unfold lfactor. apply Nat.eqb_neq in H. rewrite H. reflexivity. Qed.
Lemma lagrange_product xs i x : lagrange xs i x = product (length xs) (lfactor xs i x).
Proof.
  rewrite <- np_prod_product. unfold lagrange, np_prod. apply fold_left_ext. intros b j _. unfold lfactor.
  destruct (Nat.eqb i j); lra.
Qed.

Lemma increasing_neq xs i j : increasing xs -> (i < length xs)%nat -> (j < length xs)%nat -> i <> j -> node xs i - node xs j <> 0.
Proof.
  intros H Hi Hj Hn. unfold node. destruct (lt_dec i j) as [L|L].
  - specialize (H i j ltac:(lia)). lra.
  - specialize (H j i ltac:(lia)). lra.
Qed.

(** ** the constructor *)
Lemma Rltb_true a b : Rltb a b = true <-> a < b.
Proof. unfold Rltb. destruct (Rlt_dec a b); split; intros; try assumption; try reflexivity; try discriminate; contradiction. Qed.
Lemma Reqb_true a b : Reqb a b = true <-> a = b.
Proof. unfold Reqb. destruct (Req_EM_T a b); split; intros; try assumption; try reflexivity; try discriminate; contradiction. Qed.
Lemma diffs_positive_true xs : diffs_positive xs = true <-> increasing xs.
Proof.
  induction xs as [|a [|b r] IH].
  - split; [intros _ i j H; cbn in H; lia|reflexivity].
  - split; [intros _ i j H; cbn in H; lia|reflexivity].
  - change (diffs_positive (a :: b :: r)) with (Rltb 0 (b - a) && diffs_positive (b :: r))%bool.
    rewrite andb_true_iff, Rltb_true, IH. split.
    + intros [Hab H] i j Hij. destruct i as [|i].
      * destruct j as [|[|j]]; [lia|cbn; lra|]. specialize (H 0%nat (S j) ltac:(cbn in *; lia)). cbn in *. lra.
      * destruct j as [|j]; [lia|]. apply (H i j). cbn in *; lia.
    + intros H. split; [specialize (H 0%nat 1%nat ltac:(cbn; lia)); cbn in H; lra|].
      intros i j Hij. apply (H (S i) (S j)). cbn in *; lia.
Qed.
Lemma fold_Rmax_ge r a x : In x (a :: r) -> x <= fold_left Rmax r a.
Proof.
  revert a x. induction r as [|b r IH]; intros a x H; cbn in *; [destruct H as [->|[]]; lra|].
  destruct H as [->|[->|H]].
  - eapply Rle_trans; [apply (Rmax_l x b)|]. apply IH. left. reflexivity.
  - eapply Rle_trans; [apply (Rmax_r a x)|]. apply IH. left. reflexivity.
  - apply IH. right. assumption.
Qed.
Lemma fold_Rmax_in r a : In (fold_left Rmax r a) (a :: r).
Proof.
  revert a. induction r as [|b r IH]; intros a; [left; reflexivity|]. cbn [fold_left].
  destruct (IH (Rmax a b)) as [E|H]; [|right; right; assumption].
  rewrite <- E. unfold Rmax. destruct (Rle_dec a b); [right; left|left]; reflexivity.
Qed.
Lemma fold_Rmin_le r a x : In x (a :: r) -> fold_left Rmin r a <= x.
Proof.
  revert a x. induction r as [|b r IH]; intros a x H; cbn in *; [destruct H as [->|[]]; lra|].
  destruct H as [->|[->|H]].
  - eapply Rle_trans; [|apply (Rmin_l x b)]. apply IH. left. reflexivity.
  - eapply Rle_trans; [|apply (Rmin_r a x)]. apply IH. left. reflexivity.
  - apply IH. right. assumption.
Qed.
Lemma fold_Rmin_in r a : In (fold_left Rmin r a) (a :: r).
Proof.
  revert a. induction r as [|b r IH]; intros a; [left; reflexivity|]. cbn [fold_left].
  destruct (IH (Rmin a b)) as [E|H]; [|right; right; assumption].
  rewrite <- E. unfold Rmin. destruct (Rle_dec a b); [left|right; left]; reflexivity.
Qed.
Lemma increasing_le xs i j : increasing xs -> (i <= j < length xs)%nat -> nth i xs 0 <= nth j xs 0.
Proof. intros H Hij. destruct (Nat.eq_dec i j) as [->|]; [lra|]. left. apply H. lia. Qed.
Lemma np_max_increasing a r : increasing (a :: r) -> np_max (a :: r) = Some (nth (length r) (a :: r) 0).
Proof.
  intros H. cbn [np_max]. f_equal. apply Rle_antisym.
  - destruct (In_nth _ _ 0 (fold_Rmax_in r a)) as (i & Hi & <-). apply increasing_le; [assumption|cbn in *; lia].
  - apply fold_Rmax_ge. apply nth_In. cbn; lia.
Qed.
Lemma np_min_increasing a r : increasing (a :: r) -> np_min (a :: r) = Some a.
Proof.
  intros H. cbn [np_min]. f_equal. apply Rle_antisym.
  - apply fold_Rmin_le. left. reflexivity.
  - destruct (In_nth _ _ 0 (fold_Rmin_in r a)) as (i & Hi & <-).
    apply (increasing_le (a :: r) 0 i); [assumption|cbn in *; lia].
Qed.
Lemma one_dim_polynomial_spec xs ys :
  one_dim_polynomial xs = Some ys <->
  ys = xs /\ (2 <= length xs)%nat /\ increasing xs /\ nth 0 xs 0 = -1 /\ nth (length xs - 1) xs 0 = 1.
Proof.
  unfold one_dim_polynomial. destruct (diffs_positive xs) eqn:D.
  - apply diffs_positive_true in D. destruct xs as [|a r]; [cbn; split; [discriminate|intros (_ & H & _); cbn in H; lia]|].
    rewrite np_max_increasing, np_min_increasing by assumption.
    replace (length (a :: r) - 1)%nat with (length r) by (cbn; lia). cbn [nth].
    destruct (Reqb _ 1 && Reqb a (-1))%bool eqn:E.
    + apply andb_true_iff in E. rewrite !Reqb_true in E. destruct E as [E1 E2]. split.
      * intros [= <-]. repeat split; try assumption. destruct r; cbn in *; [lra|lia].
      * intros (-> & _). reflexivity.
    + split; [discriminate|]. intros (_ & _ & _ & H1 & H2).
      apply andb_false_iff in E. exfalso.
      destruct E as [E|E]; [rewrite (proj2 (Reqb_true _ _) H2) in E|rewrite (proj2 (Reqb_true _ _) H1) in E]; discriminate.
  - split; [discriminate|]. intros (_ & _ & H & _). apply diffs_positive_true in H. congruence.
Qed.

(** ** Kronecker *)
Lemma lagrange_node xs i k : increasing xs -> (i < length xs)%nat -> (k < length xs)%nat ->
  lagrange xs i (node xs k) = kronecker i k.
Proof.
  intros H Hi Hk. rewrite lagrange_product. unfold kronecker. destruct (Nat.eqb_spec i k) as [->|Hn].
  - apply product_1. intros j Hj. unfold lfactor. destruct (Nat.eqb_spec k j) as [|Hn]; [reflexivity|].
    field. apply increasing_neq; assumption.
  - apply (product_0 _ _ k Hk). unfold lfactor. destruct (Nat.eqb_spec i k); [lia|].
    unfold Rminus. rewrite Rplus_opp_r. unfold Rdiv. apply Rmult_0_l.
Qed.

(** * polynomials *)
Fixpoint padd (c d : list R) : list R :=
  match c, d with
  | [], _ => d
  | _, [] => c
  | a :: c', b :: d' => a + b :: padd c' d'
  end.
Lemma padd_length c d : length (padd c d) = Nat.max (length c) (length d).
Proof. revert d. induction c as [|a c IH]; intros [|b d]; cbn; try reflexivity. rewrite IH. reflexivity. Qed.
Lemma poly_padd c d x : poly (padd c d) x = poly c x + poly d x.
Proof. revert d. induction c as [|a c IH]; intros [|b d]; cbn; try lra. rewrite IH. ring. Qed.
Lemma poly_map a c x : poly (map (Rmult a) c) x = a * poly c x.
Proof. induction c as [|b c IH]; cbn; [lra|]. rewrite IH. ring. Qed.

Lemma ps_mono m n f : (m <= n)%nat -> poly_of_size m f -> poly_of_size n f.
Proof. intros H (c & Hc & E). exists c. split; [lia|assumption]. Qed.
Lemma ps_ext n f g : (forall x, f x = g x) -> poly_of_size n f -> poly_of_size n g.
Proof. intros H (c & Hc & E). exists c. split; [assumption|]. intros x. rewrite <- H. apply E. Qed.
Lemma ps_0 n : poly_of_size n (fun _ => 0).
Proof. exists []. split; [cbn; lia|reflexivity]. Qed.
Lemma ps_const n a : (1 <= n)%nat -> poly_of_size n (fun _ => a).
Proof. intros H. exists [a]. split; [assumption|]. intros x. cbn. ring. Qed.
Lemma ps_plus n f g : poly_of_size n f -> poly_of_size n g -> poly_of_size n (fun x => f x + g x).
Proof.
  intros (c & Hc & E) (d & Hd & F). exists (padd c d). rewrite padd_length. split; [lia|]. intros x. rewrite poly_padd, E, F. reflexivity.
Qed.
Lemma ps_scal n a f : poly_of_size n f -> poly_of_size n (fun x => a * f x).
Proof. intros (c & Hc & E). exists (map (Rmult a) c). rewrite map_length. split; [assumption|]. intros x. rewrite poly_map, E. reflexivity. Qed.
Lemma ps_scal_r n a f : poly_of_size n f -> poly_of_size n (fun x => f x * a).
Proof. intros H. eapply ps_ext; [|apply (ps_scal n a f H)]. intros x. cbn. ring. Qed.
Lemma ps_minus n f g : poly_of_size n f -> poly_of_size n g -> poly_of_size n (fun x => f x - g x).
Proof. intros Hf Hg. eapply ps_ext; [|apply (ps_plus _ _ _ Hf (ps_scal _ (-1) _ Hg))]. intros x. cbn. ring. Qed.
Lemma ps_linear n f a b : poly_of_size n f -> poly_of_size (S n) (fun x => f x * ((x - a) / b)).
Proof.
  intros (c & Hc & E). exists (padd (map (Rmult (- a / b)) c) (0 :: map (Rmult (/ b)) c)).
  rewrite padd_length. cbn. rewrite !map_length. split; [lia|].
  intros x. rewrite poly_padd. cbn. rewrite !poly_map, E. unfold Rdiv. ring.
Qed.
Lemma ps_total n m f : (forall i, (i < m)%nat -> poly_of_size n (f i)) -> poly_of_size n (fun x => total m (fun i => f i x)).
Proof.
  induction m as [|m IH]; intros H; cbn; [apply ps_0|]. apply ps_plus; [apply IH; intros; apply H; lia|apply H; lia].
Qed.

(** a polynomial with as many zeros as coefficients is zero *)
Fixpoint quotient (c : list R) (r : R) : list R :=
  match c with [] => [] | a :: c' => poly (a :: c') r :: quotient c' r end.
Lemma quotient_length c r : length (quotient c r) = length c.
Proof. induction c as [|a c IH]; cbn; [reflexivity|]. rewrite IH. reflexivity. Qed.
Lemma quotient_spec a c r x : poly (a :: c) x = poly (a :: c) r + (x - r) * poly (quotient c r) x.
Proof.
  revert a. induction c as [|b c IH]; intros a; [cbn; ring|].
  change (poly (a :: b :: c) x) with (a + x * poly (b :: c) x). rewrite (IH b).
  change (poly (a :: b :: c) r) with (a + r * poly (b :: c) r).
  change (poly (quotient (b :: c) r) x) with (poly (b :: c) r + x * poly (quotient c r) x). ring.
Qed.
Lemma poly_roots n xs : increasing xs -> (n <= length xs)%nat -> forall c, (length c <= n)%nat ->
  (forall k, (k < n)%nat -> poly c (node xs k) = 0) -> forall x, poly c x = 0.
Proof.
  intros Hinc. induction n as [|n IH]; intros Hn c Hc H x.
  - destruct c; [reflexivity|cbn in Hc; lia].
  - destruct c as [|a c]; [reflexivity|]. cbn in Hc. rewrite (quotient_spec a c (node xs n)), (H n) by lia.
    rewrite (IH ltac:(lia) (quotient c (node xs n))); [ring|rewrite quotient_length; lia|].
    intros k Hk. assert (E := H k ltac:(lia)). rewrite (quotient_spec a c (node xs n)), (H n), Rplus_0_l in E by lia.
    apply Rmult_integral in E. destruct E as [E|E]; [|assumption].
    exfalso. revert E. apply increasing_neq; (assumption || lia).
Qed.
Lemma ps_zero xs f : increasing xs -> poly_of_size (length xs) f -> (forall k, (k < length xs)%nat -> f (node xs k) = 0) -> forall x, f x = 0.
Proof.
  intros H (c & Hc & E) Hz x. rewrite E. apply (poly_roots (length xs) xs H (le_n _) c Hc). intros k Hk. rewrite <- E. apply Hz, Hk.
Qed.
Lemma ps_equal xs f g : increasing xs -> poly_of_size (length xs) f -> poly_of_size (length xs) g ->
  (forall k, (k < length xs)%nat -> f (node xs k) = g (node xs k)) -> forall x, f x = g x.
Proof.
  intros H Hf Hg E x. apply Rminus_diag_uniq. apply (ps_zero xs (fun x => f x - g x) H); [apply ps_minus; assumption|].
  intros k Hk. rewrite E by assumption. lra.
Qed.

(** the factors other than j give a polynomial with at most one coefficient less *)
Lemma ps_product_some xs i m : poly_of_size (S m - (if lt_dec i m then 1 else 0)) (fun x => product m (lfactor xs i x)).
Proof.
  induction m as [|m IH]; [cbn; apply ps_const; lia|]. cbn [product].
  destruct (Nat.eq_dec i m) as [->|Hn].
  - apply (ps_ext _ (fun x => product m (lfactor xs m x))); [intros x; rewrite lfactor_eq, Rmult_1_r; reflexivity|].
    eapply ps_mono; [|apply IH]. destruct (lt_dec m m), (lt_dec m (S m)); lia.
  - apply (ps_ext _ (fun x => product m (lfactor xs i x) * ((x - node xs m) / (node xs i - node xs m)))); [intros x; rewrite (lfactor_neq xs i x m Hn); reflexivity|].
    eapply ps_mono; [|apply ps_linear; apply IH]. destruct (lt_dec i m), (lt_dec i (S m)); lia.
Qed.
Lemma ps_lagrange xs i : (i < length xs)%nat -> poly_of_size (length xs) (lagrange xs i).
Proof.
  intros Hi. eapply ps_ext; [intros x; symmetry; apply lagrange_product|]. eapply ps_mono; [|apply ps_product_some].
  destruct (lt_dec i (length xs)); lia.
Qed.

(** ** interpolation *)
Lemma interpolate xs f : increasing xs -> poly_of_size (length xs) f ->
  forall x, combine_basis (length xs) (lagrange xs) (fun j => f (node xs j)) x = f x.
Proof.
  intros H Hf. apply (ps_equal xs _ _ H); [|assumption|].
  - unfold combine_basis. apply ps_total. intros i Hi. apply ps_scal, ps_lagrange, Hi.
  - intros k Hk. unfold combine_basis. rewrite <- (total_kronecker (length xs) (fun j => f (node xs j)) k Hk).
    apply total_ext. intros i Hi. rewrite lagrange_node by assumption. reflexivity.
Qed.
Lemma partition_of_unity_lemma xs : increasing xs -> (1 <= length xs)%nat -> forall x, total (length xs) (fun j => lagrange xs j x) = 1.
Proof.
  intros H Hl x. rewrite <- (interpolate xs (fun _ => 1) H (ps_const _ _ Hl) x). unfold combine_basis.
  apply total_ext. intros. lra.
Qed.
Lemma nodal_values xs c : increasing xs -> forall k, (k < length xs)%nat -> combine_basis (length xs) (lagrange xs) c (node xs k) = c k.
Proof.
  intros H k Hk. unfold combine_basis. rewrite <- (total_kronecker (length xs) c k Hk). apply total_ext.
  intros i Hi. rewrite lagrange_node by assumption. reflexivity.
Qed.
Lemma nodal_unique xs c d : increasing xs ->
  (forall x, combine_basis (length xs) (lagrange xs) c x = combine_basis (length xs) (lagrange xs) d x) ->
  forall k, (k < length xs)%nat -> c k = d k.
Proof. intros H E k Hk. rewrite <- (nodal_values xs c H k Hk), E. apply nodal_values; assumption. Qed.
