(** Proofs about the arrays of terms with three forms: values, symmetries, derivatives. *)
From Coq Require Import List Arith Bool Reals Lia Lra.
From Verif Require Import NlModel NlSpec NlSums TermModel TermSpec.
Import ListNotations.
Local Open Scope R_scope.

(** the form of an einsum is the sum over the nodes of the product of the fields *)
Definition val (n : nat) (r : rmat) (c : nat -> R) (l : nat) : R := rsum n (fun i => r l i * c i).
Definition sum3 (na nb nc : nat) (f : nat -> nat -> nat -> R) (a b c : nat -> R) : R :=
  rsum na (fun i => a i * rsum nb (fun j => b j * rsum nc (fun k => c k * f i j k))).
Lemma form3_sum3 na nb nc f a b c : form3 (to_nd [na; nb; nc] f) a b c = sum3 na nb nc f a b c.
Proof. reflexivity. Qed.
Lemma sum3_plus na nb nc f g a b c : sum3 na nb nc (plus3 f g) a b c = sum3 na nb nc f a b c + sum3 na nb nc g a b c.
Proof.
  unfold sum3, plus3. rewrite <- rsum_add. apply rsum_ext; intros i _. rewrite <- Rmult_plus_distr_l. f_equal.
  rewrite <- rsum_add. apply rsum_ext; intros j _. rewrite <- Rmult_plus_distr_l. f_equal.
  rewrite <- rsum_add. apply rsum_ext; intros k _. ring.
Qed.
Lemma sum3_neg na nb nc f a b c : sum3 na nb nc (neg3 f) a b c = - sum3 na nb nc f a b c.
Proof.
  unfold sum3, neg3. rewrite <- rsum_opp. apply rsum_ext; intros i _. rewrite Ropp_mult_distr_r. f_equal.
  rewrite <- rsum_opp. apply rsum_ext; intros j _. rewrite Ropp_mult_distr_r. f_equal.
  rewrite <- rsum_opp. apply rsum_ext; intros k _. ring.
Qed.
Lemma sum3_minus na nb nc f g a b c : sum3 na nb nc (minus3 f g) a b c = sum3 na nb nc f a b c - sum3 na nb nc g a b c.
Proof.
  unfold Rminus. rewrite <- sum3_neg, <- sum3_plus. reflexivity.
Qed.
Lemma sum3_einsum na nb nc nq x y z w a b c :
  sum3 na nb nc (einsum4 nq x y z w) a b c = rsum nq (fun l => w l * (val na x a l * val nb y b l * val nc z c l)).
Proof.
  unfold sum3, einsum4, val.
  transitivity (rsum na (fun i => rsum nq (fun l => a i * x l i * (rsum nb (fun j => y l j * b j) * rsum nc (fun k => z l k * c k) * w l)))).
  { apply rsum_ext; intros i _. rewrite <- rsum_mul.
    transitivity (rsum nb (fun j => rsum nq (fun l => a i * x l i * (y l j * b j) * (rsum nc (fun k => z l k * c k) * w l)))).
    { apply rsum_ext; intros j _. rewrite <- rsum_mul.
      transitivity (rsum nc (fun k => rsum nq (fun l => a i * x l i * (y l j * b j) * (z l k * c k) * w l))).
      { rewrite <- rsum_mul. apply rsum_ext; intros k _. rewrite <- !rsum_mul. apply rsum_ext; intros l _. ring. }
      rewrite rsum_swap. apply rsum_ext; intros l _.
      rewrite rsum_mul_r. rewrite rsum_mul. ring. }
    rewrite rsum_swap. apply rsum_ext; intros l _. rewrite rsum_mul_r, rsum_mul. ring. }
  rewrite rsum_swap. apply rsum_ext; intros l _. rewrite rsum_mul_r.
  rewrite (rsum_ext na (fun i => a i * x l i) (fun i => x l i * a i)) by (intros; ring). ring.
Qed.

Lemma val_matmul n nd r E c l : val n (matmul nd r E) c l = rsum nd (fun m => r l m * rsum n (fun k => E m k * c k)).
Proof.
  unfold val, matmul.
  transitivity (rsum n (fun i => rsum nd (fun m => r l m * (E m i * c i)))).
  { apply rsum_ext; intros i _. rewrite <- rsum_mul_r. apply rsum_ext; intros m _. ring. }
  rewrite rsum_swap. apply rsum_ext; intros m _. rewrite rsum_mul. reflexivity.
Qed.
Lemma values_comps d f c l : values d f c l = map (fun r => val (ndof f) r c l) (comps d f).
Proof.
  destruct d; unfold values, comps, field; [|reflexivity].
  rewrite map_map. apply map_ext. intros r. rewrite val_matmul. reflexivity.
Qed.
Lemma comps_length d f : length (comps d f) = ncomp d f.
Proof. destruct d; unfold comps, ncomp; [apply map_length|reflexivity]. Qed.

Theorem data_is_term o m nq qw e T a b c : element_data o m nq qw e = Some T ->
  shape T = [ndof (eA e); ndof (eB e); ndof (eC e)] /\ form3 T a b c = term o nq qw e a b c.
Proof.
  unfold element_data, term. intros H.
  set (w := fun l => qw l * detJ e l) in *.
  destruct ((if is_cross o then cross_data else dot_data) m nq w (comps false (eA e)) (comps (d_of_B o) (eB e)) (comps (d_of_C o) (eC e)))
    as [f|] eqn:E; [|discriminate H].
  cbn [option_map] in H. injection H as <-. split; [reflexivity|]. rewrite form3_sum3.
  transitivity (rsum nq (fun l => w l * integrand o (values false (eA e) a l) (values (d_of_B o) (eB e) b l) (values (d_of_C o) (eC e) c l)));
    [|reflexivity].
  rewrite (rsum_ext nq _ (fun l => w l * integrand o (map (fun r => val (ndof (eA e)) r a l) (comps false (eA e)))
    (map (fun r => val (ndof (eB e)) r b l) (comps (d_of_B o) (eB e))) (map (fun r => val (ndof (eC e)) r c l) (comps (d_of_C o) (eC e)))))
    by (intros l _; rewrite !values_comps; reflexivity).
  unfold integrand.
  revert E. generalize (comps false (eA e)) (comps (d_of_B o) (eB e)) (comps (d_of_C o) (eC e)). intros rA rB rC.
  destruct (is_cross o); intros E.
  - destruct m as [|[|[|[|m]]]]; try discriminate E;
      destruct rA as [|r1 [|r2 [|r3 [|r4 rA]]]]; try discriminate E;
      destruct rB as [|s1 [|s2 [|s3 [|s4 rB]]]]; try discriminate E;
      destruct rC as [|t1 [|t2 [|t3 [|t4 rC]]]]; try discriminate E; cbn [cross_data] in E; injection E as <-.
    + rewrite sum3_plus, sum3_neg, !sum3_einsum, <- rsum_opp, <- rsum_add. apply rsum_ext; intros l _. cbn. ring.
    + rewrite sum3_minus, !sum3_einsum. unfold Rminus. rewrite <- rsum_opp, <- rsum_add. apply rsum_ext; intros l _. cbn. ring.
    + rewrite !sum3_plus, !sum3_minus, !sum3_einsum. unfold Rminus. rewrite <- !rsum_opp, <- !rsum_add.
      apply rsum_ext; intros l _. cbn. ring.
  - destruct m as [|[|[|m]]]; try discriminate E;
      destruct rA as [|r1 [|r2 rA]]; try discriminate E;
      destruct rB as [|s1 [|s2 [|s3 rB]]]; try discriminate E;
      destruct rC as [|t1 [|t2 [|t3 rC]]]; try discriminate E; cbn [dot_data] in E; injection E as <-.
    + rewrite !sum3_einsum. apply rsum_ext; intros l _. cbn. ring.
    + rewrite sum3_plus, !sum3_einsum, <- rsum_add. apply rsum_ext; intros l _. cbn. ring.
Qed.

Theorem data_defined o m nq qw e : (exists T, element_data o m nq qw e = Some T) <-> supported o m (arity o e).
Proof.
  unfold element_data, supported, arity. rewrite <- !comps_length.
  generalize (comps false (eA e)) (comps (d_of_B o) (eB e)) (comps (d_of_C o) (eC e)). intros rA rB rC.
  destruct (is_cross o).
  - split.
    + intros (T & H).
      destruct m as [|[|[|[|m]]]]; try discriminate H;
      destruct rA as [|r1 [|r2 [|r3 [|r4 rA]]]]; try discriminate H;
      destruct rB as [|s1 [|s2 [|s3 [|s4 rB]]]]; try discriminate H;
      destruct rC as [|t1 [|t2 [|t3 [|t4 rC]]]]; try discriminate H; cbn; auto.
    + intros [(-> & [H|H])|(-> & H)];
      destruct rA as [|r1 [|r2 [|r3 [|r4 rA]]]]; try discriminate H;
      destruct rB as [|s1 [|s2 [|s3 [|s4 rB]]]]; try discriminate H;
      destruct rC as [|t1 [|t2 [|t3 [|t4 rC]]]]; try discriminate H; cbn; eexists; reflexivity.
  - split.
    + intros (T & H).
      destruct m as [|[|[|m]]]; try discriminate H;
      destruct rA as [|r1 [|r2 rA]]; try discriminate H;
      destruct rB as [|s1 [|s2 [|s3 rB]]]; try discriminate H;
      destruct rC as [|t1 [|t2 [|t3 rC]]]; try discriminate H; cbn; auto.
    + intros (-> & [H|H]);
      destruct rA as [|r1 [|r2 rA]]; try discriminate H;
      destruct rB as [|s1 [|s2 [|s3 rB]]]; try discriminate H;
      destruct rC as [|t1 [|t2 [|t3 rC]]]; try discriminate H; cbn; eexists; reflexivity.
Qed.

(** an array is determined by its form *)
Lemma form3_entry sh T na nb nc i j k : sh = [na; nb; nc] -> (i < na)%nat -> (j < nb)%nat -> (k < nc)%nat ->
  mform sh T [delta i; delta j; delta k] = T [i; j; k].
Proof.
  intros -> Hi Hj Hk. cbn [mform].
  rewrite (rsum_delta na (fun i0 => rsum nb (fun i1 => delta j i1 * rsum nc (fun i2 => delta k i2 * T [i0; i1; i2]))) i Hi).
  rewrite (rsum_delta nb (fun i1 => rsum nc (fun i2 => delta k i2 * T [i; i1; i2])) j Hj).
  rewrite (rsum_delta nc (fun i2 => T [i; j; i2]) k Hk). reflexivity.
Qed.

(** ** cross products *)

Lemma dot3_cross_swap A B C : dot3 (cross3 A B) C = - dot3 (cross3 A C) B.
Proof. destruct A as [[a1 a2] a3], B as [[b1 b2] b3], C as [[c1 c2] c3]. cbn. ring. Qed.
Lemma dot3_cross_anti A B C : dot3 (cross3 A B) C = - dot3 (cross3 B A) C.
Proof. destruct A as [[a1 a2] a3], B as [[b1 b2] b3], C as [[c1 c2] c3]. cbn. ring. Qed.
Lemma dot3_cross_cycle A B C : dot3 (cross3 A B) C = dot3 (cross3 B C) A.
Proof. destruct A as [[a1 a2] a3], B as [[b1 b2] b3], C as [[c1 c2] c3]. cbn. ring. Qed.

Lemma same_values d f g c l : same_space f g -> d = false -> values d f c l = values d g c l.
Proof. intros (H1 & H2) ->. unfold values. rewrite H1, H2. reflexivity. Qed.

Theorem skew_in_BC o nq qw e a b c : cross_undiff o -> same_space (eB e) (eC e) ->
  term o nq qw e a b c = - term o nq qw e a c b.
Proof.
  intros Ho H. unfold term. rewrite <- rsum_opp. apply rsum_ext. intros l _.
  assert (D : d_of_B o = false /\ d_of_C o = false /\ is_cross o = true) by (destruct Ho as [->| ->]; auto). destruct D as (-> & -> & D).
  unfold integrand. rewrite D.
  rewrite !(same_values false (eB e) (eC e) _ _ H eq_refl).
  rewrite dot3_cross_swap. ring.
Qed.
Theorem energy_is_kept o nq qw e a b : cross_undiff o -> same_space (eB e) (eC e) -> term o nq qw e a b b = 0.
Proof. intros Ho H. pose proof (skew_in_BC o nq qw e a b b Ho H). lra. Qed.
Theorem skew_in_AB o nq qw e a b c : is_cross o = true -> same_space (eA e) (eB e) ->
  term o nq qw e a b c = - term o nq qw e b a c.
Proof.
  intros Ho H. unfold term. rewrite <- rsum_opp. apply rsum_ext. intros l _.
  assert (D : d_of_B o = false) by (destruct o; auto; discriminate Ho). rewrite D.
  unfold integrand. rewrite Ho.
  rewrite !(same_values false (eA e) (eB e) _ _ H eq_refl).
  rewrite dot3_cross_anti. ring.
Qed.
Theorem field_with_itself o nq qw e a c : is_cross o = true -> same_space (eA e) (eB e) -> term o nq qw e a a c = 0.
Proof. intros Ho H. pose proof (skew_in_AB o nq qw e a a c Ho H). lra. Qed.
Theorem orthogonal_to_A o nq qw e a b : cross_undiff o -> same_space (eA e) (eC e) -> term o nq qw e a b a = 0.
Proof.
  intros Ho H.
  assert (D : d_of_B o = false /\ d_of_C o = false /\ is_cross o = true) by (destruct Ho as [->| ->]; auto). destruct D as (Db & Dc & D).
  unfold term. apply rsum_zero. intros l _. rewrite Db, Dc. unfold integrand. rewrite D.
  rewrite (same_values false (eA e) (eC e) _ _ H eq_refl).
  destruct (in_space (values false (eC e) a l)) as [[a1 a2] a3], (in_space (values false (eB e) b l)) as [[b1 b2] b3].
  cbn. ring.
Qed.
Theorem cyclic o nq qw e a b c : cross_undiff o ->
  term o nq qw e a b c = term o nq qw (with_ABC e (eB e) (eC e) (eA e)) b c a.
Proof.
  intros Ho.
  assert (D : d_of_B o = false /\ d_of_C o = false /\ is_cross o = true) by (destruct Ho as [->| ->]; auto). destruct D as (Db & Dc & D).
  unfold term. cbn. rewrite Db, Dc. unfold integrand. rewrite D. apply rsum_ext. intros l _. rewrite dot3_cross_cycle. reflexivity.
Qed.

(** ** products *)

Lemma dot_comm u : forall v, dot u v = dot v u.
Proof. induction u as [|x u IH]; destruct v; cbn; auto. rewrite IH. ring. Qed.
Lemma dot_self u : 0 <= dot u u.
Proof. induction u as [|x u IH]; cbn; [lra|]. pose proof (Rle_0_sqr x). unfold Rsqr in H. lra. Qed.
Lemma rsum_nonneg n f : (forall i, (i < n)%nat -> 0 <= f i) -> 0 <= rsum n f.
Proof. induction n as [|n IH]; cbn; intros H; [lra|]. apply Rplus_le_le_0_compat; [apply IH; auto|apply H; auto]. Qed.

Theorem symmetric_in_BC o nq qw e a b c :
  o = T_ABC /\ same_space (eB e) (eC e) \/ o = AdB_dC /\ same_d_space (eB e) (eC e) ->
  term o nq qw e a b c = term o nq qw e a c b.
Proof.
  intros [(-> & H)|(-> & H)]; unfold term; apply rsum_ext; intros l _; cbn [integrand is_cross d_of_B d_of_C];
    destruct (values false (eA e) a l) as [|w [|]]; auto; unfold integrand; cbn; f_equal; f_equal.
  - rewrite dot_comm. unfold field. destruct H as (-> & ->). reflexivity.
  - rewrite dot_comm. unfold field, d_cochain. destruct H as (-> & -> & -> & ->). reflexivity.
Qed.
Theorem nonnegative o nq qw e a b :
  o = T_ABC /\ same_space (eB e) (eC e) \/ o = AdB_dC /\ same_d_space (eB e) (eC e) ->
  (forall l, (l < nq)%nat -> 0 <= qw l * detJ e l) ->
  (forall l x, (l < nq)%nat -> In x (values false (eA e) a l) -> 0 <= x) ->
  0 <= term o nq qw e a b b.
Proof.
  intros H Hw Ha. unfold term. apply rsum_nonneg. intros l Hl. apply Rmult_le_pos; [apply Hw; exact Hl|].
  assert (E : values (d_of_B o) (eB e) b l = values (d_of_C o) (eC e) b l).
  { destruct H as [(-> & H)|(-> & H)]; cbn; unfold field, d_cochain.
    - destruct H as (-> & ->). reflexivity.
    - destruct H as (-> & -> & -> & ->). reflexivity. }
  rewrite E. assert (D : is_cross o = false) by (destruct H as [(-> & _)|(-> & _)]; reflexivity).
  unfold integrand. rewrite D. specialize (Ha l). destruct (values false (eA e) a l) as [|w [|]]; try lra.
  apply Rmult_le_pos; [apply Ha; cbn; auto|apply dot_self].
Qed.

(** ** exterior derivatives *)

Theorem d_of_C_is_form o o' nq qw e a b c n E r :
  (o, o') = (AxB_dC, AxB_C) \/ (o, o') = (AB_dC, T_ABC) \/ (o, o') = (AdB_dC, AdB_C) ->
  term o nq qw e a b c = term o' nq qw (with_C e (d_form (eC e) n E r)) a b (d_cochain (eC e) c).
Proof. intros [H|[H|H]]; injection H as -> ->; reflexivity. Qed.
Theorem d_of_B_is_form o o' nq qw e a b c n E r :
  (o, o') = (AdB_C, T_ABC) \/ (o, o') = (AdB_dC, AB_dC) ->
  term o nq qw e a b c = term o' nq qw (with_ABC e (eA e) (d_form (eB e) n E r) (eC e)) a (d_cochain (eB e) b) c.
Proof. intros [H|H]; injection H as -> ->; reflexivity. Qed.

(** ** logarithms *)
Theorem log_vector_is_term nq qw dJ fA fB ca cb RA RB v : rms fA = [RA] -> rms fB = [RB] -> log_vector nq qw dJ fA fB ca = Some v ->
  rsum (ndof fB) (fun k => v k * cb k)
  = rsum nq (fun l => qw l * dJ l * (ln (nth 0 (values false fA ca l) 0) * nth 0 (values false fB cb l) 0)).
Proof.
  intros HA HB H. unfold log_vector in H. rewrite HA, HB in H. injection H as <-.
  unfold values, field. rewrite HA, HB. cbn [map nth].
  transitivity (rsum (ndof fB) (fun k => rsum nq (fun q => qw q * dJ q * ln (matvec (ndof fA) RA ca q) * (RB q k * cb k)))).
  { apply rsum_ext; intros k _. rewrite <- rsum_mul_r. apply rsum_ext; intros q _. ring. }
  rewrite rsum_swap. apply rsum_ext; intros q _. rewrite rsum_mul. unfold matvec. ring.
Qed.
