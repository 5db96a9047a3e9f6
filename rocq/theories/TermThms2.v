(** Proofs about the arrays of terms with three forms: matrices, quadrature, caches. *)
From Coq Require Import List Arith Bool Reals Lia Lra.
From Verif Require Import NlModel NlSpec NlSums NlThms3 TermModel TermSpec TermThms.
Import ListNotations.
Local Open Scope R_scope.

(** ** matrices with A given *)

Theorem matrix_is_term o m nq qw e T fa fb fc dim (c : nat -> list R) :
  element_data o m nq qw e = Some T -> NoDup [fa; fb; fc] ->
  map dim [fa; fb; fc] = [ndof (eA e); ndof (eB e); ndof (eC e)] -> length (c fa) = dim fa -> length (c fb) = dim fb -> length (c fc) = dim fc ->
  exists M, two_dim [fa; fb; fc] fc fb T c = Some (fc, fb, M) /\ rows M = ndof (eC e) /\ cols M = ndof (eB e) /\
    forall k j, (k < ndof (eC e))%nat -> (j < ndof (eB e))%nat ->
      ent M k j = term o nq qw e (fun i => nth i (c fa) 0) (delta j) (delta k).
Proof.
  intros HT Hnd Hdim Ha Hb Hc.
  destruct (data_is_term o m nq qw e T (delta 0) (delta 0) (delta 0) HT) as (Hsh & _).
  assert (N : fa <> fb /\ fa <> fc /\ fb <> fc).
  { inversion Hnd as [|? ? N1 N2]; subst. inversion N2 as [|? ? N3 _]; subst. cbn in N1, N3. repeat split; intros E; apply N1 || apply N3; auto. }
  destruct N as (N1 & N2 & N3).
  destruct (matrix_value fa fb fc T dim c) with (rf := fc) (kf := fb) as (M & HM & Hr & Hk & Hv).
  - rewrite Hsh, Hdim. reflexivity.
  - intros f [<-|[<-|[<-|[]]]]; assumption.
  - rewrite count_3, Nat.eqb_refl. rewrite (proj2 (Nat.eqb_neq _ _) N2), (proj2 (Nat.eqb_neq _ _) N3). reflexivity.
  - rewrite count_3, Nat.eqb_refl. rewrite (proj2 (Nat.eqb_neq _ _) N1), (proj2 (Nat.eqb_neq fc fb)) by congruence. reflexivity.
  - congruence.
  - cbn in Hdim. injection Hdim as D1 D2 D3.
    exists M. split; [exact HM|]. split; [congruence|]. split; [congruence|].
    intros k j Hk' Hj. rewrite Hv by congruence. cbn [map].
    rewrite (proj2 (Nat.eqb_neq fa fc) N2), (proj2 (Nat.eqb_neq fa fb) N1), (proj2 (Nat.eqb_neq fb fc) N3), !Nat.eqb_refl.
    apply (data_is_term o m nq qw e T). exact HT.
Qed.
Theorem matrix_is_skew o m nq qw e T fa fb fc dim (c : nat -> list R) :
  element_data o m nq qw e = Some T -> NoDup [fa; fb; fc] -> cross_undiff o -> same_space (eB e) (eC e) ->
  map dim [fa; fb; fc] = [ndof (eA e); ndof (eB e); ndof (eC e)] -> length (c fa) = dim fa -> length (c fb) = dim fb -> length (c fc) = dim fc ->
  exists M, two_dim [fa; fb; fc] fc fb T c = Some (fc, fb, M) /\ rows M = ndof (eB e) /\ cols M = ndof (eB e) /\
    (forall k j, (k < ndof (eB e))%nat -> (j < ndof (eB e))%nat -> ent M k j = - ent M j k) /\
    (forall u, rsum (ndof (eB e)) (fun k => u k * rsum (ndof (eB e)) (fun j => ent M k j * u j)) = 0).
Proof.
  intros HT Hnd Ho Hs Hdim Ha Hb Hc.
  destruct (matrix_is_term o m nq qw e T fa fb fc dim c HT Hnd Hdim Ha Hb Hc) as (M & HM & Hr & Hk & Hv).
  destruct Hs as (Hn & Hrm). rewrite <- Hn in *.
  assert (S : forall k j, (k < ndof (eB e))%nat -> (j < ndof (eB e))%nat -> ent M k j = - ent M j k).
  { intros k j Hk' Hj. rewrite !Hv by assumption. apply skew_in_BC; [exact Ho|split; assumption]. }
  exists M. split; [exact HM|]. split; [exact Hr|]. split; [exact Hk|]. split; [exact S|].
  intros u. set (n := ndof (eB e)) in *.
  set (s := rsum n (fun k => u k * rsum n (fun j => ent M k j * u j))).
  assert (E : s = - s).
  { unfold s at 1.
    transitivity (rsum n (fun k => rsum n (fun j => - (u j * (ent M j k * u k))))).
    { apply rsum_ext; intros k Hk'. rewrite <- rsum_mul. apply rsum_ext; intros j Hj. rewrite (S k j Hk' Hj). ring. }
    rewrite rsum_swap. unfold s. rewrite <- rsum_opp. apply rsum_ext; intros j Hj.
    rewrite rsum_opp. f_equal. rewrite rsum_mul. reflexivity. }
  lra.
Qed.

(** ** quadrature *)

Fixpoint eadd (a b : list nat) : list nat := match a, b with x :: a, y :: b => (x + y)%nat :: eadd a b | _, _ => [] end.
Lemma mono_add x : forall a b, length a = length x -> length b = length x -> mono x a * mono x b = mono x (eadd a b).
Proof.
  induction x as [|t x IH]; intros [|j a] [|k b] Ha Hb; cbn in *; try discriminate; try lra.
  rewrite <- (IH a b) by lia. rewrite pow_add. ring.
Qed.
Lemma eadd_length a : forall b, length a = length b -> length (eadd a b) = length a.
Proof. induction a as [|x a IH]; intros [|y b] H; cbn in *; try discriminate; auto. Qed.
Lemma eadd_le a : forall b p q, (forall j, In j a -> (j <= p)%nat) -> (forall j, In j b -> (j <= q)%nat) ->
  forall j, In j (eadd a b) -> (j <= p + q)%nat.
Proof.
  induction a as [|x a IH]; intros [|y b] p q Ha Hb j; cbn; try contradiction. intros [<-|H].
  - pose proof (Ha x (or_introl eq_refl)). pose proof (Hb y (or_introl eq_refl)). lia.
  - apply (IH b p q); auto; intros; [apply Ha|apply Hb]; cbn; auto.
Qed.

Lemma rsum_lsum {T} n (l : list T) (f : nat -> T -> R) : rsum n (fun i => lsum l (f i)) = lsum l (fun t => rsum n (fun i => f i t)).
Proof. rewrite lsum_rsum. reflexivity. Qed.

(** the sum over the nodes of a product of three polynomials is a combination of moments *)
Lemma triple_moments m rl a b c : (forall l, length (X rl l) = m) ->
  (forall t, In t a -> length (snd t) = m) -> (forall t, In t b -> length (snd t) = m) -> (forall t, In t c -> length (snd t) = m) ->
  rsum (nodes rl) (fun l => weight rl l * (peval a (X rl l) * peval b (X rl l) * peval c (X rl l)))
  = lsum a (fun t => lsum b (fun u => lsum c (fun v => fst t * fst u * fst v * moment rl (eadd (eadd (snd t) (snd u)) (snd v))))).
Proof.
  intros HX Ha Hb Hc. unfold peval, moment.
  transitivity (rsum (nodes rl) (fun l => lsum a (fun t => lsum b (fun u => lsum c (fun v =>
    fst t * fst u * fst v * (weight rl l * mono (X rl l) (eadd (eadd (snd t) (snd u)) (snd v)))))))).
  { apply rsum_ext. intros l _.
    transitivity (lsum a (fun t => fst t * mono (X rl l) (snd t) *
      (weight rl l * (lsum b (fun u => fst u * mono (X rl l) (snd u)) * lsum c (fun v => fst v * mono (X rl l) (snd v)))))).
    { rewrite (lsum_mul_r a). ring. }
    apply lsum_ext. intros t Ht.
    transitivity (lsum b (fun u => fst u * mono (X rl l) (snd u) * (fst t * mono (X rl l) (snd t) * weight rl l * lsum c (fun v => fst v * mono (X rl l) (snd v))))).
    { rewrite (lsum_mul_r b). ring. }
    apply lsum_ext. intros u Hu.
    rewrite <- Rmult_assoc, <- lsum_mul. apply lsum_ext. intros v Hv.
    rewrite <- !mono_add.
    + ring.
    + rewrite HX; auto.
    + rewrite HX; auto.
    + rewrite eadd_length; rewrite HX || rewrite (Ha t Ht); [auto|symmetry; auto].
    + rewrite HX; auto. }
  rewrite rsum_lsum. apply lsum_ext. intros t _. rewrite rsum_lsum. apply lsum_ext. intros u _.
  rewrite rsum_lsum. apply lsum_ext. intros v _. rewrite <- rsum_mul. reflexivity.
Qed.
Lemma triple_agree m ka kb kc k r s a b c : (ka + kb + kc <= k)%nat -> agree m k r s ->
  degree_le m ka a -> degree_le m kb b -> degree_le m kc c ->
  rsum (nodes r) (fun l => weight r l * (peval a (X r l) * peval b (X r l) * peval c (X r l)))
  = rsum (nodes s) (fun l => weight s l * (peval a (X s l) * peval b (X s l) * peval c (X s l))).
Proof.
  intros Hk (Hr & Hs & Hm) Ha Hb Hc.
  rewrite (triple_moments m r), (triple_moments m s); try assumption;
    try (intros t Ht; solve [apply Ha; exact Ht|apply Hb; exact Ht|apply Hc; exact Ht]).
  apply lsum_ext; intros t Ht. apply lsum_ext; intros u Hu. apply lsum_ext; intros v Hv. f_equal.
  destruct (Ha t Ht) as (La & Da), (Hb u Hu) as (Lb & Db), (Hc v Hv) as (Lc & Dc).
  apply Hm.
  - rewrite !eadd_length; try rewrite eadd_length; congruence.
  - intros j Hj. assert (j <= ka + kb + kc)%nat; [|lia]. revert j Hj.
    apply eadd_le; [apply eadd_le; assumption|exact Dc].
Qed.

Lemma deg_bound o a b c q ka kb kc : quad_degree o a b c = Some q ->
  deg_num o a = Some ka -> deg_num o b = Some kb -> deg_num o c = Some kc -> (ka + kb + kc <= 2 * q + 1)%nat.
Proof.
  unfold quad_degree. intros H Ha Hb Hc. rewrite Ha, Hb, Hc in H. apply (f_equal (fun o => match o with Some q => q | None => O end)) in H. cbv beta iota in H. subst q.
  set (M := Nat.max (Nat.max ka kb) kc). assert (ka <= M /\ kb <= M /\ kc <= M)%nat by (unfold M; lia).
  pose proof (Nat.div_mod (3 * M) 2 ltac:(lia)) as D. pose proof (Nat.mod_upper_bound (3 * M) 2 ltac:(lia)).
  set (d := (3 * M / 2)%nat) in *. lia.
Qed.

(** an einsum over a rule; polynomials through incidence matrices are polynomials of the same degree *)
Definition pscale (c : R) (p : poly) : poly := map (fun t => (c * fst t, snd t)) p.
Fixpoint psum (n : nat) (f : nat -> poly) : poly := match n with O => [] | S k => psum k f ++ f k end.
Lemma peval_scale c p x : peval (pscale c p) x = c * peval p x.
Proof.
  unfold peval, pscale. induction p as [|t p IH]; simpl; [ring|]. rewrite IH. ring.
Qed.
Lemma peval_psum n f x : peval (psum n f) x = rsum n (fun i => peval (f i) x).
Proof.
  induction n as [|n IH]; simpl; [reflexivity|]. unfold peval in *. rewrite lsum_app, IH. reflexivity.
Qed.
Lemma degree_psum m k n f : (forall i, degree_le m k (f i)) -> degree_le m k (psum n f).
Proof.
  intros H. induction n as [|n IH]; cbn; [intros t []|]. intros t Ht. apply in_app_or in Ht. destruct Ht; [apply IH|apply (H n)]; assumption.
Qed.
Lemma degree_pscale m k c p : degree_le m k p -> degree_le m k (pscale c p).
Proof.
  intros H t Ht. unfold pscale in Ht. apply in_map_iff in Ht. destruct Ht as (u & <- & Hu). apply (H u Hu).
Qed.
Definition polys (d : bool) (f : pform) : list (nat -> poly) :=
  if d then map (fun p => fun k => psum (pn_d f) (fun i => pscale (pinc f i k) (p i))) (ps_d f) else ps f.
Lemma polys_degree d m k f : pform_degree m k f -> forall p i, In p (polys d f) -> degree_le m k (p i).
Proof.
  intros (H1 & H2) p i Hp. destruct d; cbn in Hp; [|apply H1; exact Hp].
  apply in_map_iff in Hp. destruct Hp as (p' & <- & Hp'). apply degree_psum. intros j. apply degree_pscale. apply H2. exact Hp'.
Qed.
Definition rmat_eq (r s : rmat) : Prop := forall l i, r l i = s l i.
Lemma comps_polys d X f : Forall2 rmat_eq (comps d (fel_at X f)) (at_nodes X (polys d f)).
Proof.
  destruct d; unfold comps, polys, fel_at; cbn [rms rms_d ndof_d inc].
  - unfold at_nodes. rewrite !map_map. induction (ps_d f) as [|p l IH]; cbn; constructor; [|exact IH].
    intros n i. unfold matmul. rewrite peval_psum. apply rsum_ext. intros j _. rewrite peval_scale. ring.
  - induction (at_nodes X (ps f)) as [|r l IH]; constructor; [intros n i; reflexivity|exact IH].
Qed.

Lemma einsum_agree m ka kb kc k J r s x y z x' y' z' p q t :
  (ka + kb + kc <= k)%nat -> agree m k r s ->
  (forall i, degree_le m ka (p i)) -> (forall i, degree_le m kb (q i)) -> (forall i, degree_le m kc (t i)) ->
  rmat_eq x (fun l i => peval (p i) (X r l)) -> rmat_eq y (fun l i => peval (q i) (X r l)) -> rmat_eq z (fun l i => peval (t i) (X r l)) ->
  rmat_eq x' (fun l i => peval (p i) (X s l)) -> rmat_eq y' (fun l i => peval (q i) (X s l)) -> rmat_eq z' (fun l i => peval (t i) (X s l)) ->
  forall a b c, einsum4 (nodes r) x y z (fun l => weight r l * J) a b c = einsum4 (nodes s) x' y' z' (fun l => weight s l * J) a b c.
Proof.
  intros Hk Hag Hp Hq Ht Hx Hy Hz Hx' Hy' Hz' a b c. unfold einsum4.
  transitivity (J * rsum (nodes r) (fun l => weight r l * (peval (p a) (X r l) * peval (q b) (X r l) * peval (t c) (X r l)))).
  { rewrite <- rsum_mul. apply rsum_ext; intros l _. rewrite (Hx l a), (Hy l b), (Hz l c). ring. }
  rewrite (triple_agree m ka kb kc k r s (p a) (q b) (t c) Hk Hag (Hp a) (Hq b) (Ht c)).
  rewrite <- rsum_mul. apply rsum_ext; intros l _. rewrite (Hx' l a), (Hy' l b), (Hz' l c). ring.
Qed.

Ltac f2 H := match type of H with
  | Forall2 _ _ (_ :: _) => inversion H; clear H; subst
  | Forall2 _ _ [] => inversion H; clear H; subst
  end.
Lemma at_nodes_cons X p l : at_nodes X (p :: l) = (fun n i => peval (p i) (X n)) :: at_nodes X l.
Proof. reflexivity. Qed.

Theorem quadrature_enough o m a b c q ka kb kc J r s f g h T T' :
  quad_degree o a b c = Some q -> deg_num o a = Some ka -> deg_num o b = Some kb -> deg_num o c = Some kc ->
  pform_degree m ka f -> pform_degree m kb g -> pform_degree m kc h ->
  agree m (2 * q + 1) r s ->
  element_data o m (nodes r) (weight r) (affine J (X r) f g h) = Some T ->
  element_data o m (nodes s) (weight s) (affine J (X s) f g h) = Some T' ->
  shape T = shape T' /\ forall i j k, at_ T [i; j; k] = at_ T' [i; j; k].
Proof.
  intros Hq Ha Hb Hc Hf Hg Hh Hag H1 H2.
  pose proof (deg_bound o a b c q ka kb kc Hq Ha Hb Hc) as Hk.
  unfold element_data, affine in H1, H2. cbn [eA eB eC detJ] in H1, H2.
  pose proof (comps_polys false (X r) f) as A1. pose proof (comps_polys false (X s) f) as A2.
  pose proof (comps_polys (d_of_B o) (X r) g) as B1. pose proof (comps_polys (d_of_B o) (X s) g) as B2.
  pose proof (comps_polys (d_of_C o) (X r) h) as C1. pose proof (comps_polys (d_of_C o) (X s) h) as C2.
  pose proof (polys_degree false m ka f Hf) as Da. pose proof (polys_degree (d_of_B o) m kb g Hg) as Db.
  pose proof (polys_degree (d_of_C o) m kc h Hh) as Dc.
  revert H1 H2 A1 A2 B1 B2 C1 C2 Da Db Dc.
  generalize (comps false (fel_at (X r) f)) (comps false (fel_at (X s) f)) (comps (d_of_B o) (fel_at (X r) g)) (comps (d_of_B o) (fel_at (X s) g))
    (comps (d_of_C o) (fel_at (X r) h)) (comps (d_of_C o) (fel_at (X s) h)) (polys false f) (polys (d_of_B o) g) (polys (d_of_C o) h).
  intros rA rA' rB rB' rC rC' pA pB pC H1 H2 A1 A2 B1 B2 C1 C2 Da Db Dc.
  assert (EA : forall p q t x y z x' y' z', In p pA -> In q pB -> In t pC ->
    rmat_eq x (fun l i => peval (p i) (X r l)) -> rmat_eq y (fun l i => peval (q i) (X r l)) -> rmat_eq z (fun l i => peval (t i) (X r l)) ->
    rmat_eq x' (fun l i => peval (p i) (X s l)) -> rmat_eq y' (fun l i => peval (q i) (X s l)) -> rmat_eq z' (fun l i => peval (t i) (X s l)) ->
    forall a b c, einsum4 (nodes r) x y z (fun l => weight r l * J) a b c = einsum4 (nodes s) x' y' z' (fun l => weight s l * J) a b c).
  { intros p q' t x y z x' y' z' Ip Iq It. apply (einsum_agree m ka kb kc (2 * q + 1)); auto. }
  destruct (is_cross o).
  - destruct m as [|[|[|[|m]]]]; try discriminate H1;
      destruct rA as [|r1 [|r2 [|r3 [|r4 rA]]]]; try discriminate H1;
      destruct rB as [|s1 [|s2 [|s3 [|s4 rB]]]]; try discriminate H1;
      destruct rC as [|t1 [|t2 [|t3 [|t4 rC]]]]; try discriminate H1;
      destruct rA' as [|r1' [|r2' [|r3' [|r4' rA']]]]; try discriminate H2;
      destruct rB' as [|s1' [|s2' [|s3' [|s4' rB']]]]; try discriminate H2;
      destruct rC' as [|t1' [|t2' [|t3' [|t4' rC']]]]; try discriminate H2;
      destruct pA as [|p1 [|p2 [|p3 [|p4 pA]]]]; try solve [inversion A1; subst; repeat match goal with K : Forall2 _ _ _ |- _ => inversion K; clear K; subst end];
      destruct pB as [|q1 [|q2 [|q3 [|q4 pB]]]]; try solve [inversion B1; subst; repeat match goal with K : Forall2 _ _ _ |- _ => inversion K; clear K; subst end];
      destruct pC as [|v1 [|v2 [|v3 [|v4 pC]]]]; try solve [inversion C1; subst; repeat match goal with K : Forall2 _ _ _ |- _ => inversion K; clear K; subst end];
      rewrite ?at_nodes_cons in *; repeat match goal with K : Forall2 rmat_eq _ _ |- _ => inversion K; clear K; subst end;
      try solve [exfalso; match goal with K : Forall2 _ _ (at_nodes _ (_ :: _)) |- _ => inversion K end];
      cbn [cross_data option_map] in H1, H2; injection H1 as <-; injection H2 as <-; (split; [reflexivity|]); intros i j k;
      cbn [at_ to_nd]; unfold plus3, minus3, neg3;
      repeat first [apply (f_equal2 Rplus)|apply (f_equal2 Rminus)|apply (f_equal Ropp)];
      (eapply EA; cycle 3; [eassumption|eassumption|eassumption|eassumption|eassumption|eassumption|cbn; auto|cbn; auto|cbn; auto]).
  - destruct m as [|[|[|m]]]; try discriminate H1;
      destruct rA as [|r1 [|r2 rA]]; try discriminate H1;
      destruct rB as [|s1 [|s2 [|s3 rB]]]; try discriminate H1;
      destruct rC as [|t1 [|t2 [|t3 rC]]]; try discriminate H1;
      destruct rA' as [|r1' [|r2' rA']]; try discriminate H2;
      destruct rB' as [|s1' [|s2' [|s3' rB']]]; try discriminate H2;
      destruct rC' as [|t1' [|t2' [|t3' rC']]]; try discriminate H2;
      destruct pA as [|p1 [|p2 pA]]; try solve [inversion A1; subst; repeat match goal with K : Forall2 _ _ _ |- _ => inversion K; clear K; subst end];
      destruct pB as [|q1 [|q2 [|q3 pB]]]; try solve [inversion B1; subst; repeat match goal with K : Forall2 _ _ _ |- _ => inversion K; clear K; subst end; inversion B2; subst; repeat match goal with K : Forall2 _ _ _ |- _ => inversion K; clear K; subst end];
      destruct pC as [|v1 [|v2 [|v3 pC]]]; try solve [inversion C1; subst; repeat match goal with K : Forall2 _ _ _ |- _ => inversion K; clear K; subst end; inversion C2; subst; repeat match goal with K : Forall2 _ _ _ |- _ => inversion K; clear K; subst end];
      rewrite ?at_nodes_cons in *; repeat match goal with K : Forall2 rmat_eq _ _ |- _ => inversion K; clear K; subst end;
      cbn [dot_data option_map] in H1, H2; injection H1 as <-; injection H2 as <-; (split; [reflexivity|]); intros i j k;
      cbn [at_ to_nd]; unfold plus3, minus3, neg3;
      repeat first [apply (f_equal2 Rplus)|apply (f_equal2 Rminus)|apply (f_equal Ropp)];
      (eapply EA; cycle 3; [eassumption|eassumption|eassumption|eassumption|eassumption|eassumption|cbn; auto|cbn; auto|cbn; auto]).
Qed.
