(** Quadratures: the statements, and refutations. *)
From Coq Require Import Reals List Arith Lia Lra Psatz.
From Coquelicot Require Import Coquelicot.
From Verif Require Import QdModel QdSpec QdLeg QdThms QdTensor.
Import ListNotations.
Local Open Scope R_scope.

Lemma steps_dleg n z m : (forall i, (i < m)%nat -> Derive (dleg n) (z i) <> 0 /\ z (S i) = z i - dleg n (z i) / Derive (dleg n) (z i)) ->
  newton_steps (Derive (legendre n)) z m.
Proof.
  intros H i Hi. rewrite (Derive_ext (Derive (legendre n)) (dleg n)) by (intros; apply Derive_leg). rewrite Derive_leg. apply H. exact Hi.
Qed.
Lemma interior_newton eps p i y : (1 <= i < p)%nat -> interior eps p i = Some y ->
  exists m z, (m <= 99)%nat /\ z 0%nat = cos (INR i / INR p * PI) /\ z m = y /\ newton_steps (Derive (legendre p)) z m /\
    (m = 99%nat \/ exists j, m = S j /\ Rabs (z m - z j) < eps).
Proof.
  intros Hi H. unfold interior, newton_method in H. apply (run_steps p eps ltac:(lia)) in H. destruct H as (m & z & Hm & Z0 & Zm & St & En).
  exists m, z. repeat (split; [assumption || (apply steps_dleg; assumption)|]). exact En.
Qed.
Lemma root_kept n n_max x eps : (2 <= n)%nat -> 0 < eps -> -1 < x < 1 -> Derive (legendre n) x = 0 ->
  newton_method (fun x => legendre_prime_lobatto x n) (fun x => legendre_double_prime x n) x n_max eps = Some x.
Proof. intros Hn He Hx H. rewrite Derive_leg in H. unfold newton_method. apply (run_root n eps Hn); [exact He|nra|exact H]. Qed.
Lemma roots_simple n x : (1 <= n)%nat -> Derive (legendre n) x = 0 -> Derive_n (legendre n) 2 x <> 0.
Proof. intros L H. rewrite Derive_leg in H. rewrite Derive2_leg. apply simple; assumption. Qed.
Lemma lobatto_weights eps p nodes weights : compute_Lobatto eps p = Some (nodes, weights) ->
  length nodes = S p /\ length weights = S p /\ nth 0 nodes 0 = -1 /\ nth p nodes 0 = 1 /\
  (forall i, (i <= p)%nat -> nth (p - i) nodes 0 = - nth i nodes 0) /\
  (forall i, (i <= p)%nat -> nth i weights 0 = 2 / (INR p * (INR p + 1) * legendre p (nth i nodes 0) ^ 2)) /\
  (forall i, (i <= p)%nat -> nth (p - i) weights 0 = nth i weights 0) /\
  nth 0 weights 0 = 2 / (INR p * (INR p + 1)) /\
  (forall i, (1 <= i < p)%nat -> exists m z, (m <= 99)%nat /\ z 0%nat = cos (INR (p - i) / INR p * PI) /\ z m = nth i nodes 0 /\
     newton_steps (Derive (legendre p)) z m /\ (m = 99%nat \/ exists j, m = S j /\ Rabs (z m - z j) < eps)).
Proof.
  intros H. apply lobatto_spec in H. destruct H as (A & B & C & D & E & F & G). repeat (split; [assumption|]). split; [|split].
  - intros i Hi. rewrite !F by lia. rewrite E by lia. apply weight_even.
  - rewrite F by lia. rewrite C. replace (weight p (-1)) with (weight p (- (1))) by (f_equal; ring). rewrite weight_even. apply weight_one.
  - intros i Hi. apply interior_newton; [lia|]. apply G. exact Hi.
Qed.
Lemma weight_positive p x : (1 <= p)%nat -> Derive (legendre p) x = 0 -> 0 < 2 / (INR p * (INR p + 1) * legendre p x ^ 2).
Proof.
  intros L H. rewrite Derive_leg in H. assert (legendre p x <> 0) as N by (intros E; exact (no_double p x E H)).
  assert (1 <= INR p) by (apply (le_INR 1); exact L). apply Rdiv_lt_0_compat; [lra|].
  apply Rmult_lt_0_compat; [nra|]. replace (legendre p x ^ 2) with (Rsqr (legendre p x)) by (unfold Rsqr; ring). apply Rsqr_pos_lt. exact N.
Qed.

(** refutations *)
Lemma cus_outside : exists l n i, (forall x, In x l -> 0 < x) /\ cus_nodes l = Some n /\ (S i < length n)%nat /\ 1 < nth i n 0 /\ nth (S i) n 0 < nth i n 0.
Proof.
  set (l := [1 / 2; 1 / 2 + 2 / 10 ^ 10; 1 / 10 ^ 10]).
  assert (S1 : rsum l = 1 + 3 / 10 ^ 10) by (unfold rsum, l; cbn [fold_right]; lra).
  destruct (cus_defined l) as [n Hn]; [rewrite S1; unfold Rabs; destruct (Rcase_abs _); lra|].
  destruct (cus_spec l n Hn) as (L & _ & V & E & _). exists l, n, 2%nat. split; [|split; [exact Hn|]].
  - unfold l. intros x [<-|[<-|[<-|[]]]]; lra.
  - assert (nth 2 n 0 = 1 + 4 / 10 ^ 10) as ->.
    { rewrite V by (unfold l; cbn; lia). unfold after, l, rsum. cbn [firstn fold_right]. lra. }
    change (length l) with 3%nat in *. rewrite L, E. split; [lia|]. split; lra.
Qed.
Lemma nd_any : exists nodes, node_distribution nodes = Some nodes /\ nth 0 nodes 0 = -1 /\ nth 2 nodes 0 < nth 1 nodes 0.
Proof.
  exists [-1; 2; 1]. split; [|cbn; split; [reflexivity|lra]]. unfold node_distribution. cbn [last].
  destruct (almost_equal_dec (-1) (-1)) as [_|N]; [|exfalso; apply N; unfold almost_equal; replace (-1 - -1) with 0 by ring; rewrite Rabs_R0; lra].
  destruct (almost_equal_dec 1 1) as [_|N]; [reflexivity|exfalso; apply N; unfold almost_equal; replace (1 - 1) with 0 by ring; rewrite Rabs_R0; lra].
Qed.
Lemma nd_kept nodes n : node_distribution nodes = Some n -> n = nodes /\ Rabs (nth 0 n 0 + 1) < 15 / 10 ^ 8 /\ Rabs (last n 0 - 1) < 15 / 10 ^ 8.
Proof.
  unfold node_distribution. destruct nodes as [|x r]; [discriminate|]. destruct (almost_equal_dec x (-1)) as [A|]; [|discriminate].
  destruct (almost_equal_dec (last (x :: r) 0) 1) as [B|]; [|discriminate]. intros H. assert (x :: r = n) as <- by congruence. split; [reflexivity|].
  unfold almost_equal in A, B. rewrite Rabs_minus_sym in A, B. split; [|exact B]. cbn [nth]. replace (x + 1) with (x - -1) by ring. exact A.
Qed.
Lemma tuple_args {C} (l : list nat) (c : C) (cs : list C) : quadrature (PTuple l) (CStr c) = Some (l, map (fun _ => c) l) /\
  (quadrature (PTuple l) (CTuple cs) = Some (l, cs) <-> length cs = length l) /\ (forall n, quadrature (PInt n) (CStr c) = Some ([n], [c])).
Proof.
  split; [reflexivity|]. split; [|reflexivity]. cbn. destruct (Nat.eqb_spec (length cs) (length l)); split; congruence.
Qed.
Lemma list_args {C} (l : list nat) (p : order) (c : categories C) (cs : list C) : quadrature (PList l) c = None /\ quadrature p (CList cs) = None.
Proof. split; [reflexivity|]. destruct p; reflexivity. Qed.
