(** Proofs about quadratures: Lobatto. *)
From Coq Require Import Reals List Arith Lia Lra Psatz.
From Coquelicot Require Import Coquelicot.
From Verif Require Import QdModel QdLeg.
Import ListNotations.
Local Open Scope R_scope.

Lemma some_inj {A} (a b : A) : Some a = Some b -> a = b.
Proof. intros H. injection H. auto. Qed.
Lemma Derive_leg n x : Derive (legendre n) x = dleg n x.
Proof. apply is_derive_unique. apply dleg_ok. Qed.
Lemma Derive2_leg n x : Derive_n (legendre n) 2 x = Derive (dleg n) x.
Proof. cbn. apply Derive_ext. intros t. apply Derive_leg. Qed.

Lemma prime_ok x n : x ^ 2 <> 1 -> legendre_prime x n = Some (dleg n x).
Proof.
  intros H. unfold legendre_prime. destruct n as [|[|n]]; [reflexivity|reflexivity|]. cbn [Nat.eqb].
  destruct (Req_EM_T (1 - x ^ 2) 0) as [E|E]; [exfalso; apply H; lra|]. f_equal.
  replace (S (S n) - 1)%nat with (S n) by lia. pose proof (prime_id (S n) x) as P.
  apply (Rmult_eq_reg_l (1 - x ^ 2)); [|exact E]. rewrite P. field. exact E.
Qed.
Lemma prime_deriv x n v : legendre_prime x n = Some v -> is_derive (legendre n) x v.
Proof.
  destruct (Req_dec (x ^ 2) 1) as [E|E].
  - unfold legendre_prime. destruct n as [|[|n]]; cbn [Nat.eqb]; try (intros H; injection H as <-); [apply (dleg_ok 0)|apply (dleg_ok 1)|].
    destruct (Req_EM_T (1 - x ^ 2) 0) as [?|N]; [discriminate|]. exfalso. apply N. lra.
  - rewrite prime_ok by exact E. intros H. injection H as <-. apply dleg_ok.
Qed.
Lemma double_ok x n : x ^ 2 <> 1 -> legendre_double_prime x n = Some ((1 - x ^ 2) ^ 2 * Derive (dleg n) x).
Proof. intros H. unfold legendre_double_prime. rewrite prime_ok by exact H. f_equal. rewrite <- ode. ring. Qed.
Lemma lobatto_ok x n : x ^ 2 <> 1 -> legendre_prime_lobatto x n = Some ((1 - x ^ 2) ^ 2 * dleg n x).
Proof. intros H. unfold legendre_prime_lobatto. rewrite prime_ok by exact H. reflexivity. Qed.

(** one step *)
Lemma step_ok n x a b : x ^ 2 <> 1 -> legendre_prime_lobatto x n = Some a -> legendre_double_prime x n = Some b -> b <> 0 ->
  Derive (dleg n) x <> 0 /\ a / b = dleg n x / Derive (dleg n) x.
Proof.
  intros H A B N. rewrite lobatto_ok in A by exact H. rewrite double_ok in B by exact H. apply some_inj in A, B. subst a b.
  assert (1 - x ^ 2 <> 0) as H1 by lra. assert (Derive (dleg n) x <> 0) as H2 by (intros E; apply N; rewrite E; ring).
  split; [exact H2|]. set (w := (1 - x ^ 2)) in *. clearbody w. field. split; assumption.
Qed.
(** at +-1 a step is not defined, or the order is below two *)
Lemma step_inside n x a b : (2 <= n)%nat -> legendre_prime_lobatto x n = Some a -> legendre_double_prime x n = Some b -> x ^ 2 <> 1.
Proof.
  intros L A B E. unfold legendre_prime_lobatto, legendre_prime in A. destruct n as [|[|n]]; [lia|lia|]. cbn [Nat.eqb] in A.
  destruct (Req_EM_T (1 - x ^ 2) 0) as [?|N]; [discriminate|]. apply N. lra.
Qed.

Section Newton.
  Context (n : nat) (eps : R) (Hn : (2 <= n)%nat).
  Notation run := (newton (fun x => legendre_prime_lobatto x n) (fun x => legendre_double_prime x n) eps).
  Lemma run_steps k x y : run k x = Some y ->
    exists (m : nat) (z : nat -> R), (m <= k)%nat /\ z 0%nat = x /\ z m = y /\
      (forall i, (i < m)%nat -> Derive (dleg n) (z i) <> 0 /\ z (S i) = z i - dleg n (z i) / Derive (dleg n) (z i)) /\
      (m = k \/ (exists i, m = S i /\ Rabs (z m - z i) < eps)).
  Proof.
    revert x. induction k as [|k IH]; intros x H.
    - cbn in H. injection H as <-. exists 0%nat, (fun _ => x). repeat split; auto; intros; lia.
    - cbn in H. destruct (legendre_prime_lobatto x n) as [a|] eqn:A; [|discriminate]. destruct (legendre_double_prime x n) as [b|] eqn:B; [|discriminate].
      destruct (Req_EM_T b 0) as [|N]; [discriminate|].
      assert (x ^ 2 <> 1) as Q by (clear IH; exact (step_inside n x a b Hn A B)).
      destruct (step_ok n x a b Q A B N) as [D E]. rewrite E in H.
      destruct (Rlt_dec _ eps) as [L|L].
      + injection H as <-. exists 1%nat, (fun i => match i with O => x | S _ => x - dleg n x / Derive (dleg n) x end).
        split; [lia|]. split; [reflexivity|]. split; [reflexivity|]. split.
        * intros i Hi. assert (i = 0)%nat as -> by lia. auto.
        * right. exists 0%nat. auto.
      + destruct (IH _ H) as (m & z & Hm & Z0 & Zm & St & En).
        exists (S m), (fun i => match i with O => x | S j => z j end). split; [lia|]. split; [reflexivity|]. split; [exact Zm|]. split.
        * intros [|i] Hi; [rewrite Z0; auto|]. apply St. lia.
        * destruct En as [->|(i & -> & En)]; [left; reflexivity|]. right. exists (S i). auto.
  Qed.
  Lemma run_root k x : 0 < eps -> x ^ 2 <> 1 -> dleg n x = 0 -> run k x = Some x.
  Proof.
    intros He Q R0. destruct k as [|k]; [reflexivity|]. cbn. rewrite lobatto_ok, double_ok by exact Q.
    pose proof (simple n x ltac:(lia) R0) as S1. destruct (Req_EM_T _ 0) as [E|_].
    - exfalso. apply Rmult_integral in E. destruct E as [E|E]; [|contradiction].
      assert (1 - x ^ 2 <> 0) as N by lra. apply (pow_nonzero _ 2 N). exact E.
    - rewrite R0, Rmult_0_r. unfold Rdiv. rewrite Rmult_0_l, Rminus_0_r.
      destruct (Rlt_dec _ eps) as [_|L]; [reflexivity|]. exfalso. apply L. replace (x - x) with 0 by ring. rewrite Rabs_R0. exact He.
  Qed.
End Newton.

(** parity of the steps *)
Lemma prime_par x n : legendre_prime (- x) n = option_map (fun v => (-1) ^ S n * v) (legendre_prime x n).
Proof.
  unfold legendre_prime. destruct n as [|[|n]]; cbn [Nat.eqb option_map]; [f_equal; ring|f_equal; cbn; ring|].
  replace ((- x) ^ 2) with (x ^ 2) by ring. destruct (Req_EM_T (1 - x ^ 2) 0); [reflexivity|]. cbn [option_map]. f_equal.
  replace (S (S n) - 1)%nat with (S n) by lia. rewrite !leg_parity. cbn [pow]. unfold Rdiv. ring.
Qed.
Lemma run_par n eps k x : newton (fun x => legendre_prime_lobatto x n) (fun x => legendre_double_prime x n) eps k (- x) =
  option_map Ropp (newton (fun x => legendre_prime_lobatto x n) (fun x => legendre_double_prime x n) eps k x).
Proof.
  revert x. induction k as [|k IH]; intros x; [reflexivity|]. cbn [newton]. unfold legendre_prime_lobatto, legendre_double_prime. rewrite prime_par.
  destruct (legendre_prime x n) as [v|]; cbn [option_map]; [|reflexivity]. rewrite leg_parity. replace ((- x) ^ 2) with (x ^ 2) by ring.
  set (a := (1 - x ^ 2) ^ 2 * v). set (b := (2 * x * v - INR n * (INR n + 1) * legendre n x) * (1 - x ^ 2)).
  replace ((1 - x ^ 2) ^ 2 * ((-1) ^ S n * v)) with ((-1) ^ S n * a) by (unfold a; ring).
  replace ((2 * - x * ((-1) ^ S n * v) - INR n * (INR n + 1) * ((-1) ^ n * legendre n x)) * (1 - x ^ 2)) with ((-1) ^ n * b)
    by (unfold b; cbn [pow]; ring).
  pose proof (sign_sq n) as S1. assert (S2 : (-1) ^ n <> 0) by (intros E; rewrite E in S1; lra).
  destruct (Req_EM_T ((-1) ^ n * b) 0) as [E|E]; destruct (Req_EM_T b 0) as [F|F].
  - reflexivity.
  - exfalso. apply Rmult_integral in E. tauto.
  - exfalso. apply E. rewrite F. ring.
  - assert (G : - x - (-1) ^ S n * a / ((-1) ^ n * b) = - (x - a / b)).
    { cbn [pow]. field. auto. }
    rewrite G. replace (- (x - a / b) - - x) with (- (x - a / b - x)) by ring. rewrite Rabs_Ropp.
    destruct (Rlt_dec _ eps); [reflexivity|]. apply IH.
Qed.

Lemma cos_sym p i : (1 <= i < p)%nat -> cos (INR (p - i) / INR p * PI) = - cos (INR i / INR p * PI).
Proof.
  intros H. rewrite minus_INR by lia. assert (0 < INR p) by (apply lt_0_INR; lia).
  replace ((INR p - INR i) / INR p * PI) with (PI - INR i / INR p * PI) by (field; lra).
  rewrite Rtrigo_facts.cos_pi_minus. reflexivity.
Qed.
Lemma interior_sym eps p i : (1 <= i < p)%nat -> interior eps p (p - i) = option_map Ropp (interior eps p i).
Proof. intros H. unfold interior, newton_method. rewrite cos_sym by exact H. apply run_par. Qed.

Lemma all_some_spec {A} (l : list (option A)) t : all_some l = Some t -> map Some t = l.
Proof.
  revert t. induction l as [|[a|] l IH]; intros t H; cbn in H; [injection H as <-; reflexivity| |discriminate].
  destruct (all_some l) as [u|]; [|discriminate]. injection H as <-. cbn. f_equal. apply IH. reflexivity.
Qed.
Lemma nth_map_some {A} (t : list A) l i d : map Some t = l -> (i < length t)%nat -> nth i l None = Some (nth i t d).
Proof. intros <- H. rewrite (nth_indep _ None (Some d)) by (rewrite map_length; exact H). apply (map_nth Some). Qed.

(** the computed points, before they are reversed *)
Definition pts (eps : R) (p : nat) (t : list R) : Prop := map Some t = map (interior eps p) (seq 1 (p - 1)).
Lemma pts_len eps p t : pts eps p t -> length t = (p - 1)%nat.
Proof. intros H. apply (f_equal (@length _)) in H. rewrite !map_length, seq_length in H. exact H. Qed.
Lemma pts_nth eps p t i : pts eps p t -> (1 <= i < p)%nat -> interior eps p i = Some (nth (i - 1) t 0).
Proof.
  intros H Hi. rewrite <- (nth_map_some t _ (i - 1) 0 H) by (rewrite (pts_len _ _ _ H); lia).
  rewrite (nth_indep _ None (interior eps p 0)) by (rewrite map_length, seq_length; lia). rewrite map_nth, seq_nth by lia. f_equal. lia.
Qed.
Lemma nodal_sym eps p t i : (1 <= p)%nat -> pts eps p t -> (i <= p)%nat -> nth (p - i) (1 :: t ++ [-1]) 0 = - nth i (1 :: t ++ [-1]) 0.
Proof.
  intros Hp H Hi. pose proof (pts_len _ _ _ H) as L.
  assert (N : forall j, (1 <= j < p)%nat -> nth j (1 :: t ++ [-1]) 0 = nth (j - 1) t 0).
  { intros [|j] Hj; [lia|]. cbn [nth]. rewrite app_nth1 by lia. f_equal. lia. }
  assert (E : nth p (1 :: t ++ [-1]) 0 = -1).
  { destruct p as [|p]; [lia|]. cbn [nth]. rewrite app_nth2 by lia. replace (p - length t)%nat with 0%nat by lia. reflexivity. }
  destruct (Nat.eq_dec i 0) as [->|N0]; [rewrite Nat.sub_0_r, E; reflexivity|].
  destruct (Nat.eq_dec i p) as [->|Np]; [rewrite E, Nat.sub_diag; cbn; ring|].
  rewrite !N by lia. pose proof (interior_sym eps p i ltac:(lia)) as S1. rewrite (pts_nth eps p t i H), (pts_nth eps p t (p - i) H) in S1 by lia.
  cbn in S1. injection S1 as S1. exact S1.
Qed.

Lemma weight_even p x : weight p (- x) = weight p x.
Proof.
  unfold weight. assert (legendre p (- x) ^ 2 = legendre p x ^ 2) as ->; [|reflexivity].
  rewrite leg_parity, Rpow_mult_distr. replace (((-1) ^ p) ^ 2) with ((-1) ^ p * (-1) ^ p) by ring. rewrite sign_sq. ring.
Qed.
Lemma weight_one p : weight p 1 = 2 / (INR p * (INR p + 1)).
Proof. unfold weight. rewrite leg_one. f_equal. ring. Qed.

Lemma lobatto_spec eps p nodes weights : compute_Lobatto eps p = Some (nodes, weights) ->
  length nodes = S p /\ length weights = S p /\ nth 0 nodes 0 = -1 /\ nth p nodes 0 = 1 /\
  (forall i, (i <= p)%nat -> nth (p - i) nodes 0 = - nth i nodes 0) /\
  (forall i, (i <= p)%nat -> nth i weights 0 = weight p (nth i nodes 0)) /\
  (forall i, (1 <= i < p)%nat -> interior eps p (p - i) = Some (nth i nodes 0)).
Proof.
  unfold compute_Lobatto. destruct p as [|p']; [discriminate|]. change (S p' =? 0)%nat with false. cbv iota. set (p := S p').
  destruct (all_some _) as [t|] eqn:A; [|discriminate]. apply all_some_spec in A. fold (pts eps p t) in A.
  assert (Hp : (1 <= p)%nat) by (unfold p; lia). clearbody p. clear p'. cbv zeta. set (nodal := 1 :: t ++ [-1]). intros H.
  apply some_inj in H. apply pair_equal_spec in H. destruct H as [<- <-].
  assert (Ln : length nodal = S p). { unfold nodal. cbn [length]. rewrite app_length, (pts_len _ _ _ A). cbn. lia. }
  assert (R1 : forall i, (i <= p)%nat -> nth i (rev nodal) 0 = nth (p - i) nodal 0).
  { intros i Hi. rewrite rev_nth by lia. f_equal. lia. }
  assert (Sy : forall i, (i <= p)%nat -> nth (p - i) nodal 0 = - nth i nodal 0) by (intros i Hi; apply (nodal_sym eps p t i Hp A Hi)).
  split; [rewrite rev_length; exact Ln|]. split; [rewrite map_length; exact Ln|].
  split; [rewrite R1, Sy by lia; cbn; ring|]. split; [rewrite R1 by lia; rewrite Nat.sub_diag; reflexivity|]. split; [|split].
  - intros i Hi. rewrite !R1 by lia. replace (p - (p - i))%nat with i by lia. rewrite (Sy i Hi). ring.
  - intros i Hi. rewrite R1, Sy, weight_even by lia. rewrite (nth_indep _ 0 (weight p 0)) by (rewrite map_length; lia). apply map_nth.
  - intros i Hi. rewrite R1 by lia. rewrite (pts_nth eps p t (p - i) A) by lia. f_equal. unfold nodal.
    destruct (p - i)%nat as [|q] eqn:Q; [lia|]. cbn [nth]. rewrite app_nth1 by (rewrite (pts_len _ _ _ A); lia). f_equal. lia.
Qed.
Lemma prime_defined x n : x ^ 2 <> 1 ->
  legendre_prime x n = Some (Derive (legendre n) x) /\ legendre_double_prime x n = Some ((1 - x ^ 2) ^ 2 * Derive_n (legendre n) 2 x).
Proof. intros H. rewrite Derive_leg, Derive2_leg. split; [apply prime_ok|apply double_ok]; exact H. Qed.
