(** Legendre polynomials: derivatives, the differential equation, parity, simple roots. *)
From Coq Require Import Reals List Arith Lia Lra Psatz.
From Coquelicot Require Import Coquelicot.
From Verif Require Import QdModel.
Import ListNotations.
Local Open Scope R_scope.

Lemma leg_SS k x : legendre (S (S k)) x = ((2 * INR (S k) + 1) * x * legendre (S k) x - INR (S k) * legendre k x) / (INR (S k) + 1).
Proof. reflexivity. Qed.
Fixpoint dleg (n : nat) (x : R) : R :=
  match n with
  | O => 0
  | S m => match m with
           | O => 1
           | S k => ((2 * INR m + 1) * (legendre m x + x * dleg m x) - INR m * dleg k x) / (INR m + 1)
           end
  end.
Lemma dleg_SS k x : dleg (S (S k)) x = ((2 * INR (S k) + 1) * (legendre (S k) x + x * dleg (S k) x) - INR (S k) * dleg k x) / (INR (S k) + 1).
Proof. reflexivity. Qed.
Lemma two_step (P : nat -> Prop) : P 0%nat -> P 1%nat -> (forall k, P k -> P (S k) -> P (S (S k))) -> forall n, P n.
Proof. intros H0 H1 H n. assert (P n /\ P (S n)) as [? ?]; [|assumption]. induction n as [|n [A B]]; auto. Qed.
Lemma INR_pos1 k : INR k + 1 <> 0.
Proof. pose proof (pos_INR k). lra. Qed.

Lemma step_derive (f g : R -> R) (a b m x : R) : is_derive f x a -> is_derive g x b ->
  is_derive (fun y => ((2 * m + 1) * y * f y - m * g y) / (m + 1)) x (((2 * m + 1) * (f x + x * a) - m * b) / (m + 1)).
Proof.
  intros F G. auto_derive.
  - repeat split; [exists a; exact F|exists b; exact G].
  - rewrite (is_derive_unique (fun y : R => f y) x _ F), (is_derive_unique (fun y : R => g y) x _ G). unfold Rdiv. ring.
Qed.
Lemma dleg_ok n x : is_derive (legendre n) x (dleg n x).
Proof.
  revert n. apply two_step.
  - cbn. apply (is_derive_const (V := R_NormedModule)).
  - cbn. apply (is_derive_id (K := R_AbsRing)).
  - intros k A B. pose proof (INR_pos1 (S k)) as N. rewrite dleg_SS.
    apply (is_derive_ext (fun y => ((2 * INR (S k) + 1) * y * legendre (S k) y - INR (S k) * legendre k y) / (INR (S k) + 1))).
    { intros t. symmetry. apply leg_SS. }
    apply step_derive; assumption.
Qed.

(** A: P'_{n+1} = x P'_n + (n+1) P_n;  B: P'_n = x P'_{n+1} - (n+1) P_{n+1} *)
Lemma AB n x : dleg (S n) x = x * dleg n x + (INR n + 1) * legendre n x /\ dleg n x = x * dleg (S n) x - (INR n + 1) * legendre (S n) x.
Proof.
  induction n as [|n [A B]].
  - cbn. split; ring.
  - pose proof (INR_pos1 (S n)) as N. pose proof (dleg_SS n x) as D. pose proof (leg_SS n x) as L. rewrite S_INR in *.
    set (m := INR n) in *. set (P1 := legendre (S n) x) in *. set (P0 := legendre n x) in *. set (P2 := legendre (S (S n)) x) in *.
    set (d0 := dleg n x) in *. set (d1 := dleg (S n) x) in *. set (d2 := dleg (S (S n)) x) in *.
    assert (A2 : d2 = x * d1 + (m + 1 + 1) * P1).
    { rewrite D. apply (Rmult_eq_reg_r (m + 1 + 1)); [|exact N]. unfold Rdiv. rewrite Rmult_assoc, Rinv_l, Rmult_1_r by exact N. rewrite B at 1. ring. }
    split; [exact A2|]. rewrite A2.
    assert (L2 : (m + 1 + 1) * P2 = (2 * (m + 1) + 1) * x * P1 - (m + 1) * P0).
    { rewrite L. field. exact N. }
    rewrite L2. assert (d1 = x * (x * d1 - (m + 1) * P1) + (m + 1) * P0) as E by (rewrite <- B; exact A). lra.
Qed.

Lemma prime_id n x : (1 - x ^ 2) * dleg (S n) x = INR (S n) * (legendre n x - x * legendre (S n) x).
Proof. rewrite S_INR. destruct (AB n x) as [A B]. rewrite A at 1. replace (x ^ 2) with (x * x) by ring.
  assert (dleg (S n) x = x * (x * dleg (S n) x - (INR n + 1) * legendre (S n) x) + (INR n + 1) * legendre n x) as E by (rewrite <- B; exact A).
  rewrite <- A. lra. Qed.

(** the differential equation, and the second derivative *)
Lemma id_derive (f g : R -> R) (a b m x : R) : is_derive g x b -> is_derive f x a ->
  is_derive (fun y => m * (g y - y * f y)) x (m * (b - f x - x * a)).
Proof.
  intros G F. auto_derive.
  - repeat split; [exists b; exact G|exists a; exact F].
  - rewrite (is_derive_unique (fun y : R => f y) x _ F), (is_derive_unique (fun y : R => g y) x _ G). ring.
Qed.
Lemma der_id n x : is_derive (fun y => INR (S n) * (legendre n y - y * legendre (S n) y)) x (INR (S n) * (dleg n x - legendre (S n) x - x * dleg (S n) x)).
Proof.
  apply id_derive; apply dleg_ok.
Qed.
Lemma ddleg_ex n x : ex_derive (dleg n) x.
Proof.
  revert n. apply two_step.
  - exists 0. cbn. apply (is_derive_const (V := R_NormedModule)).
  - exists 0. cbn. apply (is_derive_const (V := R_NormedModule)).
  - intros k [a A] [b B].
    apply (ex_derive_ext (fun y => ((2 * INR (S k) + 1) * (legendre (S k) y + y * dleg (S k) y) - INR (S k) * dleg k y) / (INR (S k) + 1))).
    { intros t. symmetry. apply dleg_SS. }
    pose proof (dleg_ok (S k) x) as F. generalize dependent (dleg (S k)). intros d B F. generalize dependent (legendre (S k)). intros f F.
    generalize dependent (dleg k). intros e A. auto_derive.
    repeat split; [exists (d x); exact F|exists b; exact B|exists a; exact A].
Qed.
Lemma ode n x : (1 - x ^ 2) * Derive (dleg n) x = 2 * x * dleg n x - INR n * (INR n + 1) * legendre n x.
Proof.
  destruct n as [|n].
  - change (dleg 0) with (fun _ : R => 0). rewrite Derive_const. cbn. ring.
  - destruct (AB n x) as [_ B]. pose proof (der_id n x) as D.
    assert (E : is_derive (fun y => (1 - y ^ 2) * dleg (S n) y) x (INR (S n) * (dleg n x - legendre (S n) x - x * dleg (S n) x))).
    { apply (is_derive_ext (fun y => INR (S n) * (legendre n y - y * legendre (S n) y))); [intros t; symmetry; apply prime_id|exact D]. }
    apply is_derive_unique in E. pose proof (ddleg_ex (S n) x) as X. rewrite S_INR in *. revert E B X.
    generalize (dleg n x) (legendre (S n) x) (INR n). generalize (dleg (S n)). intros d p q m E B X.
    assert (E' : Derive (fun y => (1 - y ^ 2) * d y) x = (1 - x ^ 2) * Derive d x - 2 * x * d x).
    { apply is_derive_unique. auto_derive; [exact (conj X I) || exact X|]. change (Derive (fun y => d y) x) with (Derive d x). ring. }
    pose proof (eq_trans (eq_sym E') E) as E2. rewrite B in E2. lra.
Qed.

(** parity *)
Lemma leg_parity n x : legendre n (- x) = (-1) ^ n * legendre n x.
Proof.
  revert n. apply two_step; [cbn; ring|cbn; ring|]. intros k A B. rewrite !leg_SS, A, B. change ((-1) ^ S (S k)) with (-1 * (-1 * (-1) ^ k)).
  change ((-1) ^ S k) with (-1 * (-1) ^ k). unfold Rdiv. ring.
Qed.
Lemma sign_sq k : (-1) ^ k * (-1) ^ k = 1.
Proof. rewrite <- Rpow_mult_distr. replace (-1 * -1) with 1 by ring. apply pow1. Qed.
Lemma leg_one n : legendre n 1 = 1.
Proof.
  revert n. apply two_step; [reflexivity|reflexivity|]. intros k A B. rewrite leg_SS, A, B. field. apply INR_pos1.
Qed.

(** roots of P' are simple *)
Lemma no_double n x : legendre n x = 0 -> dleg n x = 0 -> False.
Proof.
  induction n as [|n IH]; intros A B; [cbn in A; lra|]. pose proof (prime_id n x) as E. destruct (AB n x) as [_ D].
  rewrite A, B in *. pose proof (INR_pos1 n). rewrite S_INR in E. apply IH; [|lra].
  assert ((INR n + 1) * legendre n x = 0) as F by lra. apply Rmult_integral in F. destruct F; [contradiction|assumption].
Qed.
Lemma simple n x : (1 <= n)%nat -> dleg n x = 0 -> Derive (dleg n) x <> 0.
Proof.
  intros L A B. pose proof (ode n x) as O. rewrite A, B in O. apply (no_double n x); [|exact A].
  assert (1 <= INR n) by (apply (le_INR 1); exact L).
  assert (INR n * (INR n + 1) * legendre n x = 0) as F by lra. apply Rmult_integral in F. destruct F; [nra|assumption].
Qed.
