(** Examples for GmresProps.v. *)
From Coq Require Import List Arith ZArith Bool Reals Lia Lra FunctionalExtensionality.
From Verif Require Import GmresModel GmresSpec GmresSums GmresSerial GmresSerial2 GmresThms GmresThms2 GmresThms3 GmresThms4 GmresThms5.
Import ListNotations.
Local Open Scope R_scope.

Lemma apply2 M x i : apply 2 M x i = M i 0%nat * x 0%nat + M i 1%nat * x 1%nat.
Proof. unfold apply, total. cbn [seq map fold_right]. lra. Qed.
Lemma cramer_solves : solves cramer 2.
Proof.
  intros M b y. unfold cramer. cbn [Nat.eqb]. destruct (Req_EM_T _ 0) as [|D]; [discriminate|]. intros E. injection E as <-.
  intros i I. rewrite apply2. cbn [Nat.eqb]. assert (i = 0 \/ i = 1)%nat as [-> | ->] by lia; field; exact D.
Qed.
Lemma cramer_regular : solves_regular cramer 2.
Proof.
  intros M b INJ. unfold cramer. cbn [Nat.eqb]. destruct (Req_EM_T _ 0) as [D|]; [|discriminate]. exfalso.
  assert (K : forall x y, M 0%nat 0%nat * x + M 0%nat 1%nat * y = 0 -> M 1%nat 0%nat * x + M 1%nat 1%nat * y = 0 -> x = 0 /\ y = 0).
  { intros x y H0 H1.
    assert (forall i, (i < 2)%nat -> (fun i => if (i =? 0)%nat then x else y) i = 0) as Q.
    { apply INJ. intros i I. rewrite apply2. cbn [Nat.eqb]. assert (i = 0 \/ i = 1)%nat as [-> | ->] by lia; assumption. }
    split; [exact (Q 0%nat ltac:(lia))|exact (Q 1%nat ltac:(lia))]. }
  destruct (K (- M 0%nat 1%nat) (M 0%nat 0%nat)) as [A1 A2]; [lra|lra|]. destruct (K (M 1%nat 1%nat) (- M 1%nat 0%nat)) as [A3 A4]; [lra|lra|].
  destruct (K 1 1); [|  |lra].
  - rewrite A2. replace (M 0%nat 1%nat) with 0 by lra. lra.
  - rewrite A3. replace (M 1%nat 0%nat) with 0 by lra. lra.
Qed.
Lemma turn_injective : injective 2 turn_matrix.
Proof.
  intros x H i I. pose proof (H 0%nat ltac:(lia)) as H0. pose proof (H 1%nat ltac:(lia)) as H1. rewrite apply2 in H0, H1. cbn [turn_matrix] in H0, H1.
  assert (i = 0 \/ i = 1)%nat as [-> | ->] by lia; lra.
Qed.
Lemma turn_shares : shares 3 turn_share e0_share turn_matrix e0.
Proof.
  split; intros; unfold total; cbn [seq map fold_right turn_share e0_share]; lra.
Qed.
Lemma turn_independent : independent 2 2 (krylov 2 turn_matrix (res 2 turn_matrix e0 (fun _ => 0))).
Proof.
  intros c H j J. pose proof (H 0%nat ltac:(lia)) as H0. pose proof (H 1%nat ltac:(lia)) as H1.
  unfold comb, total in H0, H1. cbn [seq map fold_right krylov] in H0, H1. unfold res in H0, H1. rewrite !apply2 in H0, H1.
  try rewrite !apply2 in H0. try rewrite !apply2 in H1. cbn [turn_matrix] in H0, H1. unfold e0 in H0, H1. cbn [Nat.eqb] in H0, H1.
  assert (j = 0 \/ j = 1)%nat as [-> | ->] by lia; lra.
Qed.
Lemma turn_solution : solution 2 turn_matrix e0 (fun i => if (i =? 0)%nat then 0 else -1).
Proof. intros i I. rewrite apply2. unfold e0. assert (i = 0 \/ i = 1)%nat as [-> | ->] by lia; cbn [turn_matrix Nat.eqb]; lra. Qed.
Lemma turn_starts : starts 2 turn_matrix e0 (/ 100000) (Int 30) (fun _ => 0).
Proof.
  split; [reflexivity|]. rewrite len_norm. unfold norm.
  assert (dot 2 (res 2 turn_matrix e0 (fun _ => 0)) (res 2 turn_matrix e0 (fun _ => 0)) = 1) as ->.
  { unfold dot. cbn [rsum]. unfold res. rewrite !apply2. unfold e0. cbn [Nat.eqb]. lra. }
  rewrite sqrt_1. lra.
Qed.

Lemma identity_apply n x i : (i < n)%nat -> apply n identity_matrix x i = x i.
Proof.
  intros I. rewrite apply_mv. unfold mv. rewrite (rsum_one n _ i I).
  - unfold identity_matrix. rewrite Nat.eqb_refl. lra.
  - intros j _ N. unfold identity_matrix. replace (i =? j)%nat with false by (symmetry; apply Nat.eqb_neq; congruence). lra.
Qed.
Lemma identity_dependent n r k : (2 <= k)%nat -> ~ independent n k (krylov n identity_matrix r).
Proof.
  intros K IND. specialize (IND (fun j => match j with 0%nat => 1 | 1%nat => -1 | _ => 0 end)).
  assert (1 = 0) as C; [|lra]. apply (IND) with (j := 0%nat); [|lia]. intros l L. rewrite comb_eq.
  destruct k as [|[|k]]; [lia|lia|]. rewrite !rsum_shift. rewrite rsum_zero by (intros; lra). cbn [krylov]. rewrite identity_apply by exact L. lra.
Qed.

Section Extra.
  Variable n SIZE : nat.
  Variable Ar : nat -> mat.
  Variable fr : nat -> vec.
  Variable b : vec.
  Variable linsolve : nat -> mat -> vec -> option vec.
  Hypothesis HS : (0 < SIZE)%nat.
  Lemma gmres_identity R atol m x0 : shares SIZE Ar fr identity_matrix b -> starts n identity_matrix b atol m x0 -> (1 <= R)%nat ->
    gmres n SIZE Ar fr linsolve R atol m x0 = Failed.
  Proof.
    intros SH ST R1. apply (gmres_first_fails n SIZE Ar fr identity_matrix b linsolve HS SH); [exact ST|].
    destruct (Nat.eq_dec R 1) as [->|N]; [right; left; reflexivity|]. right. right. left. apply identity_dependent. lia.
  Qed.
  Lemma gmres_no_rounds A R atol x0 : shares SIZE Ar fr A b -> atol <= len n (res n A b x0) ->
    gmres n SIZE Ar fr linsolve R atol (Int 0) x0 = Done x0 0 (len n (res n A b x0)) 2 0.
  Proof.
    intros SH L. destruct (shares_rsum SIZE Ar fr A b SH) as [HA Hb]. rewrite (gmres_serial n SIZE Ar fr linsolve A b HS HA Hb).
    unfold sgmres, enough. cbn [Z.to_nat sloop fst]. rewrite stop_judged by discriminate. unfold judged. rewrite len_norm, res_eq in *.
    rewrite (proj2 (rltb_false _ _) L). reflexivity.
  Qed.
End Extra.
