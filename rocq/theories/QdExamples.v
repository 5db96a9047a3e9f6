(** Quadratures: concrete cases. *)
From Coq Require Import Reals List Arith Lia Lra Psatz.
From Coquelicot Require Import Coquelicot.
From Verif Require Import QdModel QdSpec QdLeg QdThms QdTensor QdMore.
Import ListNotations.
Local Open Scope R_scope.

(** order two: the rule of Simpson *)
Lemma leg2 x : legendre 2 x = (3 * x ^ 2 - 1) / 2.
Proof. cbn. field. Qed.
Lemma half_pi : cos (INR 1 / INR 2 * PI) = 0.
Proof. replace (INR 1 / INR 2 * PI) with (PI / 2) by (cbn; field). apply cos_PI2. Qed.
Lemma dleg2 x : dleg 2 x = 3 * x.
Proof. cbn. field. Qed.
Lemma simpson eps : 0 < eps -> compute_Lobatto eps 2 = Some ([-1; 0; 1], [1 / 3; 4 / 3; 1 / 3]).
Proof.
  intros He. unfold compute_Lobatto. cbn [Nat.eqb Nat.sub seq map]. unfold interior. rewrite half_pi.
  rewrite root_kept; [|lia|exact He|lra|rewrite Derive_leg, dleg2; ring]. cbn [all_some app rev map]. unfold weight. rewrite !leg2.
  do 2 f_equal. replace (INR 2) with 2 by (cbn; ring). f_equal; [field|]. f_equal; [field|]. f_equal; field.
Qed.
(** order one: the trapezoidal rule *)
Lemma trapezoid eps : compute_Lobatto eps 1 = Some ([-1; 1], [1; 1]).
Proof. unfold compute_Lobatto. cbn [Nat.eqb Nat.sub seq map all_some app rev]. unfold weight. cbn [legendre INR]. do 2 f_equal. f_equal; [field|]. f_equal. field. Qed.
(** order three: 1/sqrt 5 is kept *)
Lemma order_three : let x := / sqrt 5 in -1 < x < 1 /\ Derive (legendre 3) x = 0.
Proof.
  cbv zeta. assert (H5 : sqrt 5 * sqrt 5 = 5) by (apply sqrt_sqrt; lra). assert (P5 : 2 < sqrt 5) by (rewrite <- (sqrt_Rsqr 2) by lra; apply sqrt_lt_1; unfold Rsqr; lra).
  assert (I5 : / sqrt 5 * / sqrt 5 = 1 / 5) by (rewrite <- Rinv_mult, H5; lra).
  assert (B : 0 < / sqrt 5 < 1). { split; [apply Rinv_0_lt_compat; lra|]. rewrite <- Rinv_1. apply Rinv_lt_contravar; lra. }
  split; [lra|]. rewrite Derive_leg. generalize dependent (/ sqrt 5). intros x I5 B. cbn. replace (x * x) with (1 / 5) by lra. nra.
Qed.
(** two directions *)
Lemma two_axes f : weighted (fst (quad_ndim_ravel [([-1; 1], [1; 1]); ([-1; 0; 1], [1 / 3; 4 / 3; 1 / 3])]))
    (snd (quad_ndim_ravel [([-1; 1], [1; 1]); ([-1; 0; 1], [1 / 3; 4 / 3; 1 / 3])])) f =
  (f [-1; -1] + 4 * f [-1; 0] + f [-1; 1] + f [1; -1] + 4 * f [1; 0] + f [1; 1]) / 3.
Proof. rewrite ravel_quadrature; [|discriminate|repeat constructor]. unfold nested, quad1, rsum. cbn. field. Qed.
(** a partition *)
Lemma thirds : exists n, cus_nodes [1 / 4; 1 / 2; 1 / 4] = Some n /\ n = [-1; - (1 / 2); 1 / 2; 1].
Proof.
  destruct (cus_exact [1 / 4; 1 / 2; 1 / 4]) as (n & H & L & A & B & D); [unfold rsum; cbn; lra|]. exists n. split; [exact H|].
  cbn [length] in *. destruct n as [|a [|b [|c [|d [|]]]]]; try discriminate L. cbn in A, B. pose proof (D 0%nat ltac:(lia)) as D0. pose proof (D 1%nat ltac:(lia)) as D1.
  cbn in D0, D1. repeat f_equal; lra.
Qed.
