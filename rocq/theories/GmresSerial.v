(** The solvers on many ranks do what a serial algorithm does. *)
From Coq Require Import List Arith ZArith Bool Reals Lia Lra FunctionalExtensionality.
From Verif Require Import GmresModel GmresSpec GmresSums.
Import ListNotations.
Local Open Scope R_scope.

(** ** the serial algorithm *)
Section Serial.
  Variable n : nat.
  Variable A : mat.
  Variable b : vec.
  Variable linsolve : nat -> mat -> vec -> option vec.
  Notation VH := ((nat -> vec) * mat)%type.

  Definition hatv (j : nat) (a : vec) (V : nat -> vec) : vec := fun l => a l - rsum (S j) (fun i => dot n a (V i) * V i l).
  Definition newH (j : nat) (a : vec) (V : nat -> vec) (H : mat) : mat :=
    fun i k => if (k =? j)%nat then if (i <=? j)%nat then dot n a (V i) else if (i =? S j)%nat then norm n (hatv j a V) else H i k else H i k.
  Definition newV (j : nat) (a : vec) (V : nat -> vec) : nat -> vec :=
    fun i => if (i =? S j)%nat then (fun l => hatv j a V l / norm n (hatv j a V)) else V i.
  Definition sstep (R j : nat) (a : vec) (q : VH) : option VH :=
    let '(V, H) := q in
    if (j <? R - 1)%nat then if Req_EM_T (norm n (hatv j a V)) 0 then None else Some (newV j a V, newH j a V H)
    else if (j =? 0)%nat then None else Some (V, newH j a V H).
  (** [Z j]: the direction of step j if it is one of the added ones *)
  Definition dir (m : nat) (Z : nat -> vec) (V : nat -> vec) : nat -> vec := fun j => if (j <? m)%nat then V j else Z j.
  Fixpoint ssteps (R m : nat) (Z : nat -> vec) (js : list nat) (q : VH) : option VH :=
    match js with
    | [] => Some q
    | j :: js' => match sstep R j (mv n A (dir m Z (fst q) j)) q with Some q' => ssteps R m Z js' q' | None => None end
    end.
  Definition sres (x : vec) : vec := fun i => b i - mv n A x i.
  Definition sround (R m : nat) (Z : nat -> vec) (x : vec) (q : VH) : option (vec * VH) :=
    let r := sres x in
    let beta := norm n r in
    if Req_EM_T beta 0 then None
    else match ssteps R m Z (seq 0 R) ((fun i => if (i =? 0)%nat then (fun l => r l / beta) else fst q i), snd q) with
         | None => None
         | Some (V, H) =>
             match coefficients linsolve R beta H with
             | None => None
             | Some y => Some ((fun l => rsum R (fun j => y j * dir m Z V j l)), (V, H))
             end
         end.
End Serial.

(** ** lists of the ranks *)
Lemma mem_In i l : mem i l = true <-> In i l.
Proof.
  unfold mem. rewrite existsb_exists. split.
  - intros (x & X & E). apply Nat.eqb_eq in E. subst. exact X.
  - intros I. exists i. split; [exact I|apply Nat.eqb_refl].
Qed.
Lemma until_app j l1 l2 : (forall i, In i l1 -> (i <= j)%nat) -> (forall i, In i l2 -> (j < i)%nat) -> until j (l1 ++ l2) = l1.
Proof.
  intros H G. induction l1 as [|a l IH]; cbn [app until].
  - destruct l2 as [|c l2]; [reflexivity|]. cbn [until]. destruct (c <=? j)%nat eqn:E; [|reflexivity].
    apply Nat.leb_le in E. specialize (G c (or_introl eq_refl)). lia.
  - assert (a <= j)%nat as L by (apply H; left; reflexivity). apply Nat.leb_le in L. rewrite L, IH; [reflexivity|].
    intros i I. apply H. right. exact I.
Qed.
Lemma until_local SIZE R j r : (j < R)%nat -> until j (local_ind SIZE R r) = filter (fun i => (i mod SIZE =? r)%nat) (seq 0 (S j)).
Proof.
  intros J. unfold local_ind. replace R with (S j + (R - S j))%nat at 1 by lia. rewrite seq_app, filter_app. apply until_app.
  - intros i I. apply filter_In in I. destruct I as [I _]. apply in_seq in I. lia.
  - intros i I. apply filter_In in I. destruct I as [I _]. apply in_seq in I. lia.
Qed.
Lemma mem_until SIZE R j r i : (j < R)%nat -> mem i (until j (local_ind SIZE R r)) = (i <=? j)%nat && (i mod SIZE =? r)%nat.
Proof.
  intros J. apply eq_true_iff_eq. rewrite mem_In, until_local, filter_In, in_seq, andb_true_iff, Nat.leb_le by exact J. intuition lia.
Qed.
Lemma mem_local SIZE R r i : (i < R)%nat -> mem i (local_ind SIZE R r) = (i mod SIZE =? r)%nat.
Proof. intros J. apply eq_true_iff_eq. unfold local_ind. rewrite mem_In, filter_In, in_seq. intuition lia. Qed.
Lemma fold_sum_filter (p : nat -> bool) (g : nat -> R) k : forall c,
  fold_left (fun acc i => acc + g i) (filter p (seq 0 k)) c = c + rsum k (fun i => if p i then g i else 0).
Proof.
  induction k; intros c; [cbn; lra|]. rewrite seq_S, filter_app, fold_left_app, IHk. cbn [filter Nat.add rsum].
  destruct (p k); cbn [fold_left]; lra.
Qed.

(** ** a step *)
Section Ranks.
  Variable n SIZE : nat.
  Variable Ar : nat -> mat.
  Variable fr : nat -> vec.
  Variable linsolve : nat -> mat -> vec -> option vec.
  Variable A : mat.
  Variable b : vec.
  Hypothesis HS : (0 < SIZE)%nat.
  Hypothesis HA : forall i j, rsum SIZE (fun r => Ar r i j) = A i j.
  Hypothesis Hb : forall i, rsum SIZE (fun r => fr r i) = b i.

  Definition supp (s : st) : Prop :=
    forall r i k, ~ (r = 0%nat /\ i = S k) -> ~ ((i <= k)%nat /\ (i mod SIZE = r)%nat) -> Hm s r i k = 0.
  Definition held (j : nat) (s : st) : Prop :=
    (forall r i, r <> 0%nat -> (i < j)%nat -> (i mod SIZE = r)%nat -> Vs s r i = Vm s i) /\ cur s = Vm s j.

  Lemma reduce_mv x : reduce SIZE (fun r => mv n (Ar r) x) = mv n A x.
  Proof.
    apply functional_extensionality. intros i. unfold reduce, mv. rewrite rsum_swap. apply rsum_ext. intros j J.
    rewrite rsum_mul_r, HA. reflexivity.
  Qed.
  Lemma residual_sres x : residual n SIZE Ar fr x = sres n A b x.
  Proof.
    unfold residual, sres. apply functional_extensionality. intros i. unfold reduce. rewrite rsum_sub, Hb. f_equal.
    change (reduce SIZE (fun r => mv n (Ar r) x) i = mv n A x i). rewrite reduce_mv. reflexivity.
  Qed.
  Lemma times_current_mv j s : cur s = Vm s j -> reduce SIZE (times_current n Ar j s) = mv n A (Vm s j).
  Proof.
    intros E. rewrite <- reduce_mv. f_equal. apply functional_extensionality. intros r. unfold times_current. rewrite E.
    destruct (r =? 0)%nat; reflexivity.
  Qed.

  Lemma step_serial R j Avj s : (j < R)%nat -> supp s -> held j s ->
    match sstep n R j (reduce SIZE Avj) (Vm s, combined SIZE s) with
    | None => step n SIZE R j Avj s = None
    | Some (V, H) => exists s', step n SIZE R j Avj s = Some s' /\ Vm s' = V /\ combined SIZE s' = H /\ supp s' /\
                                ((S j < R)%nat -> held (S j) s')
    end.
  Proof.
    intros J SU [HE HC]. set (AVJ := reduce SIZE Avj).
    set (Vs' := fun r i => if negb (r =? 0)%nat && mem j (local_ind SIZE R r) && (i =? j)%nat then cur s else Vs s r i).
    set (row := fun r i => if (r =? 0)%nat then Vm s i else Vs' r i).
    assert (ROW : forall i, (i <= j)%nat -> row (i mod SIZE)%nat i = Vm s i).
    { intros i I. unfold row. destruct (i mod SIZE =? 0)%nat eqn:E0; [reflexivity|]. unfold Vs'. rewrite E0, (mem_local SIZE R _ j J).
      destruct (i =? j)%nat eqn:Eij.
      - apply Nat.eqb_eq in Eij. subst i. rewrite Nat.eqb_refl. cbn. exact HC.
      - rewrite andb_false_r. apply Nat.eqb_neq in Eij, E0. apply HE; [exact E0|lia|reflexivity]. }
    assert (HAT : (fun l => AVJ l - reduce SIZE (fun r l => fold_left (fun acc i => acc + dot n AVJ (row r i) * row r i l)
                     (until j (local_ind SIZE R r)) 0) l) = hatv n j AVJ (Vm s)).
    { apply functional_extensionality. intros l. unfold hatv. f_equal. unfold reduce.
      rewrite (rsum_ext SIZE _ (fun r => rsum (S j) (fun i => if (i mod SIZE =? r)%nat then dot n AVJ (row r i) * row r i l else 0))).
      - rewrite rsum_swap. apply rsum_ext. intros i I. rewrite (rsum_one SIZE _ (i mod SIZE)).
        + rewrite Nat.eqb_refl, ROW by lia. reflexivity.
        + apply Nat.mod_upper_bound. lia.
        + intros r _ N. destruct (i mod SIZE =? r)%nat eqn:E; [apply Nat.eqb_eq in E; congruence|reflexivity].
      - intros r _. rewrite until_local by exact J. rewrite fold_sum_filter. lra. }
    assert (EQ : forall hat, hat = (fun l => AVJ l - reduce SIZE (fun r l => fold_left (fun acc i => acc + dot n AVJ (row r i) * row r i l)
                     (until j (local_ind SIZE R r)) 0) l) ->
      step n SIZE R j Avj s =
      let Hm' := fun r i k => if (r =? 0)%nat && (i =? S j)%nat && (k =? j)%nat then norm n hat
                 else if (k =? j)%nat && mem i (until j (local_ind SIZE R r)) then dot n AVJ (row r i) else Hm s r i k in
      if (j <? R - 1)%nat then
        if Req_EM_T (norm n hat) 0 then None
        else Some (mk_st (fun i => if (i =? S j)%nat then (fun l => hat l / norm n hat) else Vm s i) Vs' (fun l => hat l / norm n hat) Hm')
      else if (j =? 0)%nat then None else Some (mk_st (Vm s) Vs' (cur s) Hm')) by (intros hat ->; reflexivity).
    rewrite (EQ _ (eq_sym HAT)). clear EQ. cbv zeta.
    set (Hm' := fun r i k => if (r =? 0)%nat && (i =? S j)%nat && (k =? j)%nat then norm n (hatv n j AVJ (Vm s))
                 else if (k =? j)%nat && mem i (until j (local_ind SIZE R r)) then dot n AVJ (row r i) else Hm s r i k).
    assert (COMB : forall V w c, combined SIZE (mk_st V w c Hm') = newH n j AVJ (Vm s) (combined SIZE s)).
    { intros V w c. apply functional_extensionality. intros i. apply functional_extensionality. intros k. unfold combined, newH. cbn [Hm].
      destruct (k =? j)%nat eqn:K.
      2:{ apply rsum_ext. intros r _. unfold Hm'. rewrite K, andb_false_r. reflexivity. }
      apply Nat.eqb_eq in K. subst k. destruct (i <=? j)%nat eqn:I.
      - apply Nat.leb_le in I. rewrite (rsum_one SIZE _ (i mod SIZE)).
        + unfold Hm'. replace (i =? S j)%nat with false by (symmetry; apply Nat.eqb_neq; lia). rewrite andb_false_r, Nat.eqb_refl. cbn [andb].
          rewrite mem_until by exact J. rewrite (proj2 (Nat.leb_le i j) I), Nat.eqb_refl. cbn [andb]. rewrite ROW by exact I. reflexivity.
        + apply Nat.mod_upper_bound. lia.
        + intros r _ N. unfold Hm'. replace (i =? S j)%nat with false by (symmetry; apply Nat.eqb_neq; lia).
          rewrite andb_false_r, Nat.eqb_refl. cbn [andb]. rewrite mem_until by exact J.
          replace (i mod SIZE =? r)%nat with false by (symmetry; apply Nat.eqb_neq; congruence). rewrite andb_false_r.
          apply SU; [lia|intros [_ M]; congruence].
      - apply Nat.leb_gt in I. destruct (i =? S j)%nat eqn:E.
        + apply Nat.eqb_eq in E. subst i. rewrite (rsum_one SIZE _ 0 HS).
          * unfold Hm'. rewrite !Nat.eqb_refl. reflexivity.
          * intros r _ N. unfold Hm'. replace (r =? 0)%nat with false by (symmetry; apply Nat.eqb_neq; exact N). cbn [andb].
            rewrite mem_until by exact J. replace (S j <=? j)%nat with false by (symmetry; apply Nat.leb_gt; lia). rewrite andb_false_r.
            apply SU; [intros [? _]; lia|intros [? _]; lia].
        + apply rsum_ext. intros r _. unfold Hm'. rewrite E, andb_false_r. cbn [andb]. rewrite mem_until by exact J.
          replace (i <=? j)%nat with false by (symmetry; apply Nat.leb_gt; lia). rewrite andb_false_r. reflexivity. }
    assert (SU' : forall V w c, supp (mk_st V w c Hm')).
    { intros V w c r i k N1 N2. cbn [Hm]. unfold Hm'.
      destruct ((r =? 0)%nat && (i =? S j)%nat && (k =? j)%nat) eqn:E1.
      - exfalso. apply N1. rewrite !andb_true_iff, !Nat.eqb_eq in E1. destruct E1 as [[-> ->] ->]. split; reflexivity.
      - destruct ((k =? j)%nat && mem i (until j (local_ind SIZE R r))) eqn:E2; [|apply SU; assumption].
        exfalso. apply N2. rewrite mem_until in E2 by exact J. rewrite !andb_true_iff, !Nat.eqb_eq, Nat.leb_le in E2.
        destruct E2 as [-> [L M]]. split; assumption. }
    cbn [sstep]. destruct (j <? R - 1)%nat eqn:JR.
    - destruct (Req_EM_T (norm n (hatv n j AVJ (Vm s))) 0) as [Z|Z]; [reflexivity|].
      eexists. split; [reflexivity|]. split; [reflexivity|]. split; [apply COMB|]. split; [apply SU'|].
      intros _. split.
      + intros r i R0 I M. cbn [Vs Vm]. replace (i =? S j)%nat with false by (symmetry; apply Nat.eqb_neq; lia).
        rewrite <- (ROW i) by lia. rewrite M. unfold row. replace (r =? 0)%nat with false by (symmetry; apply Nat.eqb_neq; exact R0). reflexivity.
      + cbn [cur Vm]. rewrite Nat.eqb_refl. reflexivity.
    - destruct (j =? 0)%nat; [reflexivity|].
      eexists. split; [reflexivity|]. split; [reflexivity|]. split; [apply COMB|]. split; [apply SU'|].
      intros C. apply Nat.ltb_ge in JR. lia.
  Qed.

  Lemma begin_keeps v0 s : supp s -> supp (begin SIZE v0 s) /\ held 0 (begin SIZE v0 s) /\ combined SIZE (begin SIZE v0 s) = combined SIZE s.
  Proof.
    intros H. split; [exact H|]. split; [|reflexivity]. split; [intros; lia|reflexivity].
  Qed.

  (** ** gmres *)
  Lemma steps_serial R k : forall j s, (j + k = R)%nat -> supp s -> (j < R -> held j s)%nat ->
    match ssteps n A R R (fun _ _ => 0) (seq j k) (Vm s, combined SIZE s) with
    | None => steps n SIZE Ar R (seq j k) s = None
    | Some (V, H) => exists s', steps n SIZE Ar R (seq j k) s = Some s' /\ Vm s' = V /\ combined SIZE s' = H /\ supp s'
    end.
  Proof.
    induction k as [|k IH]; intros j s E SU HE.
    - cbn [seq ssteps steps]. exists s. repeat split. exact SU.
    - cbn [seq ssteps steps fst]. unfold dir at 1. replace (j <? R)%nat with true by (symmetry; apply Nat.ltb_lt; lia).
      assert (held j s) as HJ by (apply HE; lia).
      rewrite <- (times_current_mv j s (proj2 HJ)).
      pose proof (step_serial R j (times_current n Ar j s) s ltac:(lia) SU HJ) as P.
      destruct (sstep n R j _ _) as [[V H]|]; [|rewrite P; reflexivity].
      destruct P as (s' & -> & <- & <- & SU' & HE'). apply IH; [lia|exact SU'|exact HE'].
  Qed.

  Lemma round_serial R x s : supp s ->
    match sround n A b linsolve R R (fun _ _ => 0) x (Vm s, combined SIZE s) with
    | None => round n SIZE Ar fr linsolve R (x, s) = None
    | Some (d, (V, H)) => exists s', round n SIZE Ar fr linsolve R (x, s) = Some ((fun l => x l + d l), s') /\ Vm s' = V /\
                                     combined SIZE s' = H /\ supp s'
    end.
  Proof.
    intros SU. unfold round, sround. rewrite residual_sres. cbn [fst snd].
    destruct (Req_EM_T (norm n (sres n A b x)) 0) as [Z|Z]; [reflexivity|].
    set (v0 := fun l => sres n A b x l / norm n (sres n A b x)).
    destruct (begin_keeps v0 s SU) as (S0 & H0 & C0).
    pose proof (steps_serial R R 0 (begin SIZE v0 s) eq_refl S0 (fun _ => H0)) as P. rewrite C0 in P. cbn [begin Vm] in P.
    destruct (ssteps n A R R _ _ _) as [[V H]|]; [|fold v0; rewrite P; reflexivity].
    destruct P as (s' & E & EV & EH & SU'). fold v0. rewrite E, EH.
    destruct (coefficients linsolve R (norm n (sres n A b x)) H) as [y|]; [|reflexivity].
    exists s'. repeat split; try assumption. f_equal. f_equal. apply functional_extensionality. intros l. f_equal. apply rsum_ext. intros j J.
    unfold dir. replace (j <? R)%nat with true by (symmetry; apply Nat.ltb_lt; lia). rewrite EV. reflexivity.
  Qed.
End Ranks.
