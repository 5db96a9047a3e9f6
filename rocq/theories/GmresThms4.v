(** The loop of the solvers. *)
From Coq Require Import List Arith ZArith Bool Reals Lia Lra FunctionalExtensionality.
From Verif Require Import GmresModel GmresSpec GmresSums GmresSerial GmresSerial2 GmresThms GmresThms2 GmresThms3.
Import ListNotations.
Local Open Scope R_scope.

Lemma last_app {X} (l1 l2 : list X) d : l2 <> [] -> last (l1 ++ l2) d = last l2 d.
Proof.
  intros N. induction l1 as [|a l1 IH]; [reflexivity|]. cbn [app]. destruct (l1 ++ l2) eqn:E; [|exact IH].
  apply app_eq_nil in E. destruct E as [_ ->]. contradiction.
Qed.
Lemma last_skipn {X} (l : list X) d : forall k, (k < length l)%nat -> last (skipn k l) d = last l d.
Proof.
  induction l as [|a l IH]; intros k K; [cbn in K; lia|]. destruct k as [|k]; [reflexivity|]. cbn [skipn]. cbn [length] in K.
  rewrite IH by lia. destruct l; [cbn in K; lia|reflexivity].
Qed.
Lemma rev_last {X} (l : list X) d : l <> [] -> exists t, rev l = last l d :: t.
Proof.
  intros N. destruct (exists_last N) as (t & a & ->). exists (rev t). rewrite rev_app_distr, last_app by discriminate. reflexivity.
Qed.

(** the verdict from the last two residuals *)
Definition judged (old beta atol : R) (ITER : nat) (m : maxit) : verdict :=
  match m with
  | Forced k => if (k <=? Z.of_nat ITER)%Z then Stop 2 (Z.of_nat ITER) else Go
  | Int k =>
      if rltb beta atol then Stop 1 0
      else if (k <=? Z.of_nat ITER)%Z then Stop 2 (Z.of_nat ITER)
      else if rltb old beta && rltb (100 * old) beta then Stop 3 (-1)
      else if rltb beta old && rltb ((old - beta) / old) (/ 1000000) then Stop 4 (Z.of_nat ITER)
      else Go
  end.
Definition before (B : option (list R)) (beta : R) : R := match B with None => beta | Some l => last l 0 end.
Lemma stop_judged B beta atol T m : (forall l, B = Some l -> l <> []) -> stop (new_betas B beta) atol T m = judged (before B beta) beta atol T m.
Proof.
  intros NE. unfold stop, judged. destruct m as [k|k]; [|destruct (k <=? Z.of_nat T)%Z; reflexivity].
  assert (exists t, rev (new_betas B beta) = beta :: before B beta :: t) as [t ->].
  { unfold new_betas. rewrite rev_app_distr. cbn [rev app]. destruct B as [l|]; cbn [before].
    - specialize (NE l eq_refl). destruct (Nat.ltb_spec 20 (length l)) as [L|L].
      + assert (skipn (length l - 2) l <> []) as N2.
        { intros C. apply (f_equal (@length R)) in C. rewrite skipn_length in C. cbn [length] in C. lia. }
        destruct (rev_last (firstn 1 l ++ skipn (length l - 2) l) 0) as [t E]; [intros C; apply app_eq_nil in C; tauto|].
        rewrite E, last_app by exact N2. rewrite last_skipn by lia. exists t. reflexivity.
      + destruct (rev_last l 0 NE) as [t ->]. exists t. reflexivity.
    - exists []. reflexivity. }
  assert (last (new_betas B beta) 0 = beta) as -> by (unfold new_betas; apply last_last).
  destruct (rltb beta atol); cbn [negb andb]; reflexivity.
Qed.
Lemma new_betas_some B beta : new_betas B beta <> [] /\ last (new_betas B beta) 0 = beta.
Proof. unfold new_betas. split; [intros C; apply app_eq_nil in C; destruct C; discriminate|apply last_last]. Qed.

Lemma rltb_true a c : rltb a c = true <-> a < c.
Proof. unfold rltb. destruct (Rlt_dec a c); split; intros; try assumption; try reflexivity; try discriminate; contradiction. Qed.
Lemma rltb_false a c : rltb a c = false <-> c <= a.
Proof. unfold rltb. destruct (Rlt_dec a c); split; intros; try reflexivity; try discriminate; lra. Qed.

Section Loop.
  Variable n : nat.
  Variable A : mat.
  Variable b : vec.
  Context {X : Type}.
  Variable xof : X -> vec.
  Variable next : nat -> X -> option X.
  Variable atol : R.
  Variable m : maxit.
  Variable s0 : X.
  Definition bet (s : X) : R := norm n (sres n A b (xof s)).
  Definition tr (g : nat -> X) (T : nat) : Prop := g 0%nat = s0 /\ forall i, (i < T)%nat -> next i (g i) = Some (g (S i)).
  Hypothesis MONO : forall g T, tr g T -> forall i, (i < T)%nat -> bet (g (S i)) <= bet (g i).

  Definition going (T : nat) (s : X) : Prop := match m with Int k => (Z.of_nat T < k)%Z /\ atol <= bet s | Forced k => (Z.of_nat T < k)%Z end.

  Lemma loop_result fuel : forall T B s g, tr g T -> g T = s ->
    (T = 0%nat -> B = None) -> ((0 < T)%nat -> exists l, B = Some l /\ l <> [] /\ last l 0 = bet (g (T - 1)%nat)) ->
    (T <= limit m)%nat ->
    match sloop n A b xof next atol m fuel T B s with
    | Diverged => False
    | Fuel => (fuel + T <= limit m)%nat
    | Failed => exists g T', tr g T' /\ going T' (g T') /\ next T' (g T') = None
    | Done x T' beta j info => exists g, tr g T' /\ x = xof (g T') /\ beta = bet (g T') /\ (T' <= limit m)%nat /\
        good_end n A b atol m (fun i => xof (g i)) T' j info
    end.
  Proof.
    induction fuel as [|fuel IH]; intros T B s g TR GS B0 B1 TL; cbn [sloop]; [exact TL|]. fold (bet s). set (beta := bet s).
    assert (NE : forall l, B = Some l -> l <> []).
    { intros l E. destruct (Nat.eq_dec T 0) as [T0|T0]; [rewrite (B0 T0) in E; discriminate|].
      destruct (B1 ltac:(lia)) as (l' & E' & N & _). congruence. }
    rewrite (stop_judged B beta atol T m NE).
    assert (OLD : (T = 0%nat /\ before B beta = beta) \/ ((0 < T)%nat /\ before B beta = bet (g (T - 1)%nat))).
    { destruct (Nat.eq_dec T 0) as [T0|T0]; [left; rewrite (B0 T0); auto|right].
      destruct (B1 ltac:(lia)) as (l' & -> & N & L). split; [lia|exact L]. }
    assert (DEC : beta <= before B beta).
    { destruct OLD as [[_ ->]|[T0 ->]]; [lra|]. unfold beta. rewrite <- GS. replace T with (S (T - 1)) at 1 by lia. apply (MONO g T TR). lia. }
    assert (LEN : len n (res n A b (xof (g T))) = beta) by (rewrite len_norm, res_eq; unfold beta, bet; rewrite GS; reflexivity).
    assert (LENP : len n (res n A b (xof (g (T - 1)%nat))) = bet (g (T - 1)%nat)) by (rewrite len_norm, res_eq; reflexivity).
    assert (GO : going T s -> match match next T s with Some s' => sloop n A b xof next atol m fuel (S T) (Some (new_betas B beta)) s' | None => Failed end with
      | Diverged => False
      | Fuel => (S fuel + T <= limit m)%nat
      | Failed => exists g T', tr g T' /\ going T' (g T') /\ next T' (g T') = None
      | Done x T' beta j info => exists g, tr g T' /\ x = xof (g T') /\ beta = bet (g T') /\ (T' <= limit m)%nat /\
          good_end n A b atol m (fun i => xof (g i)) T' j info
      end).
    { intros G. destruct (next T s) as [s'|] eqn:EN.
      - assert ((S T <= limit m)%nat) as TL'.
        { unfold going in G. unfold limit. destruct m; [destruct G as [G _]|]; lia. }
        assert (TR' : tr (fun i => if (i <=? T)%nat then g i else s') (S T)).
        { destruct TR as [G0 GI]. split; [exact G0|]. intros i I. replace (i <=? T)%nat with true by (symmetry; apply Nat.leb_le; lia).
          destruct (Nat.leb_spec (S i) T) as [L|L]; [apply GI; lia|]. assert (i = T) as -> by lia. rewrite GS. exact EN. }
        pose proof (IH (S T) (Some (new_betas B beta)) s' _ TR') as P. cbv beta in P.
        replace (S T <=? T)%nat with false in P by (symmetry; apply Nat.leb_gt; lia). specialize (P eq_refl).
        specialize (P ltac:(intros; lia)). destruct (new_betas_some B beta) as [NN NL].
        assert (Q : (0 < S T)%nat -> exists l, Some (new_betas B beta) = Some l /\ l <> [] /\ last l 0 = bet (if (S T - 1 <=? T)%nat then g (S T - 1)%nat else s')).
        { intros _. exists (new_betas B beta). split; [reflexivity|]. split; [exact NN|]. rewrite NL.
          replace (S T - 1)%nat with T by lia. rewrite Nat.leb_refl, GS. reflexivity. }
        specialize (P Q TL'). destruct (sloop n A b xof next atol m fuel (S T) (Some (new_betas B beta)) s'); try exact P. lia.
      - exists g, T. split; [exact TR|]. rewrite GS. split; [exact G|exact EN]. }
    unfold judged. unfold good_end, going in *. destruct m as [k|k] eqn:EM.
    - destruct (rltb beta atol) eqn:J1.
      { apply rltb_true in J1. cbn [Z.ltb Z.compare]. exists g. rewrite GS. split; [exact TR|]. split; [reflexivity|]. split; [reflexivity|]. split; [exact TL|]. left. rewrite <- GS, LEN. auto. }
      apply rltb_false in J1. destruct (Z.leb_spec k (Z.of_nat T)) as [J2|J2].
      { replace (Z.of_nat T <? 0)%Z with false by (symmetry; apply Z.ltb_ge; lia). exists g. rewrite GS. split; [exact TR|]. split; [reflexivity|]. split; [reflexivity|]. split; [exact TL|]. 
        right. left. rewrite <- GS, LEN. auto. }
      destruct (rltb (before B beta) beta) eqn:J3; [apply rltb_true in J3; lra|]. cbn [andb].
      destruct (rltb beta (before B beta) && rltb ((before B beta - beta) / before B beta) (/ 1000000)) eqn:J4.
      { apply andb_true_iff in J4. destruct J4 as [J4 J5]. apply rltb_true in J4, J5.
        destruct OLD as [[_ OE]|[T0 OE]]; [rewrite OE in J4; lra|]. rewrite OE in *.
        replace (Z.of_nat T <? 0)%Z with false by (symmetry; apply Z.ltb_ge; lia). exists g. rewrite GS. split; [exact TR|]. split; [reflexivity|].
        split; [reflexivity|]. split; [exact TL|]. right. right. rewrite <- GS, LEN, LENP.
        repeat split; try assumption. assert (0 <= beta) by apply norm_pos.
        apply (Rmult_lt_compat_l (bet (g (T - 1)%nat))) in J5; [|lra].
        replace (bet (g (T - 1)%nat) * ((bet (g (T - 1)%nat) - beta) / bet (g (T - 1)%nat))) with (bet (g (T - 1)%nat) - beta) in J5 by (field; lra). lra. }
      apply GO. split; [exact J2|exact J1].
    - destruct (Z.leb_spec k (Z.of_nat T)) as [J2|J2].
      { replace (Z.of_nat T <? 0)%Z with false by (symmetry; apply Z.ltb_ge; lia). exists g. rewrite GS. split; [exact TR|]. split; [reflexivity|]. split; [reflexivity|]. split; [exact TL|]. auto. }
      apply GO. exact J2.
  Qed.
End Loop.
