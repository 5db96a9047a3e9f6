(** Series of derivations. *)
From Coq Require Import Ascii String Reals Lra Bool Arith Lia List Permutation.
From Verif Require Import WfModel WfSpec WfStr WfThms WfTerm.
Import ListNotations.
Local Open Scope list_scope.
Local Open Scope R_scope.

Section S.
  Context {T : Type} (efs : T -> list nat).

  Lemma same_residuals (v : T -> R) (w w' : wf T) :
    map (residual v) (wf_eqs w') = map (residual v) (wf_eqs w) -> solves v w <-> solves v w'.
  Proof.
    intro H. apply solves_by. intro i. apply (f_equal (fun l => nth_error l i)) in H. rewrite !nth_error_map in H.
    destruct (nth_error (wf_eqs w) i), (nth_error (wf_eqs w') i); cbn in H; try discriminate; [|exact Logic.I].
    injection H as H. rewrite H. tauto.
  Qed.

  Lemma derive_with_residuals (v : T -> R) (f : T -> option (side T)) w index w' :
    derive_with efs f w index = Some w' ->
    (forall sn t new, getitem w index = Some (sn, t) -> f t = Some new -> total v new = v t) ->
    map (residual v) (wf_eqs w') = map (residual v) (wf_eqs w).
  Proof.
    unfold derive_with. destruct (getitem w index) as [[sn t]|] eqn:G; [|discriminate].
    destruct (f t) as [new|] eqn:F; [|discriminate]. intros H V.
    specialize (V _ _ _ eq_refl F).
    assert (G' := G). apply getitem_some in G'. destruct G' as (i & k & e & -> & _).
    exact (replace_residuals efs v w w' i k sn t new H G V).
  Qed.

  Lemma derive_with_effect (f : T -> option (side T)) w i k w' :
    derive_with efs f w (index_of i k) = Some w' ->
    exists sn t new, getitem w (index_of i k) = Some (sn, t) /\ f t = Some new /\ replace efs w (index_of i k) new = Some w'.
  Proof.
    unfold derive_with. destruct (getitem w (index_of i k)) as [[sn t]|]; [|discriminate].
    destruct (f t) as [new|] eqn:F; [|discriminate]. intro H. exists sn, t, new. auto.
  Qed.

  Lemma rearrange_solves (v : T -> R) w w' req : rearrange efs w req = Some w' -> solves v w <-> solves v w'.
  Proof.
    intro H. apply rearrange_sound in H. destruct H as (_ & L & E). apply solves_by. intro i.
    destruct (nth_error (wf_eqs w) i) as [e|] eqn:N.
    - destruct (E i e N) as (e' & -> & _ & _ & R). rewrite R. tauto.
    - apply nth_error_None in N. rewrite <- L in N. apply nth_error_None in N. now rewrite N.
  Qed.

  Lemma switch_solves (v : T -> R) w w' rows : switch_sign efs w rows = Some w' -> solves v w <-> solves v w'.
  Proof.
    intro H. apply switch_sign_effect in H. destruct H as (_ & L & E). apply solves_by. intro i.
    destruct (nth_error (wf_eqs w) i) as [e|] eqn:N.
    - destruct (E i e N) as (e' & -> & _ & _ & R1 & R2).
      destruct (in_dec Nat.eq_dec i rows) as [In|NI]; [rewrite (R1 In v); lra | rewrite (R2 NI); tauto].
    - apply nth_error_None in N. rewrite <- L in N. apply nth_error_None in N. now rewrite N.
  Qed.

  Lemma merge_eqs (ws : list (wf T)) w : merge_wfs ws = Some w -> wf_eqs w = flat_map wf_eqs ws.
  Proof. unfold merge_wfs, new_wf. destruct (terms_of _); [discriminate|]. now intros [= <-]. Qed.

  Lemma merge_solves (v : T -> R) (ws : list (wf T)) w : merge_wfs ws = Some w ->
    solves v w <-> forall w', In w' ws -> solves v w'.
  Proof.
    intro H. apply merge_eqs in H. unfold solves. rewrite H. split.
    - intros S w' W e E. apply S, in_flat_map. eauto.
    - intros S e E. apply in_flat_map in E. destruct E as (w' & W & E). eauto.
  Qed.

  (** deleting *)
  Lemma delete_effect w i k w' : delete efs w (index_of i k) = Some w' ->
    exists e e' s t, nth_error (wf_eqs w) i = Some e /\ nth_error (wf_eqs w') i = Some e' /\
      on_left e k = Some (s, t) /\ gathered e' = firstn k (gathered e) ++ skipn (S k) (gathered e) /\
      forall v, residual v e' = residual v e - sg s * v t.
  Proof.
    intro H. apply replace_effect in H. destruct H as (_ & _ & _ & e & e' & s & t & E & E' & K & G & _ & R).
    exists e, e', s, t. split; [exact E|]. split; [exact E'|]. split; [exact K|]. split.
    - rewrite G. unfold put. now destruct s.
    - intro v. rewrite R. cbn [total]. lra.
  Qed.

  Lemma rearrange_written (w w' : wf T) req i e s l r :
    rearrange efs w req = Some w' -> nth_error (wf_eqs w) i = Some e -> request req i = Some s -> asks s l r ->
    let n := (length (fst e) + length (snd e))%nat in
    let '(l', r') := complete n l r in
    exists e', nth_error (wf_eqs w') i = Some e' /\ Permutation (l' ++ r') (seq 0 n) /\
      map_opt (on_left e) l' = Some (fst e') /\ map_opt (on_right e) r' = Some (snd e').
  Proof.
    unfold rearrange. destruct (forallb _ req); [|discriminate].
    destruct (rearrange_from w req 0 (wf_eqs w)) as [eqs|] eqn:F; [|discriminate].
    intros H E RQ A. apply derived_some in H. subst w'. cbn [wf_eqs].
    assert (N := rearrange_from_nth _ _ _ _ _ F i). rewrite E in N. destruct N as (e' & E' & M).
    cbn [Nat.add] in M. rewrite RQ in M.
    assert (Q := rearrange_eq_asks w i e s l r E A). cbv zeta in Q.
    destruct (complete _ l r) as [l' r']. destruct Q as [Q _]. destruct (Q e' M) as (_ & Q1 & Q2 & Q3).
    exists e'. auto.
  Qed.

  Lemma terms_perm (eqs eqs' : list (eqn T)) : length eqs' = length eqs ->
    (forall i e, nth_error eqs i = Some e -> exists e', nth_error eqs' i = Some e' /\ Permutation (gathered e') (gathered e)) ->
    forall t, In t (terms_of eqs') <-> In t (terms_of eqs).
  Proof.
    intros L H t. unfold terms_of. rewrite !in_flat_map.
    assert (G : forall (e : eqn T) t, In t (map snd (fst e ++ snd e)) <-> In t (map snd (gathered e))).
    { intros e u. unfold gathered. rewrite !map_app, map_map. reflexivity. }
    split; intros (e & E & I).
    - apply In_nth_error in E. destruct E as (i & E).
      destruct (nth_error eqs i) as [e0|] eqn:N.
      2:{ apply nth_error_None in N. assert (i < length eqs')%nat by (apply nth_error_Some; congruence). lia. }
      destruct (H i e0 N) as (e' & E' & P). assert (e' = e) by congruence. subst e'.
      exists e0. split; [now apply nth_error_In with i|]. apply G. apply G in I.
      apply (Permutation_in t (Permutation_map snd P)). exact I.
    - apply In_nth_error in E. destruct E as (i & E). destruct (H i e E) as (e' & E' & P).
      exists e'. split; [now apply nth_error_In with i|]. apply G. apply G in I.
      apply (Permutation_in t (Permutation_map snd (Permutation_sym P))). exact I.
  Qed.

  (** a rearrangement that asks for a permutation of the indices of each equation it mentions runs *)
  Lemma rearrange_runs (w : wf T) req :
    acceptable efs w (wf_eqs w) ->
    (forall x, In x req -> (fst x < length (wf_eqs w))%nat) ->
    (forall i e s, nth_error (wf_eqs w) i = Some e -> request req i = Some s ->
       exists l r, asks s l r /\ l ++ r <> [] /\
         let n := (length (fst e) + length (snd e))%nat in
         let '(l', r') := complete n l r in Permutation (l' ++ r') (seq 0 n)) ->
    exists w', rearrange efs w req = Some w'.
  Proof.
    intros AC K H. unfold rearrange.
    assert (F : forallb (fun x : nat * option string => fst x <? length (wf_eqs w))%nat req = true).
    { apply forallb_forall. intros x X. apply Nat.ltb_lt. now apply K. }
    rewrite F.
    destruct (rearrange_from_runs w req 0 (wf_eqs w)) as (eqs & E).
    { intros j e ri N R. cbn [Nat.add] in R. destruct (H j e ri N R) as (l & r & A & NE & P).
      assert (Q := rearrange_eq_asks w j e ri l r N A). cbv zeta in Q, P.
      destruct (complete _ l r) as [l' r']. now apply Q. }
    rewrite E. apply derived_iff.
    assert (NT := rearrange_from_nth _ _ _ _ _ E).
    assert (L : length eqs = length (wf_eqs w)).
    { clear -E. revert E. generalize 0%nat as i0. generalize (wf_eqs w) as es. intro es.
      revert eqs. induction es as [|e es IH]; cbn; intros eqs i0 H; [now injection H as <-|].
      destruct (match request req i0 with Some ri => _ | None => _ end); [|discriminate].
      destruct (rearrange_from w req (S i0) es) eqn:Q; [|discriminate]. injection H as <-. cbn. f_equal. eauto. }
    assert (TP : forall t, In t (terms_of eqs) <-> In t (terms_of (wf_eqs w))).
    { apply terms_perm; [exact L|]. intros i e N. specialize (NT i). rewrite N in NT.
      destruct NT as (e' & E' & M). exists e'. split; [exact E'|]. cbn [Nat.add] in M.
      destruct (request req i) as [ri|]; [|subst e'; reflexivity].
      destruct (rearrange_eq_sound efs _ _ _ _ _ N M) as (l & r & P & L1 & R1). exact (moved_gathered _ _ _ _ P L1 R1). }
    destruct AC as [A1 A2]. split.
    - destruct (terms_of (wf_eqs w)) as [|t ts] eqn:Q; [congruence|]. intro Z.
      assert (In t (terms_of eqs)) by (apply TP; now left). rewrite Z in H0. destruct H0.
    - intros us U. destruct (A2 us U) as [U1 U2]. split; [congruence|]. intros x X. destruct (U2 x X) as (t & T1 & T2).
      exists t. split; [now apply TP | exact T2].
  Qed.
End S.

Lemma apply_step_solves I s w st w' : apply_step w st = Some w' -> justified I s w st ->
  solves (value I s) w <-> solves (value I s) w'.
Proof.
  destruct st as [req|rows|index per drop|index o into signs factors|index cur tgt|index]; cbn [apply_step justified]; intros H J.
  - exact (rearrange_solves term_efs _ w w' req H).
  - exact (switch_solves term_efs _ w w' rows H).
  - destruct J as (G & C & N). apply same_residuals.
    apply (derive_with_residuals term_efs _ _ _ _ _ H). intros sn t new Q F.
    exact (by_parts_value I s t per drop new G C (N sn t Q) F).
  - apply same_residuals. apply (derive_with_residuals term_efs _ _ _ _ _ H). intros sn t new Q F.
    destruct (J sn t Q) as [J1 J2]. rewrite (split_keeps I s o into signs factors t new F J2), J1. lra.
  - destruct J as (TR & N). apply same_residuals. apply (derive_with_residuals term_efs _ _ _ _ _ H). intros sn t new Q F.
    exact (commute_value I s cur tgt t new TR (N sn t Q) F).
  - destruct J as (TR & N). apply same_residuals. apply (derive_with_residuals term_efs _ _ _ _ _ H). intros sn t new Q F.
    exact (to_duality_value I s t new TR (N sn t Q) F).
Qed.

Lemma derives_solves I s w w' : derives I s w w' -> solves (value I s) w <-> solves (value I s) w'.
Proof. induction 1 as [|w st w' w'' A J D IH]; [tauto|]. rewrite (apply_step_solves I s w st w' A J). exact IH. Qed.
