(** What the derivations of a weak formulation do to its equations. *)
From Coq Require Import Ascii String Reals Lra Bool Arith Lia List Permutation.
From Verif Require Import WfModel WfSpec WfStr.
Import ListNotations.
Local Open Scope list_scope.
Local Open Scope nat_scope.

Section D.
  Context {T : Type}.
  Implicit Types (e : eqn T) (eqs : list (eqn T)).

  (* ---------------------------------------------- indices *)

  Lemma sget_app {V} s (a b : list (string * V)) :
    sget s (a ++ b) = match sget s a with Some v => Some v | None => sget s b end.
  Proof. induction a as [|[k v] a IH]; cbn; [reflexivity|]. destruct (String.eqb s k); [reflexivity | exact IH]. Qed.

  Lemma sget_in {V} s (a : list (string * V)) v : sget s a = Some v -> In (s, v) a.
  Proof.
    induction a as [|[k u] a IH]; cbn; [discriminate|].
    destruct (String.eqb_spec s k); [intros [= <-]; subst; now left | intro H; right; auto].
  Qed.

  Lemma index_terms_get i k0 (l : side T) k : sget (index_of i (k0 + k)) (index_terms i k0 l) = nth_error l k.
  Proof.
    revert k0 k. induction l as [|t l IH]; intros k0 k; cbn; [now destruct k|].
    destruct (String.eqb_spec (index_of i (k0 + k)) (index_of i k0)) as [E|E].
    - apply index_inj in E. assert (k = 0) by lia. now subst k.
    - destruct k as [|k]; [rewrite Nat.add_0_r in E; congruence|].
      cbn. rewrite <- (IH (S k0) k). f_equal. f_equal. lia.
  Qed.

  Lemma index_terms_other i j k0 (l : side T) k : i <> j -> sget (index_of i k) (index_terms j k0 l) = None.
  Proof.
    intro N. revert k0. induction l as [|t l IH]; intro k0; cbn; [reflexivity|].
    destruct (String.eqb_spec (index_of i k) (index_of j k0)) as [E|E]; [|apply IH].
    apply index_inj in E. tauto.
  Qed.

  Lemma index_terms_in s i k0 (l : side T) x : In (s, x) (index_terms i k0 l) ->
    exists k, s = index_of i (k0 + k) /\ nth_error l k = Some x.
  Proof.
    revert k0. induction l as [|t l IH]; intro k0; cbn; [tauto|].
    intros [[= <- <-]|H]; [exists 0; rewrite Nat.add_0_r; auto|].
    destruct (IH (S k0) H) as (k & -> & E). exists (S k). split; [f_equal; lia | exact E].
  Qed.

  Lemma indexing_get i0 eqs j k :
    sget (index_of (i0 + j) k) (indexing i0 eqs)
    = match nth_error eqs j with Some e => nth_error (fst e ++ snd e) k | None => None end.
  Proof.
    revert i0 j. induction eqs as [|e eqs IH]; intros i0 j; cbn [indexing nth_error]; [now destruct j|].
    rewrite sget_app. destruct j as [|j].
    - rewrite Nat.add_0_r. cbn [nth_error]. assert (X := index_terms_get i0 0 (fst e ++ snd e) k).
      cbn [Nat.add] in X. rewrite X.
      destruct (nth_error (fst e ++ snd e) k); [reflexivity|].
      destruct (sget (index_of i0 k) (indexing (S i0) eqs)) eqn:E; [|reflexivity].
      exfalso. revert E. clear. generalize (S i0) (Nat.lt_succ_diag_r i0).
      induction eqs as [|e eqs IH]; intros i1 L; cbn; [discriminate|].
      rewrite sget_app, index_terms_other by lia. apply IH. lia.
    - rewrite index_terms_other by lia. replace (i0 + S j) with (S i0 + j) by lia. apply IH.
  Qed.

  Lemma indexing_in s i0 eqs x : In (s, x) (indexing i0 eqs) ->
    exists j k e, s = index_of (i0 + j) k /\ nth_error eqs j = Some e /\ nth_error (fst e ++ snd e) k = Some x.
  Proof.
    revert i0. induction eqs as [|e eqs IH]; intro i0; cbn; [tauto|].
    rewrite in_app_iff. intros [H|H].
    - destruct (index_terms_in _ _ _ _ _ H) as (k & -> & E). exists 0, k, e. rewrite Nat.add_0_r. auto.
    - destruct (IH (S i0) H) as (j & k & e' & -> & E1 & E2).
      exists (S j), k, e'. split; [f_equal; lia | auto].
  Qed.

  Lemma getitem_at (w : wf T) i k :
    getitem w (index_of i k) = match nth_error (wf_eqs w) i with Some e => nth_error (fst e ++ snd e) k | None => None end.
  Proof. exact (indexing_get 0 (wf_eqs w) i k). Qed.

  Lemma getitem_some (w : wf T) s x : getitem w s = Some x <->
    exists i k e, s = index_of i k /\ nth_error (wf_eqs w) i = Some e /\ nth_error (fst e ++ snd e) k = Some x.
  Proof.
    split.
    - intro H. apply sget_in, indexing_in in H. exact H.
    - intros (i & k & e & -> & E1 & E2). rewrite getitem_at, E1. exact E2.
  Qed.

  Lemma parse_at (w : wf T) i k e : nth_error (wf_eqs w) i = Some e ->
    parse_index w (index_of i k) = if k <? length (fst e) then Some (i, true, k) else Some (i, false, k - length (fst e)).
  Proof.
    intro E. unfold parse_index, index_of. rewrite split_index, split_free by now apply dec_count.
    now rewrite !to_int_dec, E.
  Qed.

  Lemma nth_error_ext {A} (a b : list A) : (forall j, nth_error a j = nth_error b j) -> a = b.
  Proof.
    revert b. induction a as [|x a IH]; intros [|y b] H; [reflexivity | now specialize (H 0) | now specialize (H 0)|].
    f_equal; [specialize (H 0); cbn in H; congruence | apply IH; intro j; exact (H (S j))].
  Qed.

  (* ---------------------------------------------- residuals *)

  Local Open Scope R_scope.
  Implicit Types v : T -> R.

  Lemma total_app v (a b : side T) : total v (a ++ b) = total v a + total v b.
  Proof. induction a as [|[s t] a IH]; cbn; [lra|]. rewrite IH. lra. Qed.

  Lemma sg_switch s : sg (switch s) = - sg s.
  Proof. destruct s; cbn; lra. Qed.

  Lemma total_switch v (a : side T) : total v (map (fun st => (switch (fst st), snd st)) a) = - total v a.
  Proof. induction a as [|[s t] a IH]; cbn; [lra|]. rewrite IH, sg_switch. lra. Qed.

  Lemma residual_gathered v e : residual v e = total v (gathered e).
  Proof. unfold residual, gathered. rewrite total_app, total_switch. lra. Qed.

  Lemma total_perm v (a b : side T) : Permutation a b -> total v a = total v b.
  Proof.
    induction 1 as [|[s t] a b P IH|[s t] [s' t'] a|a b c P1 IH1 P2 IH2]; cbn; lra.
  Qed.

  Lemma switch_switch s : switch (switch s) = s.
  Proof. now destruct s. Qed.

  Lemma total_put v (a new : side T) k s t : nth_error a k = Some (s, t) ->
    total v (put a k new) = total v a - sg s * v t + total v new.
  Proof.
    intro H. destruct (nth_error_split _ _ H) as (a1 & a2 & -> & L). unfold put.
    assert (F : firstn k (a1 ++ (s, t) :: a2) = a1).
    { rewrite <- L. rewrite firstn_app, firstn_all, Nat.sub_diag. cbn. apply app_nil_r. }
    assert (K : skipn (S k) (a1 ++ (s, t) :: a2) = a2).
    { rewrite <- L. replace (S (length a1)) with (length a1 + 1)%nat by lia.
      rewrite skipn_app, skipn_all2 by lia. replace (length a1 + 1 - length a1)%nat with 1%nat by lia. reflexivity. }
    rewrite F, K, !total_app. cbn. lra.
  Qed.

  Local Open Scope nat_scope.

  Lemma put_nth_same {A} (l : list A) i x y : nth_error l i = Some x -> nth_error (put l i [y]) i = Some y.
  Proof.
    intro H. assert (L : i < length l) by (apply nth_error_Some; congruence).
    unfold put. rewrite nth_error_app2 by (rewrite firstn_length; lia).
    rewrite firstn_length. replace (i - Nat.min i (length l)) with 0 by lia. reflexivity.
  Qed.

  Lemma put_nth_other {A} (l : list A) i j x y : nth_error l i = Some x -> j <> i -> nth_error (put l i [y]) j = nth_error l j.
  Proof.
    intros H N. destruct (nth_error_split _ _ H) as (a1 & a2 & -> & L). unfold put. subst i.
    rewrite firstn_app, firstn_all, Nat.sub_diag. cbn [firstn].
    replace (S (length a1)) with (length a1 + 1) by lia. rewrite skipn_app, skipn_all2 by lia.
    replace (length a1 + 1 - length a1) with 1 by lia. cbn [skipn app]. rewrite app_nil_r.
    destruct (lt_dec j (length a1)) as [L|L].
    - now rewrite !nth_error_app1.
    - rewrite !nth_error_app2 by lia. destruct (j - length a1) eqn:E; [lia | reflexivity].
  Qed.

  Lemma put_app_left {A} (a b new : list A) k : k < length a -> put (a ++ b) k new = put a k new ++ b.
  Proof.
    intro L. unfold put. rewrite firstn_app, skipn_app.
    replace (k - length a) with 0 by lia. replace (S k - length a) with 0 by lia.
    cbn. now rewrite app_nil_r, <- !app_assoc.
  Qed.
  Lemma put_app_right {A} (a b new : list A) k : length a <= k -> put (a ++ b) k new = a ++ put b (k - length a) new.
  Proof.
    intro L. unfold put. rewrite firstn_app, skipn_app, firstn_all2, skipn_all2 by lia.
    replace (S k - length a) with (S (k - length a)) by lia. cbn [app]. now rewrite <- app_assoc.
  Qed.

  (* ---------------------------------------------- the ends of the derivations *)

  Variable efs : T -> list nat.

  Lemma derived_some (w : wf T) eqs w' : derived efs w eqs = Some w' -> w' = mkWf eqs (wf_unknowns w).
  Proof.
    unfold derived, new_wf. destruct (terms_of eqs); [discriminate|].
    unfold set_unknowns. cbn [wf_unknowns wf_eqs]. destruct (wf_unknowns w); [|congruence].
    destruct (_ && _); congruence.
  Qed.

  Lemma derived_iff (w : wf T) eqs : (exists w', derived efs w eqs = Some w') <-> acceptable efs w eqs.
  Proof.
    unfold derived, new_wf, acceptable. destruct (terms_of eqs) as [|t0 ts] eqn:E.
    { split; [intros (w' & H); discriminate | intros [H _]; congruence]. }
    unfold set_unknowns. cbn [wf_unknowns wf_eqs]. destruct (wf_unknowns w) as [us|].
    2:{ split; [intros _; split; [congruence | discriminate] | intros _; eauto]. }
    rewrite E. destruct ((length us =? length eqs) && _) eqn:B.
    - apply andb_true_iff in B. destruct B as [B1 B2]. apply Nat.eqb_eq in B1. rewrite forallb_forall in B2.
      split; [intros _ | eauto]. split; [congruence|]. intros us' [= <-]. split; [exact B1|].
      intros x Hx. specialize (B2 x Hx). apply existsb_exists in B2. destruct B2 as (y & Hy & Q).
      apply Nat.eqb_eq in Q. subst y. apply in_flat_map in Hy. exact Hy.
    - split; [intros (w' & H); discriminate|]. intros [_ H]. exfalso.
      destruct (H us eq_refl) as [H1 H2]. apply andb_false_iff in B. destruct B as [B|B].
      + apply Nat.eqb_neq in B. congruence.
      + rewrite <- not_true_iff_false in B. apply B. apply forallb_forall. intros x Hx.
        apply existsb_exists. exists x. split; [|apply Nat.eqb_refl]. apply in_flat_map. now apply H2.
  Qed.

  (* ---------------------------------------------- replace *)

  Lemma signed_total v old new : (total v (signed old new) = sg old * total v new)%R.
  Proof. destruct old; cbn [signed sg]; [lra | rewrite total_switch; lra]. Qed.

  Lemma replace_at (w : wf T) i k new :
    replace efs w (index_of i k) new
    = match nth_error (wf_eqs w) i with
      | Some e => match nth_error (fst e ++ snd e) k with
                  | Some (old, _) => derived efs w (put (wf_eqs w) i [eq_put e k (signed old new)])
                  | None => None
                  end
      | None => None
      end.
  Proof.
    unfold replace. destruct (nth_error (wf_eqs w) i) as [e|] eqn:E.
    - rewrite (parse_at w i k e E). unfold eq_put. destruct (Nat.ltb_spec k (length (fst e))) as [L|L].
      + rewrite E, nth_error_app1 by exact L. destruct (nth_error (fst e) k) as [[old t]|]; reflexivity.
      + rewrite E, nth_error_app2 by exact L. destruct (nth_error (snd e) (k - length (fst e))) as [[old t]|]; reflexivity.
    - unfold parse_index, index_of. rewrite split_index, split_free by now apply dec_count.
      now rewrite !to_int_dec, E.
  Qed.

  Lemma eq_put_gathered e k s t new : nth_error (fst e ++ snd e) k = Some (s, t) ->
    exists s0, nth_error (gathered e) k = Some (s0, t) /\
      gathered (eq_put e k (signed s new)) = put (gathered e) k (signed s0 new).
  Proof.
    intro H. unfold eq_put, gathered. destruct (Nat.ltb_spec k (length (fst e))) as [L|L]; cbn [fst snd].
    - exists s. rewrite nth_error_app1 in * by exact L. split; [exact H|]. now rewrite put_app_left.
    - exists (switch s). rewrite nth_error_app2 in * by lia. rewrite nth_error_map, H. split; [reflexivity|].
      rewrite put_app_right by exact L. f_equal. unfold put. rewrite !map_app, firstn_map, skipn_map. f_equal. f_equal.
      destruct s; cbn [signed switch]; [reflexivity|]. rewrite map_map.
      rewrite <- (map_id new) at 2. apply map_ext. intros [s' t']. cbn. now rewrite switch_switch.
  Qed.

  Lemma eq_put_residual v e k s t new s0 :
    nth_error (fst e ++ snd e) k = Some (s, t) -> nth_error (gathered e) k = Some (s0, t) ->
    residual v (eq_put e k (signed s new)) = (residual v e + sg s0 * (total v new - v t))%R.
  Proof.
    intros H H0. destruct (eq_put_gathered e k s t new H) as (s1 & H1 & G).
    assert (s1 = s0) by congruence. subst s1.
    rewrite !residual_gathered, G, (total_put v _ _ _ s0 t H1), signed_total. lra.
  Qed.

  Lemma replace_effect (w w' : wf T) i k new : replace efs w (index_of i k) new = Some w' ->
    wf_unknowns w' = wf_unknowns w /\ length (wf_eqs w') = length (wf_eqs w) /\
    (forall j, j <> i -> nth_error (wf_eqs w') j = nth_error (wf_eqs w) j) /\
    exists e e' s t,
      nth_error (wf_eqs w) i = Some e /\ nth_error (wf_eqs w') i = Some e' /\
      on_left e k = Some (s, t) /\
      gathered e' = put (gathered e) k (signed s new) /\
      (length (fst e') <= length (fst e) + length new) /\
      forall v, residual v e' = (residual v e + sg s * (total v new - v t))%R.
  Proof.
    rewrite replace_at. destruct (nth_error (wf_eqs w) i) as [e|] eqn:E; [|discriminate].
    destruct (nth_error (fst e ++ snd e) k) as [[old t]|] eqn:K; [|discriminate].
    intro H. apply derived_some in H. subst w'. cbn [wf_eqs wf_unknowns].
    split; [reflexivity|]. split.
    { assert (L : i < length (wf_eqs w)) by (apply nth_error_Some; congruence).
      unfold put. rewrite !app_length, firstn_length, skipn_length. cbn. lia. }
    split; [intros j N; now apply (put_nth_other _ _ _ e)|].
    destruct (eq_put_gathered e k old t new K) as (s0 & G0 & G).
    exists e, (eq_put e k (signed old new)), s0, t. split; [reflexivity|]. split; [now apply (put_nth_same _ _ e)|].
    split; [exact G0|]. split; [exact G|]. split.
    - unfold eq_put. destruct (Nat.ltb_spec k (length (fst e))); cbn [fst]; [|lia].
      unfold put. rewrite !app_length, firstn_length, skipn_length.
      assert (length (signed old new) = length new) by (destruct old; cbn; [reflexivity | apply map_length]). lia.
    - intro v. apply (eq_put_residual v e k old t new s0 K G0).
  Qed.

  Lemma replace_runs (w : wf T) i k new :
    (exists w', replace efs w (index_of i k) new = Some w') <->
    exists e s t, nth_error (wf_eqs w) i = Some e /\ nth_error (fst e ++ snd e) k = Some (s, t) /\
      acceptable efs w (put (wf_eqs w) i [eq_put e k (signed s new)]).
  Proof.
    rewrite replace_at. destruct (nth_error (wf_eqs w) i) as [e|].
    2:{ split; [intros (w' & H); discriminate | intros (e & s & t & H & _); discriminate]. }
    destruct (nth_error (fst e ++ snd e) k) as [[old t]|] eqn:K.
    2:{ split; [intros (w' & H); discriminate|]. intros (e' & s & t & [= <-] & H & _). congruence. }
    rewrite derived_iff. split.
    - intro H. exists e, old, t. auto.
    - intros (e' & s & t' & [= <-] & H & A). rewrite K in H. injection H as <- <-. exact A.
  Qed.

  (* ---------------------------------------------- solving *)

  Lemma solves_nth v (w : wf T) : solves v w <-> forall i e, nth_error (wf_eqs w) i = Some e -> residual v e = 0%R.
  Proof.
    unfold solves. split.
    - intros H i e E. apply H. now apply nth_error_In with i.
    - intros H e E. apply In_nth_error in E. destruct E as (i & E). eauto.
  Qed.

  Lemma solves_by v (w w' : wf T) :
    (forall i, match nth_error (wf_eqs w) i, nth_error (wf_eqs w') i with
               | Some e, Some e' => residual v e = 0%R <-> residual v e' = 0%R
               | None, None => True
               | _, _ => False
               end) -> solves v w <-> solves v w'.
  Proof.
    intro H. rewrite !solves_nth. split; intros S i e E; specialize (H i); rewrite E in H.
    - destruct (nth_error (wf_eqs w) i) as [e0|] eqn:E0; [|contradiction]. apply H. now apply (S i).
    - destruct (nth_error (wf_eqs w') i) as [e0|] eqn:E0; [|contradiction]. apply H. now apply (S i).
  Qed.

  Lemma replace_residuals v (w w' : wf T) i k s t new :
    replace efs w (index_of i k) new = Some w' -> getitem w (index_of i k) = Some (s, t) ->
    total v new = v t ->
    map (residual v) (wf_eqs w') = map (residual v) (wf_eqs w).
  Proof.
    intros H G V. apply replace_effect in H. destruct H as (_ & L & O & e & e' & s0 & t0 & E & E' & K & _ & _ & R).
    rewrite getitem_at, E in G.
    assert (t0 = t).
    { unfold on_left, gathered in K. destruct (lt_dec k (length (fst e))) as [Lt|Lt].
      - rewrite nth_error_app1 in G, K by lia. congruence.
      - rewrite nth_error_app2 in G, K by lia. rewrite nth_error_map, G in K. cbn in K. congruence. }
    subst t0. apply nth_error_ext. intro j. rewrite !nth_error_map.
    destruct (Nat.eq_dec j i) as [->|N]; [|now rewrite (O j N)].
    rewrite E, E'. cbn. rewrite R, V. f_equal. lra.
  Qed.

  (* ---------------------------------------------- rearrange *)

  Lemma gathered_length e : length (gathered e) = length (fst e) + length (snd e).
  Proof. unfold gathered. now rewrite app_length, map_length. Qed.

  Lemma fetch_dec (w : wf T) i e k : nth_error (wf_eqs w) i = Some e ->
    fetch w i true (dec k) = on_left e k /\ fetch w i false (dec k) = on_right e k.
  Proof.
    intro E. unfold fetch.
    change (String.append (dec i) (String "-" (dec k))) with (index_of i k).
    rewrite getitem_at, E, (parse_at w i k e E). unfold on_right, on_left, gathered.
    destruct (Nat.ltb_spec k (length (fst e))) as [L|L].
    - rewrite !nth_error_app1 by exact L. destruct (nth_error (fst e) k) as [[s t]|]; cbn; auto.
    - rewrite !nth_error_app2 by exact L. rewrite nth_error_map.
      destruct (nth_error (snd e) _) as [[s t]|]; cbn; [|auto]. now rewrite switch_switch.
  Qed.

  Lemma fetch_word (w : wf T) i b s x : fetch w i b s = Some x -> exists k, s = dec k.
  Proof.
    unfold fetch. destruct (getitem w _) as [[sg0 t]|] eqn:G; [|discriminate]. intros _.
    apply getitem_some in G. destruct G as (j & k & e & E & _).
    symmetry in E. apply index_word in E. exists k. tauto.
  Qed.

  Lemma fetch_words (w : wf T) i b l x : map_opt (fetch w i b) l = Some x -> exists ks, l = map dec ks.
  Proof.
    revert x. induction l as [|s l IH]; cbn; intros x H; [exists []; reflexivity|].
    destruct (fetch w i b s) eqn:F; [|discriminate]. destruct (map_opt (fetch w i b) l) as [y|]; [|discriminate].
    destruct (IH y eq_refl) as (ks & ->). apply fetch_word in F. destruct F as (k & ->). now exists (k :: ks).
  Qed.

  Lemma map_opt_perm {A B} (f : A -> option B) a b x : Permutation a b -> map_opt f a = Some x ->
    exists y, map_opt f b = Some y /\ Permutation x y.
  Proof.
    intro P. revert x. induction P as [|c a b P IH|c d a|a b c P1 IH1 P2 IH2]; intros x H.
    - exists x. split; [exact H | reflexivity].
    - cbn in H. destruct (f c) eqn:F; [|discriminate]. destruct (map_opt f a) as [y|]; [|discriminate].
      injection H as <-. destruct (IH y eq_refl) as (z & Z & PZ). exists (b0 :: z). cbn. rewrite F, Z. auto.
    - cbn in *. destruct (f d), (f c); try discriminate. destruct (map_opt f a); [|discriminate].
      injection H as <-. eexists. split; [reflexivity | apply perm_swap].
    - destruct (IH1 _ H) as (y & Y & PY). destruct (IH2 _ Y) as (z & Z & PZ).
      exists z. split; [exact Z | now rewrite PY].
  Qed.

  Lemma map_opt_nth {A} (g h : list A) : map_opt (nth_error (h ++ g)) (seq (length h) (length g)) = Some g.
  Proof.
    revert h. induction g as [|a g IH]; intro h; cbn; [reflexivity|].
    rewrite nth_error_app2, Nat.sub_diag by lia. cbn.
    specialize (IH (h ++ [a])). rewrite <- app_assoc in IH. cbn in IH. rewrite app_length in IH. cbn in IH.
    replace (S (length h)) with (length h + 1) by lia. now rewrite IH.
  Qed.

  Lemma on_right_all e r x : map_opt (on_right e) r = Some x ->
    map_opt (on_left e) r = Some (map (fun st => (switch (fst st), snd st)) x).
  Proof.
    revert x. induction r as [|k r IH]; cbn; intros x H; [now injection H as <-|].
    unfold on_right in H. destruct (on_left e k) as [[s t]|] eqn:K; cbn in H; [|discriminate].
    destruct (map_opt _ r) as [y|] eqn:R0 in H; [|discriminate]. injection H as <-.
    fold (on_right e) in R0.
    assert (R1 : map_opt (on_right e) r = Some y) by exact R0.
    rewrite (IH y R1). cbn. now rewrite switch_switch.
  Qed.

  Lemma words_perm n ri lt rt : words n ri = Some (lt, rt) ->
    exists ints, map_opt to_int (lt ++ rt) = Some ints /\ Permutation ints (seq 0 n).
  Proof.
    unfold words. destruct (split "=" _) as [|a [|b [|c r]]]; try discriminate.
    destruct (is_numeric _); [|discriminate].
    set (p := if _ && _ then _ else _). destruct p as [lt0 rt0].
    set (lt1 := if is_empty lt0 then [] else lt0). set (rt1 := if is_empty rt0 then [] else rt0).
    destruct (map_opt to_int (lt1 ++ rt1)) as [ints|] eqn:M; [|discriminate].
    destruct (forallb _ ints); [|discriminate].
    destruct (list_eq_dec _ _ _) as [Q|]; [|discriminate].
    intros [= <- <-]. exists ints. split; [exact M | now apply sort_seq].
  Qed.

  Lemma rearrange_eq_sound (w : wf T) i e ri e' : nth_error (wf_eqs w) i = Some e ->
    rearrange_eq w i e ri = Some e' ->
    exists l r, Permutation (l ++ r) (seq 0 (length (fst e) + length (snd e))) /\
      map_opt (on_left e) l = Some (fst e') /\ map_opt (on_right e) r = Some (snd e').
  Proof.
    intros E. unfold rearrange_eq. destruct (words _ ri) as [[lt rt]|] eqn:W; [|discriminate].
    destruct (map_opt (fetch w i true) lt) as [x|] eqn:L; [|discriminate].
    destruct (map_opt (fetch w i false) rt) as [y|] eqn:R; [|discriminate].
    intros [= <-]. cbn [fst snd].
    destruct (fetch_words _ _ _ _ _ L) as (l & ->). destruct (fetch_words _ _ _ _ _ R) as (r & ->).
    destruct (words_perm _ _ _ _ W) as (ints & M & P).
    rewrite <- map_app, map_opt_dec in M. injection M as <-.
    exists l, r. split; [exact P|]. rewrite map_opt_map in L, R. split.
    - rewrite <- L. apply map_opt_ext. intros k _. symmetry. apply (fetch_dec w i e k E).
    - rewrite <- R. apply map_opt_ext. intros k _. symmetry. apply (fetch_dec w i e k E).
  Qed.

  Lemma moved_gathered e e' l r :
    Permutation (l ++ r) (seq 0 (length (fst e) + length (snd e))) ->
    map_opt (on_left e) l = Some (fst e') -> map_opt (on_right e) r = Some (snd e') ->
    Permutation (gathered e') (gathered e).
  Proof.
    intros P L R. apply on_right_all in R.
    assert (A : map_opt (on_left e) (l ++ r) = Some (gathered e')).
    { apply map_opt_app. exists (fst e'), (map (fun st => (switch (fst st), snd st)) (snd e')). auto. }
    destruct (map_opt_perm _ _ _ _ P A) as (y & Y & Q). rewrite Q.
    rewrite <- gathered_length in Y.
    assert (Z := map_opt_nth (gathered e) []). cbn [app length] in Z.
    change (map_opt (nth_error (gathered e)) (seq 0 (length (gathered e))) = Some y) in Y.
    rewrite Z in Y. injection Y as <-. reflexivity.
  Qed.

  Lemma rearrange_from_nth (w : wf T) req i0 eqs eqs' : rearrange_from w req i0 eqs = Some eqs' ->
    forall j, match nth_error eqs j with
              | Some e => exists e', nth_error eqs' j = Some e' /\
                  match request req (i0 + j) with
                  | Some ri => rearrange_eq w (i0 + j) e ri = Some e'
                  | None => e' = e
                  end
              | None => nth_error eqs' j = None
              end.
  Proof.
    revert i0 eqs'. induction eqs as [|e eqs IH]; cbn; intros i0 eqs' H j.
    { injection H as <-. now destruct j. }
    destruct (match request req i0 with Some ri => rearrange_eq w i0 e ri | None => Some e end) as [e'|] eqn:E; [|discriminate].
    destruct (rearrange_from w req (S i0) eqs) as [es|] eqn:Es; [|discriminate]. injection H as <-.
    destruct j as [|j]; cbn [nth_error].
    - exists e'. split; [reflexivity|]. rewrite Nat.add_0_r. destruct (request req i0); congruence.
    - specialize (IH _ _ Es j). replace (i0 + S j) with (S i0 + j) by lia. exact IH.
  Qed.

  Lemma rearrange_from_runs (w : wf T) req i0 eqs :
    (forall j e ri, nth_error eqs j = Some e -> request req (i0 + j) = Some ri -> exists e', rearrange_eq w (i0 + j) e ri = Some e') ->
    exists eqs', rearrange_from w req i0 eqs = Some eqs'.
  Proof.
    revert i0. induction eqs as [|e eqs IH]; cbn; intros i0 H; [eauto|].
    destruct (IH (S i0)) as (es & ->).
    { intros j e1 ri E R. replace (S i0 + j) with (i0 + S j) by lia. apply H; [exact E|].
      replace (i0 + S j) with (S i0 + j) by lia. exact R. }
    destruct (request req i0) as [ri|] eqn:R; [|eauto].
    destruct (H 0 e ri eq_refl) as (e' & E'); [now rewrite Nat.add_0_r|].
    rewrite Nat.add_0_r in E'. rewrite E'. eauto.
  Qed.

  Lemma rearrange_sound (w w' : wf T) req : rearrange efs w req = Some w' ->
    wf_unknowns w' = wf_unknowns w /\ length (wf_eqs w') = length (wf_eqs w) /\
    forall i e, nth_error (wf_eqs w) i = Some e -> exists e', nth_error (wf_eqs w') i = Some e' /\
      (request req i = None -> e' = e) /\
      Permutation (gathered e') (gathered e) /\ forall v, residual v e' = residual v e.
  Proof.
    unfold rearrange. destruct (forallb _ req); [|discriminate].
    destruct (rearrange_from w req 0 (wf_eqs w)) as [eqs|] eqn:F; [|discriminate].
    intro H. apply derived_some in H. subst w'. cbn [wf_eqs wf_unknowns]. split; [reflexivity|].
    assert (N := rearrange_from_nth _ _ _ _ _ F). split.
    - clear N. revert F. generalize 0 as i0. generalize (wf_eqs w) as es. intro es.
      revert eqs. induction es as [|e es IH]; cbn; intros eqs i0 H; [now injection H as <-|].
      destruct (match request req i0 with Some ri => _ | None => _ end); [|discriminate].
      destruct (rearrange_from w req (S i0) es) eqn:Q; [|discriminate]. injection H as <-. cbn. f_equal. eauto.
    - intros i e E. specialize (N i). rewrite E in N. destruct N as (e' & E' & M). cbn in M.
      exists e'. split; [exact E'|].
      assert (X : (request req i = None -> e' = e) /\ Permutation (gathered e') (gathered e)).
      { destruct (request req i) as [ri|].
        - split; [discriminate|]. destruct (rearrange_eq_sound _ _ _ _ _ E M) as (l & r & P & L & R).
          exact (moved_gathered _ _ _ _ P L R).
        - subst e'. auto. }
      destruct X as [X1 X2]. split; [exact X1|]. split; [exact X2|].
      intro v. rewrite !residual_gathered. now apply total_perm.
  Qed.

  (* ---------------------------------------------- requests as they are written *)

  Lemma listed_count c l : is_digit c = false -> Ascii.eqb c "," = false -> count_char c (listed l) = 0.
  Proof.
    intros D N. induction l as [|n l IH]; [reflexivity|]. cbn [listed]. destruct l as [|m l]; [now apply dec_count|].
    rewrite count_append, dec_count by exact D. cbn [count_char]. rewrite Ascii.eqb_sym, N. exact IH.
  Qed.

  Lemma split_listed l : l <> [] -> split "," (listed l) = map dec l.
  Proof.
    induction l as [|n l IH]; [congruence|]. intros _. cbn [listed]. destruct l as [|m l].
    - cbn. apply split_free. now apply dec_count.
    - rewrite split_app by now apply dec_count. rewrite IH by discriminate. reflexivity.
  Qed.

  Lemma listed_bare l : all_digits (remove_char "," (listed l)) = true /\
    (remove_char "," (listed l) = EmptyString -> l = []).
  Proof.
    induction l as [|n l IH]; [now split|]. cbn [listed].
    assert (Dn : remove_char "," (dec n) = dec n) by (apply remove_free; now apply dec_count).
    destruct l as [|m l].
    - rewrite Dn. split; [apply dec_digits | intro H; now destruct (dec_ne n)].
    - rewrite remove_append, Dn. cbn [remove_char]. change (Ascii.eqb "," ",") with true. cbv iota. split.
      + rewrite digits_append, dec_digits. apply IH.
      + intro H. destruct (dec n) eqn:E; [now destruct (dec_ne n)|]. discriminate.
  Qed.

  Lemma existsb_dec k l : existsb (String.eqb (dec k)) (map dec l) = existsb (Nat.eqb k) l.
  Proof.
    induction l as [|m l IH]; cbn; [reflexivity|]. rewrite IH. f_equal.
    destruct (String.eqb_spec (dec k) (dec m)) as [E|E], (Nat.eqb_spec k m) as [F|F]; try reflexivity.
    - now apply dec_inj in E.
    - now subst m.
  Qed.

  Lemma rest_of_dec n l : rest_of n (map dec l) = map dec (rest n l).
  Proof.
    unfold rest_of, rest. induction (seq 0 n) as [|k s IH]; cbn; [reflexivity|].
    rewrite existsb_dec. destruct (existsb (Nat.eqb k) l); cbn; [exact IH | now rewrite IH].
  Qed.

  Lemma is_empty_dec l : is_empty (map dec l) = false.
  Proof. destruct l as [|n [|m l]]; cbn; [reflexivity | apply dec_eqb_empty | reflexivity]. Qed.

  Lemma words_asks n s l r : asks s l r ->
    words n s =
      match l ++ r with
      | [] => None
      | _ => let '(l', r') := complete n l r in
             if list_eq_dec Nat.eq_dec (sort (l' ++ r')) (seq 0 n) then Some (map dec l', map dec r') else None
      end.
  Proof.
    intro A. unfold asks in A. unfold words.
    assert (C : 0 <? count_char "=" s = true).
    { apply Nat.ltb_lt. rewrite <- (count_remove_other " " "=" s) by reflexivity. rewrite A, count_append.
      cbn [count_char]. change (Ascii.eqb "=" "=") with true. cbv iota. lia. }
    rewrite C. rewrite A, split_app, split_free by (now apply listed_count).
    destruct (listed_bare l) as [D1 N1]. destruct (listed_bare r) as [D2 N2].
    destruct (l ++ r) as [|k0 ks] eqn:LR.
    { apply app_eq_nil in LR. destruct LR as [-> ->]. reflexivity. }
    assert (NU : is_numeric (String.append (remove_char "," (listed l)) (remove_char "," (listed r))) = true).
    { unfold is_numeric. rewrite digits_append, D1, D2, andb_true_r.
      destruct (String.eqb_spec (String.append (remove_char "," (listed l)) (remove_char "," (listed r))) "") as [E|E]; [|reflexivity].
      exfalso. assert (l = [] /\ r = []) as [-> ->]; [|discriminate].
      destruct (remove_char "," (listed l)) eqn:Q; [|discriminate]. cbn in E. auto. }
    rewrite NU.
    (* the lists *)
    assert (FIN : forall l' r' (lt rt : list string),
      (if is_empty lt then [] else lt) = map dec l' -> (if is_empty rt then [] else rt) = map dec r' ->
      match map_opt to_int ((if is_empty lt then [] else lt) ++ (if is_empty rt then [] else rt)) with
      | Some ints =>
          if forallb (fun x => x <? n) ints then
            if list_eq_dec Nat.eq_dec (sort ints) (seq 0 n)
            then Some ((if is_empty lt then [] else lt), (if is_empty rt then [] else rt)) else None
          else None
      | None => None
      end = if list_eq_dec Nat.eq_dec (sort (l' ++ r')) (seq 0 n) then Some (map dec l', map dec r') else None).
    { intros l' r' lt rt -> ->. rewrite <- map_app, map_opt_dec.
      destruct (list_eq_dec _ _ _) as [Q|Q]; [|now destruct (forallb _ _)].
      assert (F : forallb (fun x => x <? n) (l' ++ r') = true).
      { apply forallb_forall. intros x Hx. apply Nat.ltb_lt. apply sort_seq in Q.
        apply (Permutation_in _ Q), in_seq in Hx. lia. }
      now rewrite F. }
    destruct r as [|r0 r1].
    - (* nothing on the right *)
      destruct l as [|l0 l1]; [discriminate|].
      rewrite (split_listed (l0 :: l1)) by discriminate. cbn [listed split]. rewrite map_length.
      assert (EM : is_empty [EmptyString] = true) by reflexivity. rewrite EM.
      rewrite andb_true_l. unfold complete.
      destruct (length (l0 :: l1) <? n).
      + rewrite rest_of_dec. apply FIN; now rewrite is_empty_dec.
      + rewrite is_empty_dec, andb_false_l. apply FIN; [now rewrite is_empty_dec | reflexivity].
    - rewrite (split_listed (r0 :: r1)) by discriminate. rewrite is_empty_dec, andb_false_l.
      destruct l as [|l0 l1].
      + cbn [listed split]. assert (EM : is_empty [EmptyString] = true) by reflexivity. rewrite EM, andb_true_l, map_length.
        unfold complete. destruct (length (r0 :: r1) <? n).
        * rewrite rest_of_dec. apply FIN; now rewrite is_empty_dec.
        * apply FIN; [reflexivity | now rewrite is_empty_dec].
      + rewrite (split_listed (l0 :: l1)) by discriminate. rewrite is_empty_dec, andb_false_l. unfold complete.
        apply FIN; now rewrite is_empty_dec.
  Qed.

  Lemma on_left_some e k : k < length (fst e) + length (snd e) -> exists x, on_left e k = Some x.
  Proof.
    intro H. unfold on_left. destruct (nth_error (gathered e) k) eqn:E; [eauto|].
    apply nth_error_None in E. rewrite gathered_length in E. lia.
  Qed.

  Lemma map_opt_some {A B} (f : A -> option B) l : (forall a, In a l -> exists b, f a = Some b) -> exists r, map_opt f l = Some r.
  Proof.
    induction l as [|a l IH]; intro H; cbn; [eauto|].
    destruct (H a (or_introl eq_refl)) as (b & ->). destruct IH as (r & ->); [intros; apply H; now right|]. eauto.
  Qed.

  Lemma rearrange_eq_asks (w : wf T) i e s l r : nth_error (wf_eqs w) i = Some e -> asks s l r ->
    let n := length (fst e) + length (snd e) in
    let '(l', r') := complete n l r in
    (forall e', rearrange_eq w i e s = Some e' ->
       l ++ r <> [] /\ Permutation (l' ++ r') (seq 0 n) /\
       map_opt (on_left e) l' = Some (fst e') /\ map_opt (on_right e) r' = Some (snd e')) /\
    (l ++ r <> [] -> Permutation (l' ++ r') (seq 0 n) -> exists e', rearrange_eq w i e s = Some e').
  Proof.
    intros E A n. destruct (complete n l r) as [l' r'] eqn:C. unfold rearrange_eq. fold n.
    rewrite (words_asks n s l r A), C.
    assert (FL : forall q, map_opt (fetch w i true) (map dec q) = map_opt (on_left e) q).
    { intro q. rewrite map_opt_map. apply map_opt_ext. intros k _. apply (fetch_dec w i e k E). }
    assert (FR : forall q, map_opt (fetch w i false) (map dec q) = map_opt (on_right e) q).
    { intro q. rewrite map_opt_map. apply map_opt_ext. intros k _. apply (fetch_dec w i e k E). }
    destruct (l ++ r) as [|k0 ks]; [split; [intros e' H; discriminate H | tauto]|].
    destruct (list_eq_dec _ _ _) as [Q|Q].
    - apply sort_seq in Q. rewrite FL, FR. split.
      + intros e' H. destruct (map_opt (on_left e) l'); [|discriminate].
        destruct (map_opt (on_right e) r'); [|discriminate]. injection H as <-. split; [discriminate | auto].
      + intros _ _.
        assert (IN : forall k, In k (l' ++ r') -> exists x, on_left e k = Some x).
        { intros k Hk. apply (Permutation_in _ Q), in_seq in Hk. apply on_left_some. fold n. lia. }
        destruct (map_opt_some (on_left e) l') as (x & ->); [intros; apply IN; rewrite in_app_iff; tauto|].
        destruct (map_opt_some (on_right e) r') as (y & ->); [|eauto].
        intros k Hk. destruct (IN k) as (z & Z); [rewrite in_app_iff; tauto|]. unfold on_right. rewrite Z. cbn. eauto.
    - split; [intros e' H; discriminate H|]. intros _ P. destruct Q. now apply sort_seq.
  Qed.

  (* ---------------------------------------------- switching signs *)

  Lemma switch_from_nth rows i0 eqs j :
    nth_error (switch_from rows i0 eqs) j
    = option_map (fun e => if existsb (Nat.eqb (i0 + j)) rows then (switch_side (fst e), switch_side (snd e)) else e) (nth_error eqs j).
  Proof.
    revert i0 j. induction eqs as [|e eqs IH]; intros i0 [|j]; cbn [switch_from nth_error option_map]; try reflexivity.
    - now rewrite Nat.add_0_r.
    - rewrite IH. now replace (S i0 + j) with (i0 + S j) by lia.
  Qed.

  Lemma switch_from_length rows i0 eqs : length (switch_from rows i0 eqs) = length eqs.
  Proof. revert i0. induction eqs; intro i0; cbn; [reflexivity | now rewrite IHeqs]. Qed.

  Lemma switch_residual v e : residual v (switch_side (fst e), switch_side (snd e)) = (- residual v e)%R.
  Proof. unfold residual, switch_side. cbn [fst snd]. rewrite !total_switch. lra. Qed.

  Lemma switch_sign_effect (w w' : wf T) rows : switch_sign efs w rows = Some w' ->
    wf_unknowns w' = wf_unknowns w /\ length (wf_eqs w') = length (wf_eqs w) /\
    forall i e, nth_error (wf_eqs w) i = Some e -> exists e', nth_error (wf_eqs w') i = Some e' /\
      map snd (fst e') = map snd (fst e) /\ map snd (snd e') = map snd (snd e) /\
      (In i rows -> forall v, residual v e' = (- residual v e)%R) /\ (~ In i rows -> e' = e).
  Proof.
    unfold switch_sign. destruct (forallb _ rows); [|discriminate]. intro H. apply derived_some in H. subst w'.
    cbn [wf_eqs wf_unknowns]. split; [reflexivity|]. split; [apply switch_from_length|].
    intros i e E. rewrite switch_from_nth, E. cbn [option_map Nat.add]. eexists. split; [reflexivity|].
    destruct (existsb (Nat.eqb i) rows) eqn:B.
    - cbn [fst snd]. unfold switch_side. rewrite !map_map. cbn [snd]. split; [reflexivity|]. split; [reflexivity|].
      split; [intros _ v; apply switch_residual|]. intro N. destruct N.
      apply existsb_exists in B. destruct B as (x & X & Q). apply Nat.eqb_eq in Q. now subst x.
    - split; [reflexivity|]. split; [reflexivity|]. split; [|reflexivity]. intro I. exfalso.
      rewrite <- not_true_iff_false in B. apply B. apply existsb_exists. exists i. split; [exact I | apply Nat.eqb_refl].
  Qed.

  Lemma terms_switch rows i0 eqs : terms_of (switch_from rows i0 eqs) = terms_of eqs.
  Proof.
    unfold terms_of. revert i0. induction eqs as [|e eqs IH]; intro i0; cbn; [reflexivity|].
    rewrite IH. f_equal. destruct (existsb _ rows); [|reflexivity]. cbn [fst snd].
    unfold switch_side. rewrite !map_app, !map_map. reflexivity.
  Qed.

  Lemma derived_same (w : wf T) eqs eqs' : terms_of eqs' = terms_of eqs -> length eqs' = length eqs ->
    (exists w', derived efs w eqs = Some w') -> derived efs w eqs' = Some (mkWf eqs' (wf_unknowns w)).
  Proof.
    intros T1 L H. apply derived_iff in H.
    assert (A : acceptable efs w eqs') by (unfold acceptable in *; rewrite T1, L; exact H).
    apply derived_iff in A. destruct A as (w' & A). rewrite A. f_equal. now apply derived_some.
  Qed.

  Lemma switch_side_twice (l : side T) : switch_side (switch_side l) = l.
  Proof.
    unfold switch_side. rewrite map_map. rewrite <- (map_id l) at 2. apply map_ext. intros [s t]. cbn. now rewrite switch_switch.
  Qed.

  Lemma switch_sign_twice (w w' : wf T) rows : switch_sign efs w rows = Some w' -> switch_sign efs w' rows = Some w.
  Proof.
    unfold switch_sign. destruct (forallb (fun row => row <? length (wf_eqs w)) rows) eqn:B; [|discriminate].
    intro H. assert (H' := H). apply derived_some in H. subst w'. cbn [wf_eqs].
    rewrite switch_from_length, B.
    assert (X : switch_from rows 0 (switch_from rows 0 (wf_eqs w)) = wf_eqs w).
    { apply nth_error_ext. intro j. rewrite !switch_from_nth. destruct (nth_error (wf_eqs w) j) as [[a b]|]; cbn [option_map Nat.add]; [|reflexivity].
      destruct (existsb (Nat.eqb j) rows); [|reflexivity]. cbn [fst snd]. now rewrite !switch_side_twice. }
    rewrite X.
    assert (Y : exists w0, derived efs (mkWf (switch_from rows 0 (wf_eqs w)) (wf_unknowns w)) (switch_from rows 0 (wf_eqs w)) = Some w0).
    { apply derived_iff. apply (proj1 (derived_iff w _)). eauto. }
    rewrite (derived_same _ _ (wf_eqs w)) with (3 := Y); cbn [wf_unknowns].
    - now destruct w.
    - symmetry. apply terms_switch.
    - symmetry. apply switch_from_length.
  Qed.
End D.
