(** Proofs about the nonlinear solvers. *)
From Coq Require Import List ZArith QArith Qcanon Bool Arith Lia Lqa.
From Verif Require Import NrModel NrSpec.
Import ListNotations.
Local Open Scope nat_scope.

(** ** lists *)
Lemma omap_nth {A B} (f : A -> option B) l : forall r, omap f l = Some r -> length r = length l /\
  forall i, nth_error r i = match nth_error l i with Some a => f a | None => None end.
Proof.
  induction l as [|a l IH]; intros r H; cbn [omap] in H.
  - injection H as <-. split; [easy|]. intros [|i]; easy.
  - destruct (f a) as [b|] eqn:E; [|discriminate]. destruct (omap f l) as [s|] eqn:Es; [|discriminate].
    injection H as <-. destruct (IH s eq_refl) as [L IH2]. split; [cbn; now rewrite L|].
    intros [|i]; cbn [nth_error]; [easy|apply IH2].
Qed.
Lemma ozip_nth {A B C} (f : A -> B -> option C) l : forall m r, ozip f l m = Some r ->
  length r = length l /\ length m = length l /\
  forall i, nth_error r i = match nth_error l i, nth_error m i with Some a, Some b => f a b | _, _ => None end.
Proof.
  induction l as [|a l IH]; intros [|b m] r H; cbn [ozip] in H; try discriminate.
  - injection H as <-. repeat split. intros [|i]; easy.
  - destruct (f a b) as [c|] eqn:E; [|discriminate]. destruct (ozip f l m) as [t|] eqn:Et; [|discriminate].
    injection H as <-. destruct (IH m t Et) as (L & M & IH2). split; [cbn; now rewrite L|]. split; [cbn; now rewrite M|].
    intros [|i]; cbn [nth_error]; [easy|apply IH2].
Qed.
Lemma nth_none {A B} (l : list A) (m : list B) i : length l = length m -> nth_error l i = None <-> nth_error m i = None.
Proof. intros H. rewrite !nth_error_None. now rewrite H. Qed.
(** a two level zip *)
Lemma ozip2_at {A B C} (f : A -> B -> option C) x y z : ozip (ozip f) x y = Some z -> length z = length x /\
  forall e l, (match nth_error z e with None => None | Some ze => nth_error ze l end) =
    match (match nth_error x e with None => None | Some xe => nth_error xe l end), (match nth_error y e with None => None | Some ye => nth_error ye l end) with
    | Some a, Some b => f a b | _, _ => None end.
Proof.
  intros H. destruct (ozip_nth _ _ _ _ H) as (L & M & Hn). split; [easy|]. intros e l. specialize (Hn e).
  destruct (nth_error x e) as [xe|] eqn:Ex.
  - destruct (nth_error y e) as [ye|] eqn:Ey.
    + destruct (nth_error z e) as [ze|] eqn:Ez.
      * symmetry in Hn. destruct (ozip_nth _ _ _ _ Hn) as (_ & _ & Hl). apply Hl.
      * apply nth_error_None in Ez. assert (e < length x) by (apply nth_error_Some; congruence). lia.
    + apply nth_error_None in Ey. assert (e < length x) by (apply nth_error_Some; congruence). lia.
  - rewrite Hn. now destruct (nth_error y e).
Qed.
(** and the same places *)
Lemma ozip2_none {A B C} (f : A -> B -> option C) x y z : ozip (ozip f) x y = Some z ->
  forall e l, (match nth_error x e with None => None | Some xe => nth_error xe l end) = None <->
    (match nth_error y e with None => None | Some ye => nth_error ye l end) = None.
Proof.
  intros H e l. destruct (ozip_nth _ _ _ _ H) as (L & M & Hn). specialize (Hn e).
  destruct (nth_error x e) as [xe|] eqn:Ex; destruct (nth_error y e) as [ye|] eqn:Ey; try easy.
  - destruct (nth_error z e) as [ze|] eqn:Ez; [|apply nth_error_None in Ez; assert (e < length x) by (apply nth_error_Some; congruence); lia].
    symmetry in Hn. destruct (ozip_nth _ _ _ _ Hn) as (_ & M2 & _). now apply nth_none.
  - apply nth_error_None in Ey. assert (e < length x) by (apply nth_error_Some; congruence). lia.
  - apply nth_error_None in Ex. assert (e < length y) by (apply nth_error_Some; congruence). lia.
Qed.
Lemma replace_nth_nth {X} (l : list X) : forall n a i, nth_error (replace_nth l n a) i = if i =? n then (match nth_error l i with Some _ => Some a | None => None end) else nth_error l i.
Proof.
  induction l as [|b l IH]; intros [|n] a [|i]; cbn [replace_nth nth_error Nat.eqb]; try easy; try apply IH;
    now destruct (i =? n).
Qed.
Lemma removelast_nth {X} (l : list X) : forall i v, nth_error (removelast l) i = Some v -> nth_error l i = Some v.
Proof.
  induction l as [|a l IH]; intros i v H; [easy|]. cbn [removelast] in H. destruct l as [|b l]; [now destruct i|].
  destruct i as [|i]; [easy|]. cbn [nth_error] in *. now apply IH.
Qed.

(** ** the stop criterion *)
Lemma flt_spec b a : flt b (Fin a) = true <-> below b a.
Proof.
  unfold below. destruct b as [q| |]; cbn [flt].
  - rewrite negb_true_iff. split.
    + intros H. exists q. split; [easy|]. apply Qnot_le_lt. intros L. apply Qle_bool_iff in L. congruence.
    + intros (p & E & L). injection E as <-. destruct (Qle_bool a q) eqn:Eb; [|easy]. apply Qle_bool_iff in Eb. lra.
  - split; [easy|]. now intros (p & E & _).
  - split; [easy|]. now intros (p & E & _).
Qed.
Lemma flt_false b a : flt b (Fin a) = false <-> ~ below b a.
Proof. rewrite <- flt_spec. destruct (flt b (Fin a)); split; intros H; try easy; now destruct H. Qed.
Lemma qle_false a b : negb (Qle_bool b a) = true <-> (a < b)%Q.
Proof.
  rewrite negb_true_iff. split; intros H.
  - apply Qnot_le_lt. intros L. apply Qle_bool_iff in L. congruence.
  - destruct (Qle_bool b a) eqn:E; [|easy]. apply Qle_bool_iff in E. lra.
Qed.
Lemma grow_spec old new : flt old new && flt (times100 old) new = true <-> blown_up old new.
Proof.
  unfold blown_up. rewrite andb_true_iff. destruct old as [o| |], new as [n| |]; cbn [flt times100]; rewrite ?qle_false.
  - split.
    + intros [H1 H2]. exists o. split; [easy|]. right. now exists n.
    + intros (o' & E & [E2|(n' & E2 & H)]); [easy|]. injection E as <-. injection E2 as <-. easy.
  - split; [|easy]. intros _. exists o. split; [easy|now left].
  - split; [easy|]. intros (o' & E & [E2|(n' & E2 & H)]); easy.
  - split; [easy|]. now intros (o' & E & _).
  - split; [easy|]. now intros (o' & E & _).
  - split; [easy|]. now intros (o' & E & _).
  - split; [easy|]. now intros (o' & E & _).
  - split; [easy|]. now intros (o' & E & _).
  - split; [easy|]. now intros (o' & E & _).
Qed.
Lemma stall_spec old new : nonneg new -> flt new old && small_progress old new = true <-> stalled old new.
Proof.
  intros Hn. unfold stalled. rewrite andb_true_iff. destruct old as [o| |], new as [n| |]; cbn [flt small_progress]; rewrite ?qle_false;
    try (split; [easy|intros (? & ? & E1 & E2 & _); easy]).
  specialize (Hn n eq_refl). split.
  - intros [H1 H2]. exists o, n. split; [easy|]. split; [easy|]. split; [easy|].
    destruct (Qeq_bool o 0) eqn:Eo; [easy|]. apply qle_false in H2.
    assert (Ho : (0 < o)%Q) by lra. apply Qlt_shift_div_r in H2 || idtac.
    assert ((o - n) / o * o == o - n)%Q by (field; lra). nra.
  - intros (o' & n' & E1 & E2 & H1 & H2). injection E1 as <-. injection E2 as <-. split; [easy|].
    assert (Ho : (0 < o)%Q) by lra.
    destruct (Qeq_bool o 0) eqn:Eo; [apply Qeq_bool_iff in Eo; lra|]. apply qle_false.
    apply Qlt_shift_div_r; [easy|]. lra.
Qed.
Lemma stop_forced BETA atol ITER n : stop BETA atol ITER (Forced n) = if (n <=? Z.of_nat ITER)%Z then Stop 2 (Z.of_nat ITER) else Go.
Proof. unfold stop. now destruct (n <=? Z.of_nat ITER)%Z. Qed.
(** the four reasons at iteration [k], for the norms so far *)
Lemma rev_last2 {X} (l : list X) a b : rev (l ++ [a; b]) = b :: a :: rev l.
Proof. now rewrite rev_app_distr. Qed.
Lemma two_last {X} (l : list X) : l = [] \/ (exists a, l = [a]) \/ exists l' a b, l = l' ++ [a; b].
Proof.
  destruct (rev l) as [|b [|a r]] eqn:E.
  - left. apply (f_equal (@rev X)) in E. now rewrite rev_involutive in E.
  - right. left. exists b. apply (f_equal (@rev X)) in E. now rewrite rev_involutive in E.
  - right. right. exists (rev r), a, b. apply (f_equal (@rev X)) in E. rewrite rev_involutive in E. cbn [rev] in E.
    now rewrite <- app_assoc in E.
Qed.
Lemma stop_int BETA atol n (k := length BETA) : BETA <> [] -> Forall nonneg BETA ->
  let small := small_at BETA atol k in let grow := grows_at BETA k in let stall := stalls_at BETA k in
  match stop BETA atol k (Int n) with
  | Stop 1 i => small /\ i = 0%Z
  | Stop 2 i => ~ small /\ (n <= Z.of_nat k)%Z /\ i = Z.of_nat k
  | Stop 3 i => ~ small /\ (Z.of_nat k < n)%Z /\ grow /\ i = (-1)%Z
  | Stop 4 i => ~ small /\ (Z.of_nat k < n)%Z /\ stall /\ i = Z.of_nat k
  | Stop _ _ => False
  | Go => ~ small /\ (Z.of_nat k < n)%Z /\ ~ grow /\ ~ stall
  end.
Proof.
  intros Hne Hnn small grow stall.
  assert (Hs : small <-> below (last BETA NaN) atol).
  { unfold small, small_at. destruct (exists_last Hne) as (l & b & E). rewrite E, last_last.
    assert (Ek : k = S (length l)) by (unfold k; rewrite E, app_length; cbn; lia).
    split.
    - intros (i & nn & E1 & E2 & H). assert (i = length l) by lia. subst i. rewrite nth_error_app2, Nat.sub_diag in E2 by lia. injection E2 as <-. easy.
    - intros H. exists (length l), b. split; [easy|]. split; [|easy]. rewrite nth_error_app2, Nat.sub_diag by lia. easy. }
  destruct (two_last BETA) as [E|[(b & E)|(l & a & b & E)]]; [easy| |].
  - assert (Hg : ~ grow) by (intros (i & o & nn & E1 & _); unfold k in E1; rewrite E in E1; discriminate).
    assert (Hst : ~ stall) by (intros (i & o & nn & E1 & _); unfold k in E1; rewrite E in E1; discriminate).
    assert (El : last BETA NaN = b) by now rewrite E.
    assert (Er : rev BETA = [b]) by now rewrite E.
    unfold stop. rewrite El, Er. rewrite El in Hs.
    destruct (flt b (Fin atol)) eqn:F; cbn [negb andb].
    + apply flt_spec in F. split; [tauto|easy].
    + apply flt_false in F. fold k. destruct (n <=? Z.of_nat k)%Z eqn:Z; [apply Z.leb_le in Z; tauto|apply Z.leb_gt in Z; tauto].
  - assert (Ek : k = S (S (length l))) by (unfold k; rewrite E, app_length; cbn; lia).
    assert (Na : nth_error BETA (length l) = Some a) by (rewrite E, nth_error_app2, Nat.sub_diag by lia; easy).
    assert (Nb : nth_error BETA (S (length l)) = Some b) by (rewrite E, nth_error_app2 by lia; replace (S (length l) - length l) with 1 by lia; easy).
    assert (El : last BETA NaN = b) by (rewrite E; change (l ++ [a; b]) with (l ++ [a] ++ [b]); rewrite app_assoc; apply last_last).
    assert (Hg : grow <-> blown_up a b).
    { split; [|intros H; exists (length l), a, b; easy]. intros (i & o & nn & E1 & E2 & E3 & H). assert (i = length l) by lia. subst i. congruence. }
    assert (Hnb : nonneg b) by (rewrite Forall_forall in Hnn; apply Hnn, (nth_error_In _ _ Nb)).
    assert (Hst : stall <-> stalled a b).
    { split; [|intros H; exists (length l), a, b; easy]. intros (i & o & nn & E1 & E2 & E3 & H). assert (i = length l) by lia. subst i. congruence. }
    rewrite El in Hs. assert (Er : rev BETA = b :: a :: rev l) by now rewrite E, rev_last2.
    unfold stop. rewrite El, Er.
    destruct (flt b (Fin atol)) eqn:F; cbn [negb].
    + apply flt_spec in F. split; [tauto|easy].
    + apply flt_false in F. rewrite !andb_true_l. fold k. destruct (n <=? Z.of_nat k)%Z eqn:Z; [apply Z.leb_le in Z; tauto|apply Z.leb_gt in Z].
      pose proof (grow_spec a b) as G. destruct (flt a b && flt (times100 a) b).
      { destruct G as [G _]. specialize (G eq_refl). tauto. }
      pose proof (stall_spec a b Hnb) as S. destruct (flt b a && small_progress a b).
      { destruct S as [S _]. specialize (S eq_refl). tauto. }
      split; [tauto|]. split; [easy|]. split.
      * rewrite Hg, <- G. easy.
      * rewrite Hst, <- S. easy.
Qed.
Lemma stop_at_limit BETA atol ITER m : (limit m <= Z.of_nat ITER)%Z -> stop BETA atol ITER m <> Go.
Proof.
  intros H. destruct m as [n|n]; cbn [limit] in H.
  - unfold stop. assert (E : (n <=? Z.of_nat ITER)%Z = true) by now apply Z.leb_le. rewrite E.
    destruct (rev BETA) as [|b [|o r]]; destruct (flt (last BETA NaN) (Fin atol)); easy.
  - rewrite stop_forced. apply Z.leb_le in H. now rewrite H.
Qed.
