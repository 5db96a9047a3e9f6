(** Proofs about identifying and zeroing rows and setting values *)
From Coq Require Import List Arith ZArith QArith Qcanon Bool Lia.
From Verif Require Import Dict GmModel GmSpec GmProofs GmChain GmFind QSums LmModel LmSpec LmProofs LmVec.
Import ListNotations.
Local Open Scope nat_scope.

(** ** one row of one local matrix *)
Lemma ltb_S n c : n <> c -> (c <? S n) = (c <? n).
Proof. intros H. destruct (Nat.ltb_spec c n), (Nat.ltb_spec c (S n)); auto; lia. Qed.
Lemma line_at_map n f (h : nat -> bool) c : line_at (map (fun c => (c, f c)) (filter h (seq 0 n))) c = if (c <? n) && h c then f c else 0%Qc.
Proof.
  unfold line_at. induction n as [|n IH]; [reflexivity|].
  rewrite seq_S, filter_app, map_app, filter_app, map_app, qsum_app, IH. cbn [plus filter]. destruct (h n) eqn:En; cbn [map filter fst].
  - destruct (Nat.eqb_spec n c) as [->|Hn]; cbn [map snd qsum fold_right].
    + rewrite En. replace (c <? c) with false by (symmetry; apply Nat.ltb_ge; lia). replace (c <? S c) with true by (symmetry; apply Nat.ltb_lt; lia). simpl. ring.
    + rewrite (ltb_S n c) by auto. ring.
  - destruct (Nat.eqb_spec n c) as [->|Hn]; cbn [qsum fold_right].
    + rewrite En, !andb_false_r. ring.
    + rewrite (ltb_S n c) by auto. ring.
Qed.
Lemma nth_map_seq {A} (f : nat -> A) n r d : nth r (map f (seq 0 n)) d = if r <? n then f r else d.
Proof.
  destruct (Nat.ltb_spec r n) as [H|H].
  - rewrite (nth_indep _ d (f 0)) by (now rewrite map_length, seq_length). rewrite map_nth, seq_nth; auto.
  - apply nth_overflow. now rewrite map_length, seq_length.
Qed.
Lemma line_forall m j : sm_ok m -> Forall (fun iv : nat * Qc => fst iv < minor m) (nth j (sm_lines m) []).
Proof.
  intros [Hl H]. destruct (Nat.lt_ge_cases j (length (sm_lines m))).
  - rewrite Forall_forall in H. apply H, nth_In. auto.
  - rewrite nth_overflow; auto.
Qed.
Lemma sm_at_out m r c : sm_ok m -> sm_nr m <= r \/ sm_nc m <= c -> sm_at m r c = 0%Qc.
Proof.
  intros Hok H. unfold sm_at. pose proof (line_forall m) as F. pose proof Hok as [Hl _]. unfold minor, major in *.
  destruct (sm_fmt m).
  - destruct H as [H|H]; [rewrite nth_overflow by lia; reflexivity|]. eapply line_at_out; [apply F|]; auto.
  - destruct H as [H|H]; [eapply line_at_out; [apply F|]; auto|rewrite nth_overflow by lia; reflexivity].
Qed.
Lemma to_rows_at m r c : sm_ok m -> line_at (nth r (to_rows m) []) c = sm_at m r c.
Proof.
  intros Hok. unfold to_rows. rewrite nth_map_seq. destruct (Nat.ltb_spec r (sm_nr m)) as [H|H].
  - rewrite (line_at_map (sm_nc m) (sm_at m r)). destruct (Nat.ltb_spec c (sm_nc m)) as [H1|H1]; cbn [andb].
    + destruct (sm_has m r c) eqn:E; auto. symmetry. unfold sm_has, sm_at in *. destruct (sm_fmt m); now apply line_at_has.
    + symmetry. apply sm_at_out; auto.
  - symmetry. cbn. apply sm_at_out; auto.
Qed.
Lemma to_rows_ok m : length (to_rows m) = sm_nr m /\ Forall (Forall (fun iv => fst iv < sm_nc m)) (to_rows m).
Proof.
  unfold to_rows. rewrite map_length, seq_length. split; auto. apply Forall_forall. intros l H. apply in_map_iff in H as (r & <- & Hr).
  apply Forall_forall. intros [c v] H. apply in_map_iff in H as (c' & [= <- <-] & H). apply filter_In in H as [H _]. apply in_seq in H. simpl. lia.
Qed.
Lemma set_nth_length {A} (v : A) l : forall n, length (set_nth n v l) = length l.
Proof. induction l as [|a l IH]; intros [|n]; simpl; auto. Qed.
Lemma nth_set_nth {A} (v : A) l d : forall n r, n < length l -> nth r (set_nth n v l) d = if r =? n then v else nth r l d.
Proof.
  induction l as [|a l IH]; intros [|n] r H; simpl in *; try lia; destruct r as [|r]; auto. simpl. apply IH. lia.
Qed.
Lemma in_set_nth {A} (v : A) l : forall n x, In x (set_nth n v l) -> x = v \/ In x l.
Proof. induction l as [|a l IH]; intros [|n] x H; simpl in *; try tauto; [destruct H; auto|]. destruct H as [->|H]; auto. apply IH in H. tauto. Qed.
Lemma set_row_ok l one m : sm_ok m -> l < sm_nr m -> (one = true -> l < sm_nc m) ->
  exists m', set_row l one m = Some m' /\ sm_ok m' /\ sm_nr m' = sm_nr m /\ sm_nc m' = sm_nc m /\
    forall a b, sm_at m' a b = if a =? l then (if one && (a =? b) then 1%Qc else 0%Qc) else sm_at m a b.
Proof.
  intros Hok Hl Ho. unfold set_row. rewrite (proj2 (Nat.ltb_lt _ _) Hl). cbn [andb].
  assert (E : negb one || (l <? sm_nc m) = true) by (destruct one; auto; cbn; now apply Nat.ltb_lt, Ho). rewrite E.
  eexists. split; [reflexivity|]. pose proof (to_rows_ok m) as [H1 H2]. split; [split|split; [reflexivity|split; [reflexivity|]]].
  - cbn. rewrite set_nth_length. exact H1.
  - cbn [sm_lines minor sm_fmt sm_nc]. apply Forall_forall. intros x Hx. apply in_set_nth in Hx as [->|Hx].
    + destruct one; auto.
    + rewrite Forall_forall in H2. unfold minor. simpl. auto.
  - intros a b. unfold sm_at at 1. cbn [sm_fmt sm_lines]. rewrite nth_set_nth by lia. destruct (Nat.eqb_spec a l) as [->|Ha].
    + destruct one; cbn [andb]; [|reflexivity]. unfold line_at. cbn [filter fst]. destruct (l =? b); reflexivity.
    + now apply to_rows_at.
Qed.

(** ** sequences of such changes in one rank *)
Fixpoint run_ops (ops : list (nat * nat * bool)) (M : lmat) : option lmat :=
  match ops with
  | [] => Some M
  | (e, l, one) :: r => match set_row_at one M e l with Some M' => run_ops r M' | None => None end
  end.
Definition flagged (ops : list (nat * nat * bool)) (e a : nat) : option bool :=
  option_map snd (List.find (fun x => npair_eqb (fst x) (e, a)) ops).
Definition dat (M : lmat) (e a b : nat) : Qc := match nget M e with Some m => sm_at m a b | None => 0%Qc end.
Definition shapes (M M' : lmat) : Prop := keys M' = keys M /\
  forall e m', nget M' e = Some m' -> sm_ok m' /\ exists m, nget M e = Some m /\ sm_nr m' = sm_nr m /\ sm_nc m' = sm_nc m.
Lemma flagged_none ops e a : ~ In (e, a) (map fst ops) -> flagged ops e a = None.
Proof.
  unfold flagged. induction ops as [|[p o] ops IH]; simpl; auto. intros H. destruct (npair_eqb p (e, a)) eqn:E; [|tauto].
  apply npair_eqb_spec in E. tauto.
Qed.
Lemma flagged_in ops e a o : flagged ops e a = Some o -> In (e, a, o) ops.
Proof.
  unfold flagged. destruct (List.find _ ops) as [[p o']|] eqn:E; [|discriminate]. intros [= <-]. apply find_some in E as [H1 H2].
  cbn in H2. apply npair_eqb_spec in H2 as ->. auto.
Qed.
Lemma flagged_some ops e a : In (e, a) (map fst ops) -> exists o, flagged ops e a = Some o.
Proof.
  intros H. unfold flagged. apply in_map_iff in H as ([p o] & E & H). cbn in E. subst.
  destruct (List.find (fun x => npair_eqb (fst x) (e, a)) ops) as [x|] eqn:F; [eexists; reflexivity|]. apply find_none with (x := (e, a, o)) in F; auto.
  cbn in F. rewrite (proj2 (npair_eqb_spec _ _) eq_refl) in F. discriminate.
Qed.
Lemma run_ops_ok ops : forall M, NoDup (map fst ops) -> (forall e m, nget M e = Some m -> sm_ok m) ->
  (forall e l o, In (e, l, o) ops -> exists m, nget M e = Some m /\ l < sm_nr m /\ (o = true -> l < sm_nc m)) ->
  exists M', run_ops ops M = Some M' /\ shapes M M' /\
    forall e a b, dat M' e a b = match flagged ops e a with Some one => if one && (a =? b) then 1%Qc else 0%Qc | None => dat M e a b end.
Proof.
  induction ops as [|[[e l] o] ops IH]; intros M Hn Hok H.
  - exists M. cbn. split; auto. split; [|auto]. split; auto. intros e m' E. split; eauto.
  - cbn [map fst] in Hn. inversion Hn as [|? ? Hx Hn']; subst. cbn [run_ops]. unfold set_row_at.
    destruct (H e l o) as (m & Em & Hl & Ho); [now left|]. rewrite Em.
    destruct (set_row_ok l o m (Hok e m Em) Hl Ho) as (m1 & E1 & Hok1 & Hr1 & Hc1 & Ha1). rewrite E1. cbn [option_map].
    assert (Hke : In e (keys M)) by (apply (get_keys Nat.eqb Nat_eqb_spec); eauto).
    destruct (IH (nput M e m1)) as (M' & E & (Hk & Hsh) & Hd).
    + auto.
    + intros e' m'. rewrite (get_put Nat.eqb Nat_eqb_spec). destruct (Nat.eqb_spec e' e); [intros [= <-]; auto|eauto].
    + intros e' l' o' Hi. destruct (H e' l' o') as (m' & Em' & Hl' & Ho'); [now right|]. rewrite (get_put Nat.eqb Nat_eqb_spec).
      destruct (Nat.eqb_spec e' e) as [->|]; [|eauto]. rewrite Em in Em'. injection Em' as <-. exists m1. rewrite Hr1, Hc1. auto.
    + exists M'. split; auto. split; [split|].
      * rewrite Hk. now apply (keys_put_in Nat.eqb Nat_eqb_spec).
      * intros e' m' Em'. destruct (Hsh e' m' Em') as (Hok' & m2 & Em2 & H1 & H2). split; auto. rewrite (get_put Nat.eqb Nat_eqb_spec) in Em2.
        destruct (Nat.eqb_spec e' e) as [->|]; [|eauto]. injection Em2 as <-. exists m. split; auto. split; congruence.
      * intros e' a b. rewrite Hd. unfold flagged at 2. cbn [List.find fst]. destruct (npair_eqb (e, l) (e', a)) eqn:Ee.
        -- apply npair_eqb_spec in Ee. injection Ee as <- <-. rewrite flagged_none by auto. cbn [option_map snd].
           unfold dat. rewrite (get_put Nat.eqb Nat_eqb_spec), Nat.eqb_refl, Ha1, Nat.eqb_refl. reflexivity.
        -- fold (flagged ops e' a). destruct (flagged ops e' a); auto. unfold dat. rewrite (get_put Nat.eqb Nat_eqb_spec).
           destruct (Nat.eqb_spec e' e) as [->|]; auto. rewrite Em, Ha1. destruct (Nat.eqb_spec a l) as [->|]; auto.
           rewrite (proj2 (npair_eqb_spec _ _) eq_refl) in Ee. discriminate.
Qed.
(** the same for vectors *)
Fixpoint run_vops (ops : list (nat * nat * bool)) (v : Qc) (b : lvec) : option lvec :=
  match ops with
  | [] => Some b
  | (e, l, one) :: r => match set_at b e l (if one then v else 0%Qc) with Some b' => run_vops r v b' | None => None end
  end.
Definition vdat (b : lvec) (e a : nat) : Qc := match nget b e with Some d => nth a d 0%Qc | None => 0%Qc end.
Definition vshapes (b b' : lvec) : Prop := keys b' = keys b /\
  forall e d', nget b' e = Some d' -> exists d, nget b e = Some d /\ length d' = length d.
Lemma run_vops_ok ops v : forall b, NoDup (map fst ops) ->
  (forall e l o, In (e, l, o) ops -> exists d, nget b e = Some d /\ l < length d) ->
  exists b', run_vops ops v b = Some b' /\ vshapes b b' /\
    forall e a, vdat b' e a = match flagged ops e a with Some one => if one : bool then v else 0%Qc | None => vdat b e a end.
Proof.
  induction ops as [|[[e l] o] ops IH]; intros b Hn H.
  - exists b. cbn. split; auto. split; [|auto]. split; auto. intros e d' E. eauto.
  - cbn [map fst] in Hn. inversion Hn as [|? ? Hx Hn']; subst. cbn [run_vops]. unfold set_at.
    destruct (H e l o) as (d & Ed & Hl); [now left|]. rewrite Ed.
    destruct (setnth_ok (if o then v else 0%Qc) d l Hl) as (d1 & E1 & Hl1 & Ha1). rewrite E1. cbn [option_map].
    assert (Hke : In e (keys b)) by (apply (get_keys Nat.eqb Nat_eqb_spec); eauto).
    destruct (IH (nput b e d1)) as (b' & E & (Hk & Hsh) & Hd).
    + auto.
    + intros e' l' o' Hi. destruct (H e' l' o') as (d' & Ed' & Hl'); [now right|]. rewrite (get_put Nat.eqb Nat_eqb_spec).
      destruct (Nat.eqb_spec e' e) as [->|]; [|eauto]. rewrite Ed in Ed'. injection Ed' as <-. exists d1. rewrite Hl1. auto.
    + exists b'. split; auto. split; [split|].
      * rewrite Hk. now apply (keys_put_in Nat.eqb Nat_eqb_spec).
      * intros e' d' Ed'. destruct (Hsh e' d' Ed') as (d2 & Ed2 & H1). rewrite (get_put Nat.eqb Nat_eqb_spec) in Ed2.
        destruct (Nat.eqb_spec e' e) as [->|]; [|eauto]. injection Ed2 as <-. exists d. split; auto. congruence.
      * intros e' a. rewrite Hd. unfold flagged at 2. cbn [List.find fst]. destruct (npair_eqb (e, l) (e', a)) eqn:Ee.
        -- apply npair_eqb_spec in Ee. injection Ee as <- <-. rewrite flagged_none by auto. cbn [option_map snd].
           unfold vdat. rewrite (get_put Nat.eqb Nat_eqb_spec), Nat.eqb_refl, Ha1, Nat.eqb_refl. reflexivity.
        -- fold (flagged ops e' a). destruct (flagged ops e' a); auto. unfold vdat. rewrite (get_put Nat.eqb Nat_eqb_spec).
           destruct (Nat.eqb_spec e' e) as [->|]; auto. rewrite Ed, Ha1. destruct (Nat.eqb_spec a l) as [->|]; auto.
           rewrite (proj2 (npair_eqb_spec _ _) eq_refl) in Ee. discriminate.
Qed.

(** ** which places get the one *)
Fixpoint flags (e0 : nat) (rep : bool) (pl : list (nat * nat)) : list (nat * nat * bool) :=
  match pl with
  | [] => []
  | (e, l) :: r => if (e =? e0) && rep then (e, l, true) :: flags e0 false r else (e, l, false) :: flags e0 rep r
  end.
Lemma identify_places_ops e0 pl : forall rep M, identify_places e0 rep pl M = run_ops (flags e0 rep pl) M.
Proof.
  induction pl as [|[e l] pl IH]; intros rep M; cbn [identify_places flags]; auto.
  destruct ((e =? e0) && rep); cbn [run_ops]; destruct (set_row_at _ M e l); auto.
Qed.
Lemma value_places_ops e0 v pl : forall rep b, value_places e0 rep v pl b = run_vops (flags e0 rep pl) v b.
Proof.
  induction pl as [|[e l] pl IH]; intros rep b; cbn [value_places flags]; auto.
  destruct ((e =? e0) && rep); cbn [run_vops]; destruct (set_at b e l _); auto.
Qed.
Definition zeros (pl : list (nat * nat)) : list (nat * nat * bool) := map (fun p => (p, false)) pl.
Lemma zero_places_ops pl : forall M, zero_places pl M = run_ops (zeros pl) M.
Proof. induction pl as [|[e l] pl IH]; intros M; cbn; auto. destruct (set_row_at _ M e l); auto. Qed.
Lemma zero_values_ops v pl : forall b, zero_values pl b = run_vops (zeros pl) v b.
Proof. induction pl as [|[e l] pl IH]; intros b; cbn; auto. destruct (set_at b e l _); auto. Qed.
Lemma zeros_fst pl : map fst (zeros pl) = pl.
Proof. unfold zeros. rewrite map_map. cbn. apply map_id. Qed.
Lemma flags_fst e0 pl : forall rep, map fst (flags e0 rep pl) = pl.
Proof. induction pl as [|[e l] pl IH]; intros rep; cbn; auto. destruct ((e =? e0) && rep); cbn; now rewrite IH. Qed.
Lemma flags_false e0 pl : flags e0 false pl = zeros pl.
Proof. induction pl as [|[e l] pl IH]; cbn; auto. rewrite andb_false_r. now rewrite IH. Qed.
Lemma flags_true e0 pl : (exists l, In (e0, l) pl) -> exists l0, In (e0, l0) pl /\ forall e l, NoDup pl -> (In (e, l, true) (flags e0 true pl) <-> (e, l) = (e0, l0)).
Proof.
  induction pl as [|[e l] pl IH]; intros [l1 H1]; [destruct H1|]. cbn [flags]. rewrite andb_true_r. destruct (Nat.eqb_spec e e0) as [->|He].
  - exists l. split; [now left|]. intros e' l' _. cbn. rewrite flags_false. unfold zeros. rewrite in_map_iff. split; [intros [[= <- <-]|(p & [= _ ] & _)]; auto|intros [= -> ->]; auto].
  - destruct H1 as [[= -> ->]|H1]; [congruence|]. destruct IH as (l0 & H0 & H); [eauto|]. exists l0. split; [now right|].
    intros e' l' Hn. inversion Hn; subst. rewrite <- (H e' l') by auto. cbn. split; [intros [[= ]|?]; auto|auto].
Qed.

(** ** the representative of a dof *)
Lemma places_any (g : dgm) i : used g i <-> exists k e l, In (e, l) (locate (nth k g []) i) /\ k < length g.
Proof.
  assert (L : forall (r : rgm) d e l, In (e, l) (locate r d) <-> exists row, In (e, row) r /\ nth_error row l = Some d).
  { intros r d e l. unfold locate. rewrite in_flat_map. split.
    - intros ([e' row] & H1 & H2). cbn in H2. apply in_map_iff in H2 as (l' & [= <- <-] & H2). apply where_eq_spec in H2 as [_ H2].
      rewrite Nat.sub_0_r in H2. eauto.
    - intros (row & H1 & H2). exists (e, row). split; auto. apply in_map_iff. exists l. split; auto. apply where_eq_spec. rewrite Nat.sub_0_r. split; [lia|auto]. }
  split.
  - intros (e & row & (r & Hr & Hrow) & Hi). apply In_nth_error in Hi as [l Hl]. apply In_nth with (d := []) in Hr as (k & Hk & Er).
    exists k, e, l. split; auto. rewrite Er. apply L. eauto.
  - intros (k & e & l & H & Hk). apply L in H as (row & H1 & H2). exists e, row. split; [|eapply nth_error_In; eauto].
    exists (nth k g []). split; auto. now apply nth_In.
Qed.
Lemma locate_in (r : rgm) d e l : In (e, l) (locate r d) <-> exists row, In (e, row) r /\ nth_error row l = Some d.
Proof.
  unfold locate. rewrite in_flat_map. split.
  - intros ([e' row] & H1 & H2). cbn in H2. apply in_map_iff in H2 as (l' & [= <- <-] & H2). apply where_eq_spec in H2 as [_ H2].
    rewrite Nat.sub_0_r in H2. eauto.
  - intros (row & H1 & H2). exists (e, row). split; auto. apply in_map_iff. exists l. split; auto. apply where_eq_spec. rewrite Nat.sub_0_r. split; [lia|auto].
Qed.
Lemma first_some_spec {A} (l : list (option A)) : (exists a, In (Some a) l) -> exists a, first_some l = Some a /\ In (Some a) l.
Proof. induction l as [|[a|] l IH]; intros [x H]; [destruct H| |]; cbn. - exists a. auto. - destruct H as [H|H]; [discriminate|]. destruct IH as (b & E & Hb); eauto. Qed.
Lemma index_of_spec {A} (f : A -> bool) l : forall k, (exists a, In a l /\ f a = true) ->
  exists j a, index_of f k l = Some (k + j) /\ nth_error l j = Some a /\ f a = true.
Proof.
  induction l as [|x l IH]; intros k (a & Hi & Hf); [destruct Hi|]. cbn [index_of]. destruct (f x) eqn:E.
  - exists 0, x. rewrite Nat.add_0_r. auto.
  - destruct Hi as [->|Hi]; [congruence|]. destruct (IH (S k)) as (j & b & E1 & E2 & E3); [eauto|]. exists (S j), b. rewrite E1. split; [f_equal; lia|auto].
Qed.
Lemma representative_spec (g : dgm) i : used g i -> exists rk e l, representative g i = Some (rk, e) /\ rk < length g /\ In (e, l) (locate (nth rk g []) i).
Proof.
  intros H. apply places_any in H as (k & e & l & Hin & Hk). unfold representative.
  destruct (first_some_spec (map (fun l => option_map fst (hd_error l)) (map (fun r => locate r i) g))) as (e0 & E & He0).
  { destruct (locate (nth k g []) i) as [|[e' l'] pl] eqn:El; [destruct Hin|]. exists e'. rewrite map_map. apply in_map_iff. exists (nth k g []).
    rewrite El. split; auto. now apply nth_In. }
  rewrite E. rewrite map_map in He0. apply in_map_iff in He0 as (r & Er & Hr).
  destruct (index_of_spec (fun l => existsb (fun ei => fst ei =? e0) l) (map (fun r => locate r i) g) 0) as (j & pl & E1 & E2 & E3).
  { exists (locate r i). split; [now apply (in_map (fun r : rgm => locate r i))|]. destruct (locate r i) as [|[e' l'] pl]; [discriminate|]. cbn in Er. injection Er as ->. cbn. now rewrite Nat.eqb_refl. }
  apply existsb_exists in E3 as ([e' l'] & Hi' & Ee). cbn in Ee. apply Nat.eqb_eq in Ee as ->.
  exists j, e0, l'. rewrite E1. cbn [option_map plus]. split; auto. rewrite nth_error_map in E2. destruct (nth_error g j) as [x|] eqn:Ex; [|discriminate].
  injection E2 as <-. split; [apply nth_error_Some; congruence|]. now rewrite (nth_error_nth _ _ [] Ex).
Qed.
Lemma sum_one l : fold_right Nat.add 0 l = 1 -> exists k, k < length l /\ nth k l 0 = 1 /\ forall j, j <> k -> nth j l 0 = 0.
Proof.
  induction l as [|x l IH]; cbn; [discriminate|]. intros H. destruct x as [|[|x]]; try lia.
  - destruct IH as (k & H1 & H2 & H3); auto. exists (S k). split; [lia|]. split; auto. intros [|j] Hj; auto.
  - exists 0. split; [lia|]. split; auto. intros [|j] Hj; [lia|]. clear - H. revert j. assert (H' : fold_right Nat.add 0 l = 0) by lia. clear H.
    induction l as [|y l IH]; intros [|j]; cbn in *; auto; [lia|]. apply IH. lia.
Qed.
Lemma locate_nodup (g : dgm) k i : wf_numbering g -> NoDup (locate (nth k g []) i).
Proof.
  intros H. destruct (Nat.lt_ge_cases k (length g)) as [Hk|Hk].
  - apply (locate_places (nth k g []) i). apply (wf_rank g); auto. now apply nth_In.
  - rewrite nth_overflow by auto. constructor.
Qed.
(** the one is put at exactly one place of all ranks *)
Lemma flags_of_rows (g : dgm) i : wf_numbering g -> used g i -> exists (fl : nat -> list (nat * nat * bool)) k0 e0 l0,
  (forall k, map fst (fl k) = locate (nth k g []) i) /\
  (forall k M, identify_row_rank g k i M = run_ops (fl k) M) /\
  (forall k v b, set_value_rank g k i v b = run_vops (fl k) v b) /\
  k0 < length g /\ In (e0, l0) (locate (nth k0 g []) i) /\
  (forall k e l, In (e, l, true) (fl k) <-> k = k0 /\ (e, l) = (e0, l0)).
Proof.
  intros Hw Hu. unfold identify_row_rank, set_value_rank. destruct (Nat.eqb_spec (num_locations g i) 1) as [H1|H1].
  - unfold num_locations in H1. apply sum_one in H1 as (k0 & Hk0 & H1 & H0). rewrite map_length in Hk0.
    assert (LN : forall k, nth k (map (fun r => length (locate r i)) g) 0 = length (locate (nth k g []) i)).
    { intros k. change 0 with ((fun r : rgm => length (locate r i)) []) at 1. now rewrite map_nth. }
    rewrite LN in H1. destruct (locate (nth k0 g []) i) as [|[e0 l0] [|]] eqn:E0; try discriminate.
    exists (fun k => map (fun p => (p, true)) (locate (nth k g []) i)), k0, e0, l0.
    assert (HE : forall k, k <> k0 -> locate (nth k g []) i = []).
    { intros k Hk. specialize (H0 k Hk). rewrite LN in H0. now apply length_zero_iff_nil. }
    split; [intros k; rewrite map_map; cbn; apply map_id|].
    split; [intros k M|split; [intros k v b|split; [auto|split; [rewrite E0; now left|]]]].
    + destruct (Nat.eq_dec k k0) as [->|Hk]; [rewrite E0; cbn; now destruct (set_row_at true M e0 l0)|now rewrite HE].
    + destruct (Nat.eq_dec k k0) as [->|Hk]; [rewrite E0; cbn; now destruct (set_at b e0 l0 v)|now rewrite HE].
    + intros k e l. destruct (Nat.eq_dec k k0) as [->|Hk].
      * rewrite E0. cbn. split; [intros [[= <- <-]|[]]; auto|intros [_ [= -> ->]]; auto].
      * rewrite HE by auto. cbn. split; [tauto|intros [-> _]; congruence].
  - destruct (representative_spec g i Hu) as (rk & e0 & l & Er & Hrk & Hl). rewrite Er.
    destruct (flags_true e0 (locate (nth rk g []) i)) as (l0 & Hl0 & HF); [eauto|].
    exists (fun k => if k =? rk then flags e0 true (locate (nth k g []) i) else zeros (locate (nth k g []) i)), rk, e0, l0.
    split; [intros k; destruct (k =? rk); [apply flags_fst|apply zeros_fst]|].
    split; [intros k M; destruct (k =? rk); [apply identify_places_ops|apply zero_places_ops]|].
    split; [intros k v b; destruct (k =? rk); [apply value_places_ops|apply zero_values_ops]|].
    split; auto. split; auto. intros k e l'. destruct (Nat.eqb_spec k rk) as [->|Hk].
    + rewrite HF by (now apply locate_nodup). tauto.
    + unfold zeros. rewrite in_map_iff. split; [intros (p & [= ] & _)|tauto].
Qed.

(** ** all ranks *)
Lemma combine_seq_in {A} (l : list A) : forall s k a, In (k, a) (combine (seq s (length l)) l) <-> s <= k /\ nth_error l (k - s) = Some a.
Proof.
  induction l as [|x l IH]; intros s k a; cbn [length seq combine].
  - simpl. split; [tauto|]. intros [_ H]. destruct (k - s); discriminate.
  - cbn [In]. rewrite IH. split.
    + intros [[= <- <-]|[H1 H2]]; [rewrite Nat.sub_diag; auto|]. split; [lia|]. replace (k - s) with (S (k - S s)) by lia. auto.
    + intros [H1 H2]. destruct (Nat.eq_dec s k) as [->|Hs].
      * left. rewrite Nat.sub_diag in H2. injection H2 as ->. auto.
      * right. split; [lia|]. replace (k - s) with (S (k - S s)) in H2 by lia. auto.
Qed.
Lemma obind_indexed {A B} (l : list A) (f : nat -> A -> option B) (P : nat -> A -> B -> Prop) :
  (forall k a, nth_error l k = Some a -> exists b, f k a = Some b /\ P k a b) ->
  exists l', obind (combine (seq 0 (length l)) l) (fun ka => f (fst ka) (snd ka)) = Some l' /\ length l' = length l /\
    forall k a b, nth_error l k = Some a -> nth_error l' k = Some b -> P k a b.
Proof.
  intros H.
  assert (G : forall l s, (forall k a, nth_error l k = Some a -> exists b, f (s + k) a = Some b /\ P (s + k) a b) ->
    exists l', obind (combine (seq s (length l)) l) (fun ka => f (fst ka) (snd ka)) = Some l' /\ length l' = length l /\
    forall k a b, nth_error l k = Some a -> nth_error l' k = Some b -> P (s + k) a b).
  { clear. induction l as [|a l IH]; intros s H.
    - exists []. repeat split; auto. intros [|k] a b H1; discriminate.
    - destruct (H 0 a eq_refl) as (b & E & Hb). rewrite Nat.add_0_r in *. destruct (IH (S s)) as (l' & E' & Hl & HP).
      { intros k a' Hk. destruct (H (S k) a' Hk) as (b' & Eb & Hb'). rewrite <- plus_n_Sm in *. eauto. }
      exists (b :: l'). cbn [length seq combine obind fst snd]. rewrite E, E'. repeat split; [simpl; lia|].
      intros [|k] a' b' H1 H2.
      + injection H1 as <-. injection H2 as <-. now rewrite Nat.add_0_r.
      + rewrite <- plus_n_Sm. apply (HP k); auto. }
  destruct (G l 0) as (l' & E & Hl & HP); [intros; apply H; auto|]. exists l'. auto.
Qed.
Lemma nth_error_same {A B C} (f : A -> C) (g : B -> C) l l' k a b : map f l = map g l' -> nth_error l k = Some a -> nth_error l' k = Some b -> f a = g b.
Proof. intros H H1 H2. apply (map_nth_error f) in H1. apply (map_nth_error g) in H2. rewrite H, H2 in H1. congruence. Qed.
Lemma nth_error_len {A B} (l : list A) (l' : list B) k a : length l = length l' -> nth_error l k = Some a -> exists b, nth_error l' k = Some b.
Proof.
  intros H E. destruct (nth_error l' k) eqn:E'; [eauto|]. apply nth_error_None in E'. assert (k < length l) by (apply nth_error_Some; congruence). lia.
Qed.
Lemma in_elements {V} (g : dgm) (Ms : list (dict nat V)) e : map keys Ms = map keys g -> (In e (elements g) <-> exists k M, nth_error Ms k = Some M /\ In e (keys M)).
Proof.
  intros H. rewrite elements_keys, <- H, in_concat. split.
  - intros (l & Hl & He). apply in_map_iff in Hl as (M & <- & HM). apply In_nth_error in HM as [k Hk]. eauto.
  - intros (k & M & Hk & He). exists (keys M). split; auto. apply in_map. eapply nth_error_In; eauto.
Qed.
Lemma keys_nodup {V} (g : dgm) (Ms : list (dict nat V)) : wf_numbering g -> map keys Ms = map keys g -> NoDup (concat (map keys Ms)).
Proof. intros H E. rewrite E. unfold wf_numbering in H. now rewrite map_fst_keys in H. Qed.
Lemma mat_of_rank gr Ms k M e : wf_numbering gr -> map keys Ms = map keys gr -> nth_error Ms k = Some M -> In e (keys M) -> mat_of Ms e = dat M e.
Proof.
  intros Hw Hk HM He. unfold mat_of, dat. rewrite (rank_get Ms M e); auto; [eapply keys_nodup; eauto|eapply nth_error_In; eauto].
Qed.
Lemma vec_of_rank gr bs k b e : wf_numbering gr -> map keys bs = map keys gr -> nth_error bs k = Some b -> In e (keys b) -> vec_of bs e = vdat b e.
Proof.
  intros Hw Hk HM He. unfold vec_of, vdat. rewrite (rank_get bs b e); auto; [eapply keys_nodup; eauto|eapply nth_error_In; eauto].
Qed.
Lemma in_rank_place (g : dgm) k e l d : wf_numbering g -> In e (keys (nth k g [])) ->
  (In (e, l) (locate (nth k g []) d) <-> nth_error (numbers g e) l = Some d).
Proof.
  intros Hw He. destruct (Nat.lt_ge_cases k (length g)) as [Hk|Hk]; [|rewrite nth_overflow in He by auto; destruct He].
  pose proof (nth_In g [] Hk) as Hin. pose proof (rank_numbers g _ e Hw Hin He) as E.
  assert (Hrow : In (e, numbers g e) (nth k g [])) by (now apply (get_in Nat.eqb Nat_eqb_spec)).
  rewrite locate_in. split.
  - intros (row & H1 & H2). replace (numbers g e) with row; auto.
    apply (in_get Nat.eqb Nat_eqb_spec) in H1; [congruence|]. now apply (wf_rank g).
  - intros H. eauto.
Qed.
Lemma key_place (g : dgm) k e l d : In (e, l) (locate (nth k g []) d) -> In e (keys (nth k g [])).
Proof. rewrite locate_in. intros (row & H & _). apply in_map_iff. exists (e, row). auto. Qed.
Lemma same_rank (g : dgm) k k' e : wf_numbering g -> In e (keys (nth k g [])) -> In e (keys (nth k' g [])) -> k = k'.
Proof.
  unfold wf_numbering. rewrite map_fst_keys. revert k k'. induction g as [|x g IH]; intros k k' Hn; [destruct k; intros []|].
  cbn [map concat] in Hn. apply NoDup_app_elim in Hn as (_ & Hn & Hd).
  assert (HI : forall j, In e (keys (nth j g [])) -> In e (concat (map keys g))).
  { intros j Hj. destruct (Nat.lt_ge_cases j (length g)) as [Hj'|Hj']; [|rewrite nth_overflow in Hj by auto; destruct Hj].
    apply in_concat. exists (keys (nth j g [])). split; auto. apply in_map. now apply nth_In. }
  destruct k as [|k], k' as [|k']; cbn [nth]; intros H1 H2; auto.
  - exfalso. eapply Hd; eauto.
  - exfalso. eapply Hd; eauto.
Qed.
Lemma obind_ext {A B} (f f' : A -> option B) l : (forall a, In a l -> f a = f' a) -> obind l f = obind l f'.
Proof. induction l as [|a l IH]; intros H; cbn; auto. rewrite (H a (or_introl eq_refl)), IH; auto. intros; apply H; now right. Qed.
Lemma nth_error_list_ext {A} (l : list A) : forall l', (forall k, nth_error l k = nth_error l' k) -> l = l'.
Proof.
  induction l as [|a l IH]; intros [|b l'] H; auto; try (specialize (H 0); discriminate). f_equal; [specialize (H 0); now injection H|].
  apply IH. intros k. apply (H (S k)).
Qed.
Lemma nodup_rank {V} (Ms : list (dict nat V)) M : NoDup (concat (map keys Ms)) -> In M Ms -> NoDup (keys M).
Proof.
  induction Ms as [|x l IH]; intros HN HM; [destruct HM|]. cbn in HN. apply NoDup_app_elim in HN as (? & ? & _). destruct HM as [->|]; auto.
Qed.
Definition place (g : dgm) (d e a : nat) : bool := match nth_error (numbers g e) a with Some x => x =? d | None => false end.
Lemma run_ranks (fl : nat -> list (nat * nat * bool)) (one : nat -> nat -> bool) gr gc Ms d : fits gr gc Ms ->
  (forall k, map fst (fl k) = locate (nth k gr []) d) -> (forall k e l o, In (e, l, o) (fl k) -> o = one e l) ->
  (forall e l, one e l = true -> nth_error (numbers gr e) l = Some d -> l < length (numbers gc e)) ->
  exists Ms', obind (combine (seq 0 (length Ms)) Ms) (fun kM => run_ops (fl (fst kM)) (snd kM)) = Some Ms' /\ fits gr gc Ms' /\
    forall e a b, In e (elements gr) -> mat_of Ms' e a b = if place gr d e a then (if one e a && (a =? b) then 1%Qc else 0%Qc) else mat_of Ms e a b.
Proof.
  intros (Hwr & Hwc & Hk & He & Hs) Hfl Ho Hlt.
  assert (L : length gr = length Ms) by (now rewrite <- (map_length keys gr), <- Hk, map_length).
  assert (KM : forall k M, nth_error Ms k = Some M -> keys M = keys (nth k gr [])).
  { intros k M HM. destruct (nth_error_len Ms gr k M (eq_sym L) HM) as [x Hx]. rewrite (nth_error_nth _ _ [] Hx). now apply (nth_error_same keys keys Ms gr k). }
  assert (GM : forall k M e m, nth_error Ms k = Some M -> nget M e = Some m -> sm_ok m /\ sm_nr m = length (numbers gr e) /\ sm_nc m = length (numbers gc e)).
  { intros k M e m HM Hm. apply Hs. apply in_concat. exists M. split; [eapply nth_error_In; eauto|now apply (get_in Nat.eqb Nat_eqb_spec)]. }
  destruct (obind_indexed Ms (fun k M => run_ops (fl k) M) (fun k M M' => shapes M M' /\
    forall e a b, dat M' e a b = match flagged (fl k) e a with Some one => if one && (a =? b) then 1%Qc else 0%Qc | None => dat M e a b end)) as (Ms' & E & Hl' & HP).
  { intros k M HM. apply run_ops_ok.
    - rewrite Hfl. now apply locate_nodup.
    - intros e m Hm. now apply (GM k M e m).
    - intros e l o Hin. assert (Hpl : In (e, l) (locate (nth k gr []) d)) by (rewrite <- Hfl; apply in_map_iff; exists (e, l, o); auto).
      pose proof (key_place _ _ _ _ _ Hpl) as Hke. apply (in_rank_place gr k e l d Hwr Hke) in Hpl as Hn.
      rewrite <- (KM k M HM) in Hke. apply (get_keys Nat.eqb Nat_eqb_spec) in Hke as [m Hm]. exists m. split; auto.
      destruct (GM k M e m HM Hm) as (_ & -> & ->). split; [apply nth_error_Some; congruence|]. intros ->. apply Hlt; auto. symmetry. eapply Ho; eauto. }
  assert (Hk' : map keys Ms' = map keys gr).
  { rewrite <- Hk. apply nth_error_list_ext. intros k. rewrite !nth_error_map. destruct (nth_error Ms k) as [M|] eqn:EM.
    - destruct (nth_error_len Ms Ms' k M (eq_sym Hl') EM) as [M' EM']. rewrite EM'. cbn. f_equal. apply (HP k M M' EM EM').
    - apply nth_error_None in EM. assert (nth_error Ms' k = None) as -> by (apply nth_error_None; lia). reflexivity. }
  exists Ms'. split; auto. split; [split; [auto|split; [auto|split; [auto|split; [auto|]]]]|].
  - intros e m' H. apply in_concat in H as (M' & HM' & H). apply In_nth_error in HM' as [k HM']. destruct (nth_error_len Ms' Ms k M' Hl' HM') as [M HM].
    destruct (HP k M M' HM HM') as ((_ & Hsh) & _). apply (in_get Nat.eqb Nat_eqb_spec) in H.
    + destruct (Hsh e m' H) as (Hok & m & Hm & -> & ->). split; auto. apply (GM k M e m HM Hm).
    + apply nodup_rank with (Ms := Ms'); [apply (keys_nodup gr); auto|eapply nth_error_In; eauto].
  - intros e a b Hel. apply (in_elements gr Ms e Hk) in Hel as (k & M & HM & HeM). destruct (nth_error_len Ms Ms' k M (eq_sym Hl') HM) as [M' HM'].
    destruct (HP k M M' HM HM') as ((Hkk & _) & Hd).
    rewrite (mat_of_rank gr Ms k M e) by auto. rewrite (mat_of_rank gr Ms' k M' e) by (auto; now rewrite Hkk). rewrite Hd.
    assert (HeG : In e (keys (nth k gr []))) by (now rewrite <- (KM k M HM)).
    unfold place. destruct (flagged (fl k) e a) as [o|] eqn:EF.
    + apply flagged_in in EF. pose proof (Ho k e a o EF) as ->.
      assert (Hpl : In (e, a) (locate (nth k gr []) d)) by (rewrite <- Hfl; apply in_map_iff; exists (e, a, one e a); auto).
      apply (in_rank_place gr k e a d Hwr HeG) in Hpl. rewrite Hpl, Nat.eqb_refl. reflexivity.
    + destruct (nth_error (numbers gr e) a) as [x|] eqn:En; auto. destruct (Nat.eqb_spec x d) as [->|]; auto. exfalso.
      apply (in_rank_place gr k e a d Hwr HeG) in En. rewrite <- Hfl in En. apply flagged_some in En as [o Eo]. congruence.
Qed.
Lemma run_vranks (fl : nat -> list (nat * nat * bool)) (one : nat -> nat -> bool) g bs d v : vfits g bs ->
  (forall k, map fst (fl k) = locate (nth k g []) d) -> (forall k e l o, In (e, l, o) (fl k) -> o = one e l) ->
  exists bs', obind (combine (seq 0 (length bs)) bs) (fun kb => run_vops (fl (fst kb)) v (snd kb)) = Some bs' /\ vfits g bs' /\
    forall e a, In e (elements g) -> vec_of bs' e a = if place g d e a then (if one e a then v else 0%Qc) else vec_of bs e a.
Proof.
  intros (Hw & Hk & Hs) Hfl Ho.
  assert (L : length g = length bs) by (now rewrite <- (map_length keys g), <- Hk, map_length).
  assert (KM : forall k M, nth_error bs k = Some M -> keys M = keys (nth k g [])).
  { intros k M HM. destruct (nth_error_len bs g k M (eq_sym L) HM) as [x Hx]. rewrite (nth_error_nth _ _ [] Hx). now apply (nth_error_same keys keys bs g k). }
  assert (GM : forall k M e m, nth_error bs k = Some M -> nget M e = Some m -> length m = length (numbers g e)).
  { intros k M e m HM Hm. apply Hs. apply in_concat. exists M. split; [eapply nth_error_In; eauto|now apply (get_in Nat.eqb Nat_eqb_spec)]. }
  destruct (obind_indexed bs (fun k M => run_vops (fl k) v M) (fun k M M' => vshapes M M' /\
    forall e a, vdat M' e a = match flagged (fl k) e a with Some one => if one : bool then v else 0%Qc | None => vdat M e a end)) as (bs' & E & Hl' & HP).
  { intros k M HM. apply run_vops_ok.
    - rewrite Hfl. now apply locate_nodup.
    - intros e l o Hin. assert (Hpl : In (e, l) (locate (nth k g []) d)) by (rewrite <- Hfl; apply in_map_iff; exists (e, l, o); auto).
      pose proof (key_place _ _ _ _ _ Hpl) as Hke. apply (in_rank_place g k e l d Hw Hke) in Hpl as Hn.
      rewrite <- (KM k M HM) in Hke. apply (get_keys Nat.eqb Nat_eqb_spec) in Hke as [m Hm]. exists m. split; auto.
      rewrite (GM k M e m HM Hm). apply nth_error_Some. congruence. }
  assert (Hk' : map keys bs' = map keys g).
  { rewrite <- Hk. apply nth_error_list_ext. intros k. rewrite !nth_error_map. destruct (nth_error bs k) as [M|] eqn:EM.
    - destruct (nth_error_len bs bs' k M (eq_sym Hl') EM) as [M' EM']. rewrite EM'. cbn. f_equal. apply (HP k M M' EM EM').
    - apply nth_error_None in EM. assert (nth_error bs' k = None) as -> by (apply nth_error_None; lia). reflexivity. }
  exists bs'. split; auto. split; [split; [auto|split; [auto|]]|].
  - intros e m' H. apply in_concat in H as (M' & HM' & H). apply In_nth_error in HM' as [k HM']. destruct (nth_error_len bs' bs k M' Hl' HM') as [M HM].
    destruct (HP k M M' HM HM') as ((_ & Hsh) & _). apply (in_get Nat.eqb Nat_eqb_spec) in H.
    + destruct (Hsh e m' H) as (m & Hm & ->). apply (GM k M e m HM Hm).
    + apply nodup_rank with (Ms := bs'); [apply (keys_nodup g); auto|eapply nth_error_In; eauto].
  - intros e a Hel. apply (in_elements g bs e Hk) in Hel as (k & M & HM & HeM). destruct (nth_error_len bs bs' k M (eq_sym Hl') HM) as [M' HM'].
    destruct (HP k M M' HM HM') as ((Hkk & _) & Hd).
    rewrite (vec_of_rank g bs k M e) by auto. rewrite (vec_of_rank g bs' k M' e) by (auto; now rewrite Hkk). rewrite Hd.
    assert (HeG : In e (keys (nth k g []))) by (now rewrite <- (KM k M HM)).
    unfold place. destruct (flagged (fl k) e a) as [o|] eqn:EF.
    + apply flagged_in in EF. pose proof (Ho k e a o EF) as ->.
      assert (Hpl : In (e, a) (locate (nth k g []) d)) by (rewrite <- Hfl; apply in_map_iff; exists (e, a, one e a); auto).
      apply (in_rank_place g k e a d Hw HeG) in Hpl. rewrite Hpl, Nat.eqb_refl. reflexivity.
    + destruct (nth_error (numbers g e) a) as [x|] eqn:En; auto. destruct (Nat.eqb_spec x d) as [->|]; auto. exfalso.
      apply (in_rank_place g k e a d Hw HeG) in En. rewrite <- Hfl in En. apply flagged_some in En as [o Eo]. congruence.
Qed.

(** ** the effect on the assembled matrix and vector *)
Lemma global_entry_ext gr gc M M' r c : (forall e a b, In e (elements gr) -> a < length (numbers gr e) -> b < length (numbers gc e) ->
    nth a (numbers gr e) 0 = r -> nth b (numbers gc e) 0 = c -> M e a b = M' e a b) -> global_entry gr gc M r c = global_entry gr gc M' r c.
Proof.
  intros H. unfold global_entry. apply qsum_map_ext. intros e He. apply sumq_ext. intros a Ha. apply sumq_ext. intros b Hb.
  destruct (Nat.eqb_spec (nth a (numbers gr e) 0) r), (Nat.eqb_spec (nth b (numbers gc e) 0) c); cbn [andb]; auto.
Qed.
Lemma place_nth (g : dgm) d e a : a < length (numbers g e) -> place g d e a = (nth a (numbers g e) 0 =? d).
Proof. intros H. unfold place. now rewrite (nth_nth_error _ _ 0 H). Qed.
Lemma changed_entry (gr gc : dgm) Mf Mf' d one : wf_numbering gr ->
  (forall e a b, In e (elements gr) -> Mf' e a b = if place gr d e a then (if one e a && (a =? b) then 1%Qc else 0%Qc) else Mf e a b) ->
  (forall r c, r <> d -> global_entry gr gc Mf' r c = global_entry gr gc Mf r c) /\
  ((forall e a, one e a = false) -> forall c, global_entry gr gc Mf' d c = 0%Qc) /\
  (forall e0 l0, In e0 (elements gr) -> nth_error (numbers gr e0) l0 = Some d -> l0 < length (numbers gc e0) ->
     (forall e a, one e a = (e =? e0) && (a =? l0)) -> forall c, global_entry gr gc Mf' d c = if nth l0 (numbers gc e0) 0 =? c then 1%Qc else 0%Qc).
Proof.
  intros Hw H. split; [|split].
  - intros r c Hr. apply global_entry_ext. intros e a b He Ha Hb E _. rewrite H by auto. rewrite place_nth by auto.
    destruct (Nat.eqb_spec (nth a (numbers gr e) 0) d); auto. congruence.
  - intros Ho c. unfold global_entry. apply qsum_map_zero. intros e He. apply sumq_zero. intros a Ha. apply sumq_zero. intros b Hb.
    rewrite H by auto. rewrite place_nth by auto. destruct (nth a (numbers gr e) 0 =? d); auto. cbn [andb]. rewrite Ho. cbn. now destruct (_ =? c).
  - intros e0 l0 He0 Hl0 Hc0 Ho c. assert (Hlr : l0 < length (numbers gr e0)) by (apply nth_error_Some; congruence).
    apply (nth_error_nth _ _ 0) in Hl0. unfold global_entry.
    assert (Z : forall e a b, In e (elements gr) -> a < length (numbers gr e) -> (e, a, b) <> (e0, l0, l0) ->
      (if (nth a (numbers gr e) 0 =? d) && (nth b (numbers gc e) 0 =? c) then Mf' e a b else 0%Qc) = 0%Qc).
    { intros e a b He Ha Hne. rewrite H by auto. rewrite place_nth by auto. destruct (nth a (numbers gr e) 0 =? d); auto. cbn [andb].
      destruct (_ =? c); auto. rewrite Ho. destruct (Nat.eqb_spec e e0), (Nat.eqb_spec a l0), (Nat.eqb_spec a b); subst; cbn; auto. congruence. }
    rewrite (qsum_single Nat.eq_dec _ _ e0); [|now apply elements_nodup|auto|].
    + rewrite (sumq_single _ _ l0); [|auto|].
      * rewrite (sumq_single _ _ l0); [|auto|].
        -- rewrite Hl0, Nat.eqb_refl. cbn [andb]. destruct (_ =? c); auto. rewrite H by auto. rewrite place_nth by auto.
           rewrite Hl0, Ho, !Nat.eqb_refl. reflexivity.
        -- intros b Hb Hne. apply Z; auto. congruence.
      * intros a Ha Hne. apply sumq_zero. intros b Hb. apply Z; auto. congruence.
    + intros e He Hne. apply sumq_zero. intros a Ha. apply sumq_zero. intros b Hb. apply Z; auto. congruence.
Qed.
Lemma changed_value (g : dgm) bf bf' d v e0 l0 : wf_numbering g -> In e0 (elements g) -> nth_error (numbers g e0) l0 = Some d ->
  (forall e a, In e (elements g) -> bf' e a = if place g d e a then (if (e =? e0) && (a =? l0) then v else 0%Qc) else bf e a) ->
  forall r, global_value g bf' r = if r =? d then v else global_value g bf r.
Proof.
  intros Hw He0 Hl0 H r. assert (Hlr : l0 < length (numbers g e0)) by (apply nth_error_Some; congruence).
  apply (nth_error_nth _ _ 0) in Hl0. unfold global_value. destruct (Nat.eqb_spec r d) as [->|Hr].
  - assert (Z : forall e a, In e (elements g) -> a < length (numbers g e) -> (e, a) <> (e0, l0) -> (if nth a (numbers g e) 0 =? d then bf' e a else 0%Qc) = 0%Qc).
    { intros e a He Ha Hne. rewrite H by auto. rewrite place_nth by auto. destruct (nth a (numbers g e) 0 =? d); auto.
      destruct (Nat.eqb_spec e e0), (Nat.eqb_spec a l0); subst; cbn; auto. congruence. }
    rewrite (qsum_single Nat.eq_dec _ _ e0); [|now apply elements_nodup|auto|].
    + rewrite (sumq_single _ _ l0); [|auto|].
      * rewrite Hl0, Nat.eqb_refl, H by auto. rewrite place_nth by auto. rewrite Hl0, !Nat.eqb_refl. reflexivity.
      * intros a Ha Hne. apply Z; auto. congruence.
    + intros e He Hne. apply sumq_zero. intros a Ha. apply Z; auto. congruence.
  - apply qsum_map_ext. intros e He. apply sumq_ext. intros a Ha. destruct (Nat.eqb_spec (nth a (numbers g e) 0) r) as [E|]; auto.
    rewrite H by auto. rewrite place_nth by auto. destruct (Nat.eqb_spec (nth a (numbers g e) 0) d); auto. congruence.
Qed.
(** one rank, one place *)
Lemma flags_one (g : dgm) d fl k0 e0 l0 : wf_numbering g -> (forall k, map fst (fl k) = locate (nth k g []) d) ->
  (forall k e l, In (e, l, true) (fl k) <-> k = k0 /\ (e, l) = (e0, l0)) -> forall k e l o, In (e, l, o) (fl k) -> o = (e =? e0) && (l =? l0).
Proof.
  intros Hw Hf Ht k e l o Hi. destruct o.
  - apply Ht in Hi as [_ [= -> ->]]. now rewrite !Nat.eqb_refl.
  - destruct (Nat.eqb_spec e e0) as [->|]; auto. destruct (Nat.eqb_spec l l0) as [->|]; auto. exfalso.
    assert (Hi0 : In (e0, l0, true) (fl k0)) by (apply Ht; auto).
    assert (P : forall k o, In (e0, l0, o) (fl k) -> In (e0, l0) (locate (nth k g []) d)) by (intros k' o H; rewrite <- Hf; apply in_map_iff; exists (e0, l0, o); auto).
    assert (k = k0) as -> by (eapply (same_rank g); eauto using key_place).
    assert (HN : NoDup (map fst (fl k0))) by (rewrite Hf; now apply locate_nodup).
    clear - HN Hi Hi0. induction (fl k0) as [|[p o] l IH]; [destruct Hi|]. cbn in *. inversion HN; subst.
    destruct Hi as [[= -> ->]|Hi], Hi0 as [E0|Hi0]; auto; try congruence.
    + apply H1. apply in_map_iff. exists (e0, l0, true). auto.
    + injection E0 as -> ->. apply H1. apply in_map_iff. exists (e0, l0, false). auto.
Qed.
Lemma place_element (g : dgm) k e l d : k < length g -> In (e, l) (locate (nth k g []) d) -> In e (elements g).
Proof.
  intros Hk H. apply key_place in H. rewrite elements_keys. apply in_concat. exists (keys (nth k g [])). split; auto. apply in_map. now apply nth_In.
Qed.
(** identifying a row: matrix and vector get their one and value at the same place *)
Lemma identify_row_ok gr gc Ms i d : fits gr gc Ms -> used gr d -> norm_dof (num_dofs gr) i = Some d ->
  (forall e, In e (elements gr) -> length (numbers gr e) = length (numbers gc e)) ->
  exists Ms' e0 l0, identify_row gr Ms i = Some Ms' /\ fits gr gc Ms' /\ In e0 (elements gr) /\ nth_error (numbers gr e0) l0 = Some d /\
    forall r c, global_entry gr gc (mat_of Ms') r c = if r =? d then (if nth l0 (numbers gc e0) 0 =? c then 1%Qc else 0%Qc) else global_entry gr gc (mat_of Ms) r c.
Proof.
  intros Hf Hu Hn Hsq. pose proof Hf as (Hwr & _). destruct (flags_of_rows gr d Hwr Hu) as (fl & k0 & e0 & l0 & Hfl & Hid & _ & Hk0 & Hpl & Ht).
  pose proof (place_element _ _ _ _ _ Hk0 Hpl) as He0. pose proof Hpl as Hnn. apply (in_rank_place gr k0 e0 l0 d Hwr (key_place _ _ _ _ _ Hpl)) in Hnn.
  destruct (run_ranks fl (fun e l => (e =? e0) && (l =? l0)) gr gc Ms d) as (Ms' & E & Hf' & Hm); auto.
  { eapply flags_one; eauto. }
  { intros e l H1 H2. apply andb_prop in H1 as [H1 _]. apply Nat.eqb_eq in H1 as ->. rewrite <- Hsq by auto. apply nth_error_Some. congruence. }
  exists Ms', e0, l0. split; [|split; [auto|split; [auto|split; [auto|]]]].
  - unfold identify_row. rewrite Hn, <- E. apply obind_ext. intros [k M] _. apply Hid.
  - intros r c. destruct (changed_entry gr gc (mat_of Ms) (mat_of Ms') d _ Hwr Hm) as (H1 & _ & H3). destruct (Nat.eqb_spec r d) as [->|Hr]; [|auto].
    apply H3; auto. rewrite <- Hsq by auto. apply nth_error_Some. congruence.
Qed.
