(** Numbers of nodes, pairs and boundary triangles as the code finds them. *)
From Coq Require Import List ZArith QArith Qcanon Bool Lia.
From Verif Require Import TrfModel TrfSpec TrfLattice TrfLattice2 TrfSide TrfGlue TrfStatic TrfConform TrfLeaves.
Import ListNotations.
Local Open Scope Z_scope.

Lemma emem_spec x l : emem x l = true <-> In x l.
Proof. unfold emem. destruct (in_dec elem_eq_dec x l); split; auto; discriminate. Qed.
Lemma emem_false x l : emem x l = false <-> ~ In x l.
Proof. rewrite <- emem_spec. destruct (emem x l); split; auto; congruence. Qed.
Lemma nodupb_spec l : nodupb l = true <-> NoDup l.
Proof.
  induction l as [|x l IH]; cbn; [split; auto; constructor|]. rewrite andb_true_iff, negb_true_iff, emem_false, IH, NoDup_cons_iff. reflexivity.
Qed.
Lemma traverse_some {A B} (f : A -> option B) (g : A -> B) l : (forall a, In a l -> f a = Some (g a)) -> traverse f l = Some (map g l).
Proof. induction l as [|a l IH]; cbn; auto. intros H. rewrite (H a) by auto. rewrite IH by auto. reflexivity. Qed.
Lemma enter_in tab i j : In j (enter tab i) <-> In j tab \/ j = i.
Proof. unfold enter. destruct (in_dec ind_eq_dec i tab); [split; auto; intros [H | ->]; auto|]. rewrite in_app_iff. cbn. intuition. Qed.
Lemma fold_enter_in l : forall tab j, In j (fold_left enter l tab) <-> In j tab \/ In j l.
Proof. induction l as [|i l IH]; cbn; intros tab j; [tauto|]. rewrite IH, enter_in. intuition. Qed.
Lemma table_in L j : In j (table L) <-> exists l, In l L /\ In j l.
Proof. unfold table. rewrite fold_enter_in, in_concat. cbn. firstorder. Qed.
Lemma place_inj tab i j : In i tab -> (place tab i = place tab j <-> i = j).
Proof.
  intros H. split; [|intros ->; reflexivity]. revert H. induction tab as [|a tab IH]; cbn; [tauto|].
  destruct (ind_eq_dec i a) as [-> | N], (ind_eq_dec j a) as [-> | N']; auto; try discriminate.
  intros [-> | H]; [congruence|]. intros E. injection E. auto.
Qed.
Lemma fold_enter_nodup l : forall tab, NoDup tab -> NoDup (fold_left enter l tab).
Proof.
  induction l as [|i l IH]; cbn; auto. intros tab H. apply IH. unfold enter. destruct (in_dec ind_eq_dec i tab); auto.
  apply NoDup_rev in H. rewrite <- (rev_involutive (tab ++ [i])). apply NoDup_rev. rewrite rev_app_distr. cbn. constructor; [rewrite <- in_rev; assumption|assumption].
Qed.
Lemma place_lt tab i : In i tab -> (place tab i < length tab)%nat.
Proof. induction tab as [|a tab IH]; cbn; [tauto|]. intros H. destruct (ind_eq_dec i a); [lia|]. destruct H as [-> | H]; [congruence|]. apply IH in H. lia. Qed.
Lemma place_onto tab n : NoDup tab -> (n < length tab)%nat -> exists i, In i tab /\ place tab i = n.
Proof.
  revert n. induction tab as [|a tab IH]; cbn; [lia|]. intros n H L. apply NoDup_cons_iff in H. destruct H as [Na H]. destruct n as [|n].
  - exists a. destruct (ind_eq_dec a a); [auto|congruence].
  - destruct (IH n H) as (i & I & E); [lia|]. exists i. split; [auto|]. destruct (ind_eq_dec i a) as [-> | N]; [tauto|]. rewrite E. reflexivity.
Qed.
Lemma sorted2_eq a b c d : sorted2 a b = sorted2 c d <-> (a = c /\ b = d) \/ (a = d /\ b = c).
Proof. unfold sorted2. rewrite pair_equal_spec. lia. Qed.
Lemma nneqb_spec a b : nneqb a b = true <-> a = b.
Proof. destruct a, b. unfold nneqb. cbn. rewrite andb_true_iff, !Nat.eqb_eq, pair_equal_spec. reflexivity. Qed.

(** groups *)
Notation entry := (elem * list nat)%type.
Definition group (m : list entry) (k : nat * nat) : list elem :=
  map fst (filter (fun x => is_tri (fst x) && nneqb k (bottom (snd x))) m).
Definition grouped (m : list entry) (B : bottoms) : Prop :=
  (forall k l, In (k, l) B -> l = group m k /\ l <> []) /\
  (forall x, In x m -> is_tri (fst x) = true -> exists l, In (bottom (snd x), l) B).
Lemma group_snoc m x k : group (m ++ [x]) k = group m k ++ (if is_tri (fst x) && nneqb k (bottom (snd x)) then [fst x] else []).
Proof. unfold group. rewrite filter_app, map_app. cbn. destruct (is_tri (fst x) && nneqb k (bottom (snd x))); reflexivity. Qed.
Lemma insert_in B k x : NoDup (map fst B) -> forall k' l, In (k', l) (insert_bottom B k x) <->
  (k' <> k /\ In (k', l) B) \/ (k' = k /\ ((exists l0, In (k, l0) B /\ l = l0 ++ [x]) \/ (~ In k (map fst B) /\ l = [x]))).
Proof.
  induction B as [|(k0 & l0) B IH]; cbn [insert_bottom map fst]; intros ND k' l.
  - cbn. split; [intros [E | []]; injection E; intros <- <-; right; auto|]. intros [[_ []] | [-> [(l0 & [] & _) | [_ ->]]]]. auto.
  - apply NoDup_cons_iff in ND. destruct ND as [N ND]. destruct (nneqb k k0) eqn:E.
    + apply nneqb_spec in E. subst k0. cbn [In]. split.
      * intros [Q | Q]; [injection Q; intros <- <-; right; split; auto; left; eauto|].
        left. split; auto. intros ->. apply N. apply in_map_iff. exists (k, l). auto.
      * intros [[D [Q | Q]] | [-> [(l1 & [Q | Q] & ->) | [Q _]]]]; auto.
        -- congruence.
        -- left. congruence.
        -- exfalso. apply N. apply in_map_iff. exists (k, l1). auto.
        -- tauto.
    + assert (D : k <> k0) by (intros ->; rewrite (proj2 (nneqb_spec k0 k0) eq_refl) in E; discriminate).
      cbn [In]. rewrite IH by assumption. split.
      * intros [Q | [[D' Q] | [-> [(l1 & Q & ->) | [Q ->]]]]].
        -- injection Q. intros <- <-. left. auto.
        -- auto.
        -- right. split; auto. left. eauto.
        -- right. split; auto. right. split; auto. intros [-> | Q']; tauto.
      * intros [[D' [Q | Q]] | [-> [(l1 & [Q | Q] & ->) | [Q ->]]]]; auto.
        -- congruence.
        -- right. right. split; auto. left. eauto.
        -- right. right. split; auto. right. split; auto.
Qed.
Lemma insert_keys B k x : forall k', In k' (map fst (insert_bottom B k x)) <-> In k' (map fst B) \/ k' = k.
Proof.
  induction B as [|(k0 & l0) B IH]; cbn [insert_bottom map fst In]; intros k'.
  - cbn. intuition.
  - destruct (nneqb k k0) eqn:E; cbn [map fst In].
    + apply nneqb_spec in E. subst. intuition.
    + rewrite IH. tauto.
Qed.
Lemma insert_nodup B k x : NoDup (map fst B) -> NoDup (map fst (insert_bottom B k x)).
Proof.
  induction B as [|(k0 & l0) B IH]; cbn [insert_bottom map fst]; intros H; [constructor; auto; constructor|].
  pose proof H as H'. apply NoDup_cons_iff in H'. destruct H' as [N ND].
  destruct (nneqb k k0) eqn:E; [exact H|]. cbn [map fst]. constructor; [|auto].
  rewrite insert_keys. intros [Q | ->]; [tauto|]. rewrite (proj2 (nneqb_spec k k) eq_refl) in E. discriminate.
Qed.
Lemma group_in m x k : In x (group m k) <-> exists ns, In (x, ns) m /\ is_tri x = true /\ bottom ns = k.
Proof.
  unfold group. rewrite in_map_iff. split.
  - intros ((y & ns) & E & F). cbn in E. subst y. apply filter_In in F. cbn in F. rewrite andb_true_iff, nneqb_spec in F. exists ns. intuition.
  - intros (ns & I & T & E). exists (x, ns). split; auto. apply filter_In. cbn. rewrite andb_true_iff, nneqb_spec. auto.
Qed.
Lemma positions_grouped m : NoDup (map fst (bottom_positions m)) /\ grouped m (bottom_positions m).
Proof.
  unfold bottom_positions. induction m as [|x m IH] using rev_ind.
  - cbn. split; [constructor|]. split; [intros k l []|intros x []].
  - rewrite fold_left_app. cbn [fold_left]. set (B := fold_left _ m []) in *. destruct IH as (ND & G1 & G2). destruct (is_tri (fst x)) eqn:T.
    + split; [apply insert_nodup; exact ND|]. split.
      * intros k l H. apply insert_in in H; [|exact ND]. rewrite group_snoc, T. cbn [andb].
        destruct H as [[D H] | [-> [(l0 & H & ->) | [H ->]]]].
        -- destruct (nneqb k (bottom (snd x))) eqn:E; [apply nneqb_spec in E; congruence|]. rewrite app_nil_r. apply G1. exact H.
        -- rewrite (proj2 (nneqb_spec _ _) eq_refl). destruct (G1 _ _ H) as [-> _]. split; [reflexivity|]. destruct (group m (bottom (snd x))); discriminate.
        -- rewrite (proj2 (nneqb_spec _ _) eq_refl). split; [|discriminate].
           destruct (group m (bottom (snd x))) as [|y g] eqn:Eg; [reflexivity|]. exfalso. apply H.
           assert (Y : In y (group m (bottom (snd x)))) by (rewrite Eg; left; reflexivity). apply group_in in Y. destruct Y as (ns & I & Ty & Eb).
           destruct (G2 _ I Ty) as (l & Hl). cbn [snd] in Hl. rewrite Eb in Hl. apply in_map_iff. exists (bottom (snd x), l). auto.
      * intros y Hy Ty. apply in_app_iff in Hy.
        assert (K : In (bottom (snd y)) (map fst (insert_bottom B (bottom (snd x)) (fst x)))).
        { apply insert_keys. destruct Hy as [Hy | [<- | []]]; [|auto]. left. destruct (G2 _ Hy Ty) as (l & Hl). apply in_map_iff. exists (bottom (snd y), l). auto. }
        apply in_map_iff in K. destruct K as ((k & l) & E & K). cbn in E. subst k. eauto.
    + split; [exact ND|]. split.
      * intros k l H. rewrite group_snoc, T. cbn [andb]. rewrite app_nil_r. apply G1. exact H.
      * intros y Hy Ty. apply in_app_iff in Hy. destruct Hy as [Hy | [<- | []]]; [apply G2; auto|congruence].
Qed.
Lemma pairs_spec B : (forall k l, In (k, l) B -> (exists a, l = [a]) \/ (exists a b, l = [a; b])) ->
  exists P single, pairs_of B = Some (P, single) /\
    (forall a b, In (a, b) P <-> exists k, In (k, [a; b]) B \/ In (k, [b; a]) B) /\
    (forall a, In a single <-> exists k, In (k, [a]) B).
Proof.
  induction B as [|(k & l) B IH]; intros H.
  - exists [], []. cbn. split; auto. split; intros; split; try tauto; intros (k & X); tauto.
  - destruct IH as (P & single & E & HP & HS); [intros; eapply H; right; eassumption|]. cbn [pairs_of]. rewrite E.
    destruct (H k l (or_introl eq_refl)) as [(a & ->) | (a & b & ->)].
    + exists P, (a :: single). split; auto. split.
      * intros c d. rewrite HP. split; intros (k' & X); exists k'; cbn [In] in *; [tauto|].
        destruct X as [[X | X] | [X | X]]; try discriminate; auto.
      * intros c. cbn [In]. rewrite HS. split.
        -- intros [-> | (k' & X)]; eauto.
        -- intros (k' & [X | X]); [injection X; auto|eauto].
    + exists ((a, b) :: (b, a) :: P), single. split; auto. split.
      * intros c d. cbn [In]. rewrite HP. split.
        -- intros [X | [X | (k' & X)]]; [injection X; intros <- <-; exists k; auto|injection X; intros <- <-; exists k; auto|]. exists k'. tauto.
        -- intros (k' & [[X | X] | [X | X]]); [injection X; intros; subst; auto|right; right; eauto|injection X; intros; subst; auto|right; right; eauto].
      * intros c. rewrite HS. split; intros (k' & X); exists k'; cbn [In] in *; [auto|]. destruct X as [X | X]; [discriminate|exact X].
Qed.
Lemma partner_some P x y : partner P x = Some y -> In (x, y) P.
Proof.
  unfold partner. destruct (find _ P) as [(a & b)|] eqn:E; [|discriminate]. intros X. injection X. intros <-. apply find_some in E. cbn in E.
  destruct E as [I E]. destruct (elem_eq_dec a x) as [-> | N]; [exact I|discriminate].
Qed.
Lemma partner_none P x y : partner P x = None -> ~ In (x, y) P.
Proof.
  unfold partner. destruct (find _ P) as [(a & b)|] eqn:E; [discriminate|]. intros _ I. apply (find_none _ _ E) in I. cbn in I.
  destruct (elem_eq_dec x x); [discriminate|congruence].
Qed.
