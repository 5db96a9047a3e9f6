From Coq Require Import List Arith ZArith Bool Lia FinFun.
From Verif Require Import Dict GmModel GmSpec.
Import ListNotations.

Lemma Nat_eqb_spec a b : Nat.eqb a b = true <-> a = b.
Proof. apply Nat.eqb_eq. Qed.

Lemma Forall2_impl {A B} (P Q : A -> B -> Prop) l l' : (forall a b, P a b -> Q a b) -> Forall2 P l l' -> Forall2 Q l l'.
Proof. intros H. induction 1; constructor; auto. Qed.
Lemma NoDup_app_intro {A} (l l' : list A) : NoDup l -> NoDup l' -> (forall a, In a l -> ~ In a l') -> NoDup (l ++ l').
Proof.
  induction l as [|a l IH]; simpl; auto. intros H H' Hd. inversion H; subst. constructor.
  - rewrite in_app_iff. intros [?|?]; [auto|]. apply (Hd a); auto.
  - apply IH; auto.
Qed.

Lemma NoDup_app_elim {A} (l l' : list A) : NoDup (l ++ l') -> NoDup l /\ NoDup l' /\ forall a, In a l -> ~ In a l'.
Proof.
  induction l as [|a l IH]; simpl; intros H.
  - repeat split; auto. constructor.
  - inversion H as [|? ? Hx H']; subst. destruct (IH H') as (A1 & A2 & A3). rewrite in_app_iff in Hx. repeat split; auto.
    + constructor; tauto.
    + intros x [<-|?]; auto.
Qed.

(** ** obind *)
Lemma obind_forall2 {A B} (f : A -> option B) l s : obind l f = Some s <-> Forall2 (fun a b => f a = Some b) l s.
Proof.
  split.
  - revert s. induction l as [|a l IH]; simpl; intros s H; [injection H as <-; constructor|].
    destruct (f a) eqn:E; [|discriminate]. destruct (obind l f) eqn:E2; [|discriminate]. injection H as <-. constructor; auto.
  - induction 1 as [|a b l s H1 H2 IH]; simpl; auto. now rewrite H1, IH.
Qed.
Lemma obind_ok {A B} (f : A -> option B) l : (forall a, In a l -> exists b, f a = Some b) -> exists s, obind l f = Some s.
Proof.
  induction l as [|a l IH]; simpl; intros H; [eauto|]. destruct (H a) as [b ->]; auto. destruct IH as [s ->]; eauto.
Qed.

(** ** the pool of first-seen keys *)
Notation kget := (get npair_eqb).
Definition PI (p : pool) (cur : nat) : Prop := NoDup (keys p) /\ map snd p = seq 0 cur.
Lemma PI_init : PI [] 0.
Proof. split; [constructor|reflexivity]. Qed.
Lemma PI_len p cur : PI p cur -> length p = cur.
Proof. intros [_ H]. rewrite <- (map_length snd), H. apply seq_length. Qed.
Lemma PI_nth p cur k v : PI p cur -> (kget p k = Some v <-> nth_error p v = Some (k, v)).
Proof.
  intros [Hn Hs]. split.
  - intros H. apply (get_in _ npair_eqb_spec) in H. apply In_nth_error in H as [i Hi].
    assert (nth_error (map snd p) i = Some v) as E by exact (map_nth_error snd _ _ Hi).
    rewrite Hs in E. assert (i < cur) as Hlt.
    { rewrite <- (seq_length cur 0). apply nth_error_Some. congruence. }
    rewrite (nth_error_nth' _ 0) in E by (rewrite seq_length; lia). rewrite seq_nth in E by lia. injection E as <-. exact Hi.
  - intros H. apply (in_get _ npair_eqb_spec); auto. eapply nth_error_In; eauto.
Qed.
Lemma PI_lt p cur k v : PI p cur -> kget p k = Some v -> v < cur.
Proof.
  intros H Hg. rewrite (PI_nth _ _ _ _ H) in Hg. rewrite <- (PI_len _ _ H). apply nth_error_Some. congruence.
Qed.
Lemma PI_inj p cur k k' v : PI p cur -> kget p k = Some v -> kget p k' = Some v -> k = k'.
Proof. intros H H1 H2. rewrite (PI_nth _ _ _ _ H) in H1. rewrite (PI_nth _ _ _ _ H) in H2. congruence. Qed.
Lemma PI_onto p cur v : PI p cur -> v < cur -> exists k, kget p k = Some v.
Proof.
  intros H Hv. destruct (nth_error p v) as [[k w]|] eqn:E.
  - exists k. rewrite (PI_nth _ _ _ _ H). rewrite E. f_equal. f_equal. destruct H as [_ Hs].
    assert (nth_error (map snd p) v = Some w) as E2 by exact (map_nth_error snd _ _ E).
    rewrite Hs in E2. rewrite (nth_error_nth' _ 0) in E2 by (rewrite seq_length; lia). rewrite seq_nth in E2 by lia. now injection E2.
  - apply nth_error_None in E. rewrite (PI_len _ _ H) in E. lia.
Qed.
Lemma PI_new p cur k : PI p cur -> kget p k = None -> PI (put npair_eqb p k cur) (S cur).
Proof.
  intros [Hn Hs] H. apply (get_none _ npair_eqb_spec) in H. split.
  - now apply (nodup_put _ npair_eqb_spec).
  - rewrite (put_out _ npair_eqb_spec) by auto. rewrite map_app, Hs, seq_S. reflexivity.
Qed.

Definition extends (p p' : pool) : Prop := forall k v, kget p k = Some v -> kget p' k = Some v.
Lemma extends_refl p : extends p p.
Proof. intros k v H; auto. Qed.
Lemma extends_trans p q r : extends p q -> extends q r -> extends p r.
Proof. intros H1 H2 k v H. auto. Qed.

Lemma number_keys_spec ks : forall p cur vs p' cur', PI p cur -> number_keys ks (p, cur) = (vs, (p', cur')) ->
  PI p' cur' /\ extends p p' /\ Forall2 (fun k v => kget p' k = Some v) ks vs /\
  forall k, In k (keys p') <-> In k (keys p) \/ In k ks.
Proof.
  induction ks as [|k ks IH]; intros p cur vs p' cur' HP H.
  - injection H as <- <- <-. repeat split; auto using extends_refl; try apply HP; simpl; tauto.
  - cbn [number_keys] in H. destruct (kget p k) as [v|] eqn:E.
    + destruct (number_keys ks (p, cur)) as [vs1 [p1 c1]] eqn:En. injection H as <- <- <-.
      destruct (IH _ _ _ _ _ HP En) as (A1 & A2 & A3 & A4). split; auto. split; auto. split.
      * constructor; auto.
      * intros k'. rewrite A4. simpl. split; [tauto|]. intros [?|[<-|?]]; auto. left.
        apply (get_keys _ npair_eqb_spec). eauto.
    + destruct (number_keys ks (put npair_eqb p k cur, S cur)) as [vs1 [p1 c1]] eqn:En. injection H as <- <- <-.
      destruct (IH _ _ _ _ _ (PI_new _ _ _ HP E) En) as (A1 & A2 & A3 & A4). split; auto.
      assert (kget (put npair_eqb p k cur) k = Some cur) as Ek.
      { rewrite (get_put _ npair_eqb_spec). now rewrite (eqb_refl _ npair_eqb_spec). }
      split; [|split].
      * intros k' v' H'. apply A2. rewrite (get_put _ npair_eqb_spec). destruct (npair_eqb k' k) eqn:E3; auto.
        apply npair_eqb_spec in E3 as ->. congruence.
      * constructor; auto.
      * intros k'. rewrite A4, (in_keys_put _ npair_eqb_spec). simpl. intuition.
Qed.

Definition key_rows (alls : list rgm) (p : pool) (er : nat * list nat) : Prop :=
  exists ks, row_keys alls (fst er) = Some ks /\ Forall2 (fun k v => kget p k = Some v) ks (snd er).
Lemma key_rows_ext alls p p' er : extends p p' -> key_rows alls p er -> key_rows alls p' er.
Proof.
  intros H (ks & H1 & H2). exists ks. split; auto. eapply Forall2_impl; [|exact H2]. auto.
Qed.
Definition row_has (alls : list rgm) (e : nat) (k : key) : Prop := exists ks, row_keys alls e = Some ks /\ In k ks.

Lemma chain_elements_spec alls es : forall p cur g p' cur', PI p cur -> chain_elements alls es (p, cur) = Some (g, (p', cur')) ->
  PI p' cur' /\ extends p p' /\ Forall (key_rows alls p') g /\ map fst g = es /\
  forall k, In k (keys p') <-> In k (keys p) \/ exists e, In e es /\ row_has alls e k.
Proof.
  induction es as [|e es IH]; intros p cur g p' cur' HP H.
  - injection H as <- <- <-. repeat split; auto using extends_refl; try apply HP; simpl; firstorder.
  - cbn [chain_elements] in H. destruct (row_keys alls e) as [ks|] eqn:Ek; [|discriminate].
    destruct (number_keys ks (p, cur)) as [vs [p1 c1]] eqn:En.
    destruct (chain_elements alls es (p1, c1)) as [[g1 [p2 c2]]|] eqn:Ec; [|discriminate]. injection H as <- <- <-.
    destruct (number_keys_spec _ _ _ _ _ _ HP En) as (A1 & A2 & A3 & A4).
    destruct (IH _ _ _ _ _ A1 Ec) as (B1 & B2 & B3 & B4 & B5).
    split; auto. split; [eapply extends_trans; eauto|]. split; [|split].
    + constructor; auto. exists ks. split; auto. eapply Forall2_impl; [|exact A3]. auto.
    + simpl. now rewrite B4.
    + intros k. rewrite B5, A4. unfold row_has. split.
      * intros [[?|?]|(e' & ? & ?)]; auto; right; [exists e|exists e']; simpl; eauto.
      * intros [?|(e' & [<-|?] & ks' & E' & ?)]; auto; [left; right; congruence|right; eauto].
Qed.
Lemma chain_ranks_spec alls rks : forall p cur g p' cur', PI p cur -> chain_ranks alls rks (p, cur) = Some (g, (p', cur')) ->
  PI p' cur' /\ extends p p' /\ Forall (Forall (key_rows alls p')) g /\ map (map fst) g = rks /\
  forall k, In k (keys p') <-> In k (keys p) \/ exists e, In e (concat rks) /\ row_has alls e k.
Proof.
  induction rks as [|es rks IH]; intros p cur g p' cur' HP H.
  - injection H as <- <- <-. repeat split; auto using extends_refl; try apply HP; simpl; firstorder.
  - cbn [chain_ranks] in H. destruct (chain_elements alls es (p, cur)) as [[g0 [p1 c1]]|] eqn:En; [|discriminate].
    destruct (chain_ranks alls rks (p1, c1)) as [[g1 [p2 c2]]|] eqn:Ec; [|discriminate]. injection H as <- <- <-.
    destruct (chain_elements_spec _ _ _ _ _ _ _ HP En) as (A1 & A2 & A3 & A4 & A5).
    destruct (IH _ _ _ _ _ A1 Ec) as (B1 & B2 & B3 & B4 & B5).
    split; auto. split; [eapply extends_trans; eauto|]. split; [|split].
    + constructor; auto. eapply Forall_impl; [|exact A3]. intros er. now apply key_rows_ext.
    + simpl. now rewrite A4, B4.
    + intros k. rewrite B5, A5. split.
      * intros [[?|(e & ? & ?)]|(e & ? & ?)]; auto; right; exists e; split; auto; apply in_or_app; auto.
      * intros [?|(e & H & ?)]; auto. cbn [concat] in H. apply in_app_iff in H as [?|?]; eauto.
Qed.

(** ** lookups *)
Lemma all_of_spec (g : dgm) e row : wf_numbering g -> (nget (all_of g) e = Some row <-> row_at g e row).
Proof.
  intros Hw. unfold all_of.
  assert (forall (g : dgm) d, NoDup (concat (map keys g)) -> (forall x, In x (keys d) -> ~ In x (concat (map keys g))) ->
    (nget (fold_left (update_with Nat.eqb) g d) e = Some row <-> nget d e = Some row \/ exists r, In r g /\ In (e, row) r)) as H.
  { clear. induction g as [|r g IH]; intros d Hn Hd.
    - simpl. firstorder.
    - cbn [fold_left map concat] in *. apply NoDup_app_elim in Hn as (Hr & Hn' & Hdisj).
      rewrite IH; auto.
      + rewrite (get_update_with _ Nat_eqb_spec) by auto. destruct (nget r e) as [v|] eqn:E.
        * split.
          -- intros [[= ->]|(r' & ? & ?)]; right; [exists r; split; simpl; auto; now apply (get_in _ Nat_eqb_spec)|exists r'; simpl; auto].
          -- intros [H|(r' & [<-|H] & H')].
             ++ exfalso. apply (Hd e); [apply (get_keys _ Nat_eqb_spec); eauto|]. apply in_or_app. left. apply (get_keys _ Nat_eqb_spec). eauto.
             ++ left. apply (in_get _ Nat_eqb_spec) in H'; auto. congruence.
             ++ right. eauto.
        * split; [intros [?|(r' & ? & ?)]; auto; right; exists r'; simpl; auto|].
          intros [?|(r' & [<-|?] & H')]; auto; [|right; eauto]. apply (in_get _ Nat_eqb_spec) in H'; auto. congruence.
      + intros x Hx Hx'. apply (get_keys _ Nat_eqb_spec) in Hx as [v Hv]. rewrite (get_update_with _ Nat_eqb_spec) in Hv by auto.
        destruct (nget r x) eqn:E.
        * apply (Hdisj x); auto. apply (get_keys _ Nat_eqb_spec). eauto.
        * apply (Hd x); [apply (get_keys _ Nat_eqb_spec); eauto|]. apply in_or_app. auto. }
  rewrite H; [|exact Hw|simpl; tauto]. simpl. unfold row_at. split; [intros [?|?]; [discriminate|auto]|auto].
Qed.
Lemma row_at_fun (g : dgm) e r1 r2 : wf_numbering g -> row_at g e r1 -> row_at g e r2 -> r1 = r2.
Proof. intros Hw H1 H2. apply (all_of_spec g e _ Hw) in H1, H2. congruence. Qed.
Lemma row_at_key (g : dgm) e : In e (concat (map keys g)) <-> exists row, row_at g e row.
Proof.
  rewrite in_concat. split.
  - intros (ks & H1 & H2). apply in_map_iff in H1 as (r & <- & Hr). apply in_map_iff in H2 as ([e' row] & E & H).
    simpl in E. subst. exists row, r. auto.
  - intros (row & r & Hr & H). exists (keys r). split; [now apply in_map|]. apply in_map_iff. now exists (e, row).
Qed.

Lemma combine_seq_map {A B} (f : A -> B) l : forall k, combine (seq k (length (map f l))) (map f l) = map (fun ia => (fst ia, f (snd ia))) (combine (seq k (length l)) l).
Proof. induction l as [|a l IH]; intros k; simpl; auto. now rewrite IH. Qed.
Lemma row_keys_spec gms e ks : Forall wf_numbering gms ->
  (row_keys (map all_of gms) e = Some ks <->
   exists rows, Forall2 (fun g r => row_at g e r) gms rows /\
     ks = concat (map (fun ir => map (pair (fst ir)) (snd ir)) (combine (seq 0 (length gms)) rows))).
Proof.
  intros Hw. unfold row_keys. rewrite combine_seq_map.
  assert (forall k s, obind (map (fun ia => (fst ia, all_of (snd ia))) (combine (seq k (length gms)) gms))
      (fun ia => option_map (map (pair (fst ia))) (nget (snd ia) e)) = Some s <->
    exists rows, Forall2 (fun g r => row_at g e r) gms rows /\ s = map (fun ir => map (pair (fst ir)) (snd ir)) (combine (seq k (length gms)) rows)) as H.
  { induction Hw as [|g gms Hg Hw IH]; intros k s; simpl.
    - split; [intros [= <-]; exists []; auto|]. intros (rows & H & ->). inversion H. reflexivity.
    - destruct (nget (all_of g) e) as [r|] eqn:E.
      + simpl. apply (all_of_spec g e r Hg) in E. specialize (IH (S k)).
        destruct (obind _ _) as [s'|].
        * split.
          -- intros [= <-]. destruct (proj1 (IH s') eq_refl) as (rows & H1 & ->). exists (r :: rows). split; auto.
          -- intros (rows & H1 & ->). inversion H1 as [|? r' ? rows' Hr Hrs]; subst. rewrite (row_at_fun g e _ _ Hg Hr E) in *.
             assert (Some s' = Some (map (fun ir => map (pair (fst ir)) (snd ir)) (combine (seq (S k) (length gms)) rows'))) as Es.
             { apply IH. eauto. }
             injection Es as ->. reflexivity.
        * split; [discriminate|]. intros (rows & H1 & ->). inversion H1 as [|? r' ? rows' Hr Hrs]; subst.
          assert (None = Some (map (fun ir => map (pair (fst ir)) (snd ir)) (combine (seq (S k) (length gms)) rows'))) by (apply IH; eauto).
          discriminate.
      + simpl. split; [discriminate|]. intros (rows & H1 & ->). inversion H1 as [|? r' ? rows' Hr Hrs]; subst.
        apply (all_of_spec g e r' Hg) in Hr. congruence. }
  specialize (H 0). destruct (obind _ _) as [s|]; simpl.
  - destruct (proj1 (H s) eq_refl) as (rows & H1 & ->). split.
    + intros [= <-]. eauto.
    + intros (rows' & H2 & ->). do 3 f_equal. f_equal.
      clear - Hw H1 H2. revert rows' H2. induction H1; intros rows' H2; inversion H2; subst; auto. inversion Hw; subst.
      f_equal; auto. eapply row_at_fun; eauto.
  - split; [discriminate|]. intros (rows & H1 & _). assert (None = Some (map (fun ir => map (pair (fst ir)) (snd ir)) (combine (seq 0 (length gms)) rows))) by (apply H; eauto).
    discriminate.
Qed.

Lemma in_key_row gms e i d : Forall wf_numbering gms ->
  (row_has (map all_of gms) e (i, d) <-> (exists rows, Forall2 (fun g r => row_at g e r) gms rows) /\
     exists g r, nth_error gms i = Some g /\ row_at g e r /\ In d r).
Proof.
  intros Hw. unfold row_has.
  assert (forall k rows, Forall2 (fun g r => row_at g e r) gms rows ->
    (In (i, d) (concat (map (fun ir => map (pair (fst ir)) (snd ir)) (combine (seq k (length gms)) rows))) <->
     k <= i /\ exists g r, nth_error gms (i - k) = Some g /\ row_at g e r /\ In d r)) as H.
  { intros k rows Hr. revert k. induction Hr as [|g r gms rows Hg Hr IH]; intros k; simpl.
    - split; [tauto|]. intros (_ & g & r & H & _). destruct (i - k); discriminate.
    - inversion Hw; subst. rewrite in_app_iff, (IH H2 (S k)), in_map_iff. split.
      + intros [(x & [= -> ->] & Hx)|(Hle & g' & r' & H')].
        * split; auto. rewrite Nat.sub_diag. exists g, r. auto.
        * split; [lia|]. replace (i - k) with (S (i - S k)) by lia. exists g', r'. auto.
      + intros (Hle & g' & r' & H' & Hat & Hd). destruct (i - k) as [|n] eqn:E.
        * injection H' as <-. left. exists d. rewrite (row_at_fun g e _ _ H1 Hg Hat). split; auto. f_equal. lia.
        * right. split; [lia|]. replace (i - S k) with n by lia. eauto. }
  split.
  - intros (ks & Hk & Hin). apply (row_keys_spec gms e ks Hw) in Hk as (rows & Hr & ->). split; eauto.
    apply (H 0 rows Hr) in Hin as (_ & Hin). now rewrite Nat.sub_0_r in Hin.
  - intros ((rows & Hr) & Hin). eexists. split; [apply (row_keys_spec gms e _ Hw); eauto|].
    apply (H 0 rows Hr). rewrite Nat.sub_0_r. split; [lia|auto].
Qed.

Lemma same_keys_spec a b : same_keys a b = true <-> forall e, In e (keys a) <-> In e (keys b).
Proof.
  unfold same_keys. rewrite andb_true_iff, !forallb_forall. split.
  - intros [H1 H2] e. split; intros H; apply (has_spec _ Nat_eqb_spec); auto.
  - intros H. split; intros e He; apply (has_spec _ Nat_eqb_spec), H, He.
Qed.
Lemma same_keys_ranks_in a : forall b, same_keys_ranks a b = true -> forall e, In e (concat (map keys a)) <-> In e (concat (map keys b)).
Proof.
  induction a as [|x a IH]; intros [|y b]; simpl; try discriminate; [tauto|].
  intros H e. apply andb_true_iff in H as [H1 H2]. apply same_keys_spec with (e := e) in H1. rewrite !in_app_iff, (IH b H2 e), H1. tauto.
Qed.

Lemma map_fst_keys (g : dgm) : map (map fst) g = map keys g.
Proof. reflexivity. Qed.

(** ** chaining *)
Section Chaining.
  Context (gms : list dgm) (g0 : dgm).
  Context (Hw : Forall wf_numbering gms) (H0 : hd_error gms = Some g0).
  Context (Hk : forall g, In g gms -> forall e, In e (concat (map keys g)) <-> In e (concat (map keys g0))).

  Lemma rows_exist e : In e (concat (map keys g0)) -> exists rows, Forall2 (fun g r => row_at g e r) gms rows.
  Proof.
    intros He. clear H0. induction gms as [|g l IH]; [exists []; constructor|]. inversion Hw; subst.
    destruct IH as [rows Hr]; auto; [intros; apply Hk; simpl; auto|].
    destruct (proj1 (row_at_key g e)) as [r Hr']; [apply Hk; simpl; auto|]. exists (r :: rows). auto.
  Qed.

  Lemma chain_method_0_unfold : chain_method_0 gms =
    match chain_ranks (map all_of gms) (map keys g0) ([], 0) with
    | Some (cgm, (_, cur)) => if cur =? fold_right Nat.add 0 (map num_dofs gms) then Some cgm else None
    | None => None
    end.
  Proof. clear - H0. unfold chain_method_0. destruct gms; [discriminate|]. injection H0 as ->. reflexivity. Qed.

  Lemma chain_method_0_spec cgm : chain_method_0 gms = Some cgm ->
    chained gms cgm (fold_right Nat.add 0 (map num_dofs gms)) /\ map keys cgm = map keys g0.
  Proof.
    rewrite chain_method_0_unfold.
    destruct (chain_ranks (map all_of gms) (map keys g0) ([], 0)) as [[cg [p cur]]|] eqn:E; [|discriminate].
    destruct (Nat.eqb_spec cur (fold_right Nat.add 0 (map num_dofs gms))) as [Ec|]; [|discriminate]. intros [= <-].
    destruct (chain_ranks_spec _ _ _ _ _ _ _ PI_init E) as (A1 & _ & A3 & A4 & A5). split; auto.
    exists (fun i d => match kget p (i, d) with Some v => v | None => 0 end).
    assert (forall i g' d, nth_error gms i = Some g' -> used g' d -> exists v, kget p (i, d) = Some v) as Hused.
    { intros i g' d Hi (e & row & Hat & Hd). apply (get_keys _ npair_eqb_spec). apply A5. right.
      assert (In e (concat (map keys g0))) as He.
      { apply (Hk g'); [eapply nth_error_In; eauto|]. apply row_at_key. eauto. }
      exists e. split; auto. apply (in_key_row gms e i d Hw). split; [now apply rows_exist|]. eauto. }
    split; [|split].
    - intros e row (r & Hr & Hrow). rewrite Forall_forall in A3. specialize (A3 _ Hr). rewrite Forall_forall in A3.
      destruct (A3 _ Hrow) as (ks & K1 & K2). cbn [fst snd] in *. apply (row_keys_spec gms e ks Hw) in K1 as (rows & Hrows & ->).
      exists rows. split; auto. clear - K2. revert row K2. generalize (combine (seq 0 (length gms)) rows). intros l.
      induction l as [|[i r] l IH]; intros row K2; simpl in *; [inversion K2; auto|].
      apply Forall2_app_inv_l in K2 as (r1 & r2 & K1 & K2 & ->). rewrite (IH r2 K2). f_equal.
      clear - K1. revert r1 K1. induction r as [|d r IH]; intros r1 K1; inversion K1; subst; auto. simpl. rewrite H1. f_equal. auto.
    - intros i j gi gj d d' Hi Hj Hd Hd' Heq. destruct (Hused _ _ _ Hi Hd) as [v Ev]. destruct (Hused _ _ _ Hj Hd') as [v' Ev'].
      rewrite Ev, Ev' in Heq. subst v'. pose proof (PI_inj _ _ _ _ _ A1 Ev Ev') as H. injection H. auto.
    - intros k. rewrite <- Ec. split.
      + intros Hkc. destruct (PI_onto _ _ _ A1 Hkc) as [[i d] Hg].
        assert (In (i, d) (keys p)) as Hin by (apply (get_keys _ npair_eqb_spec); eauto).
        apply A5 in Hin as [[]|(e & _ & Hin)]. apply (in_key_row gms e i d Hw) in Hin as (_ & g' & r & H1 & H2 & H3).
        exists i, g', d. split; auto. split; [exists e, r; auto|]. now rewrite Hg.
      + intros (i & g' & d & Hi & Hd & <-). destruct (Hused _ _ _ Hi Hd) as [v Ev]. rewrite Ev. eapply PI_lt; eauto.
  Qed.

  Lemma num_dofs_used (g : dgm) d : used g d -> d < num_dofs g.
  Proof.
    intros (e & row & (r & Hr & Hrow) & Hd). unfold num_dofs.
    assert (In (S d) (map S (concat (map snd (concat g))))) as Hin.
    { apply in_map, in_concat. exists row. split; auto. apply in_map_iff. exists (e, row). split; auto. apply in_concat. eauto. }
    assert (Forall (fun k => k <= list_max (map S (concat (map snd (concat g))))) (map S (concat (map snd (concat g))))) as Hm
      by now apply list_max_le. rewrite Forall_forall in Hm. specialize (Hm _ Hin). lia.
  Qed.
  Lemma num_dofs_exactly (g : dgm) n : exactly g n -> num_dofs g = n.
  Proof.
    intros H. apply Nat.le_antisymm.
    - unfold num_dofs. apply list_max_le. rewrite Forall_forall. intros k Hkk. apply in_map_iff in Hkk as (d & <- & Hd).
      apply in_concat in Hd as (row & Hrow & Hd). apply in_map_iff in Hrow as ([e row'] & <- & He). apply in_concat in He as (r & Hr & He).
      apply H. exists e, row'. split; auto. now exists r.
    - destruct n; [lia|]. apply (num_dofs_used g n). apply H. lia.
  Qed.

  Lemma chain_elements_total es st : (forall e, In e es -> In e (concat (map keys g0))) ->
    exists g st', chain_elements (map all_of gms) es st = Some (g, st').
  Proof.
    revert st. induction es as [|e es IH]; intros st He; [simpl; eauto|]. cbn [chain_elements].
    destruct (rows_exist e) as [rows Hr]; [apply He; simpl; auto|].
    rewrite (proj2 (row_keys_spec gms e _ Hw)) by eauto. destruct (number_keys _ st) as [vs st1].
    destruct (IH st1) as (g & st2 & ->); [intros; apply He; simpl; auto|]. eauto.
  Qed.
  Lemma chain_ranks_total rks st : (forall e, In e (concat rks) -> In e (concat (map keys g0))) ->
    exists g st', chain_ranks (map all_of gms) rks st = Some (g, st').
  Proof.
    revert st. induction rks as [|es rks IH]; intros st He; [simpl; eauto|]. cbn [chain_ranks].
    destruct (chain_elements_total es st) as (g & st1 & ->); [intros; apply He; simpl; apply in_or_app; auto|].
    destruct (IH st1) as (g' & st2 & ->); [intros; apply He; simpl; apply in_or_app; auto|]. eauto.
  Qed.

  Lemma chain_method_0_total : Forall (fun g => exactly g (num_dofs g)) gms -> exists cgm, chain_method_0 gms = Some cgm.
  Proof.
    intros Hex. rewrite chain_method_0_unfold.
    destruct (chain_ranks_total (map keys g0) ([], 0)) as (cg & [p cur] & E); [auto|]. rewrite E.
    destruct (chain_ranks_spec _ _ _ _ _ _ _ PI_init E) as (A1 & _ & _ & _ & A5).
    enough (cur = fold_right Nat.add 0 (map num_dofs gms)) as -> by (rewrite Nat.eqb_refl; eauto).
    rewrite <- (PI_len _ _ A1).
    set (allk := flat_map (fun ig => map (pair (fst ig)) (seq 0 (num_dofs (snd ig)))) (combine (seq 0 (length gms)) gms)).
    assert (length allk = fold_right Nat.add 0 (map num_dofs gms)) as El.
    { unfold allk. clear. assert (forall k, length (flat_map (fun ig : nat * dgm => map (pair (fst ig)) (seq 0 (num_dofs (snd ig)))) (combine (seq k (length gms)) gms)) =
        fold_right Nat.add 0 (map num_dofs gms)) as H; [|apply H].
      induction gms as [|g l IH]; intros k; simpl; auto. rewrite app_length, map_length, seq_length, IH. reflexivity. }
    assert (forall k i d l, In (i, d) (flat_map (fun ig : nat * dgm => map (pair (fst ig)) (seq 0 (num_dofs (snd ig)))) (combine (seq k (length l)) l)) <->
       k <= i /\ exists g, nth_error l (i - k) = Some g /\ d < num_dofs g) as Hin.
    { clear. intros k i d l. revert k. induction l as [|g l IH]; intros k; simpl.
      - split; [tauto|]. intros (_ & g & H & _). destruct (i - k); discriminate.
      - rewrite in_app_iff, IH, in_map_iff. split.
        + intros [(x & [= -> ->] & Hx)|(Hle & g' & H' & Hd)].
          * apply in_seq in Hx. split; auto. rewrite Nat.sub_diag. exists g. split; auto. lia.
          * split; [lia|]. replace (i - k) with (S (i - S k)) by lia. exists g'. auto.
        + intros (Hle & g' & H' & Hd). destruct (i - k) as [|n] eqn:E.
          * injection H' as <-. left. exists d. rewrite in_seq. split; [f_equal; lia|lia].
          * right. split; [lia|]. replace (i - S k) with n by lia. eauto. }
    rewrite <- El, <- (map_length fst p). apply Nat.le_antisymm; apply NoDup_incl_length.
    - apply A1.
    - intros [i d] Hi. apply A5 in Hi as [[]|(e & _ & Hi)]. apply (in_key_row gms e i d Hw) in Hi as (_ & g' & r & H1 & H2 & H3).
      apply Hin. rewrite Nat.sub_0_r. split; [lia|]. exists g'. split; auto. apply num_dofs_used. exists e, r. auto.
    - unfold allk. clear. assert (forall k l, NoDup (flat_map (fun ig : nat * dgm => map (pair (fst ig)) (seq 0 (num_dofs (snd ig)))) (combine (seq k (length l)) l))) as H; [|apply H].
      intros k l. revert k. induction l as [|g l IH]; intros k; simpl; [constructor|].
      apply NoDup_app_intro; auto.
      + apply Injective_map_NoDup; [intros a b [= ->]; auto|apply seq_NoDup].
      + intros [i d] H1 H2. apply in_map_iff in H1 as (x & [= <- <-] & _). apply in_flat_map in H2 as ([j h] & Hj & H2).
        apply in_map_iff in H2 as (y & [= E _] & _). simpl in E. subst j. apply in_combine_l in Hj. apply in_seq in Hj. lia.
    - intros [i d] Hi. unfold allk in Hi. apply Hin in Hi as (_ & g' & Hg & Hd). rewrite Nat.sub_0_r in Hg.
      rewrite Forall_forall in Hex. apply (Hex g') in Hd as (e & row & Hat & Hd); [|eapply nth_error_In; eauto].
      apply A5. right. assert (In e (concat (map keys g0))) as He.
      { apply (Hk g'); [eapply nth_error_In; eauto|]. apply row_at_key. eauto. }
      exists e. split; auto. apply (in_key_row gms e i d Hw). split; [now apply rows_exist|]. eauto.
  Qed.
End Chaining.
