(** Chaining regular gathering matrices *)
From Coq Require Import List Arith ZArith Bool Lia.
From Verif Require Import Dict GmModel GmSpec GmProofs GmChain GmData GmCache MsChainModel.
Import ListNotations.

(** the rows as a numbering of elements 0, 1, ... in one rank *)
Definition as_numbering (rows : list (list nat)) : numbering := [combine (seq 0 (length rows)) rows].
(** numbers are given one after the other: after every element they are 0..k-1, and a row repeats none *)
Definition sequential (g : list (list nat)) : Prop :=
  Forall (@NoDup nat) g /\ forall i, i <= length g -> exists k, forall d, In d (concat (firstn i g)) <-> d < k.

Lemma combine_seq_in {X} (l : list X) : forall k e r, In (e, r) (combine (seq k (length l)) l) <-> k <= e /\ nth_error l (e - k) = Some r.
Proof.
  induction l as [|a l IH]; intros k e r; simpl.
  - split; [tauto|]. intros [_ H]. destruct (e - k); discriminate.
  - rewrite IH. split.
    + intros [[= <- <-]|[H1 H2]]; [now rewrite Nat.sub_diag|]. split; [lia|]. replace (e - k) with (S (e - S k)) by lia. auto.
    + intros [H1 H2]. destruct (Nat.eq_dec k e) as [->|Hn].
      * rewrite Nat.sub_diag in H2. injection H2 as ->. auto.
      * right. split; [lia|]. replace (e - k) with (S (e - S k)) in H2 by lia. auto.
Qed.
Lemma row_at_as g e r : row_at (as_numbering g) e r <-> nth_error g e = Some r.
Proof.
  unfold row_at, as_numbering. split.
  - intros (x & [<-|[]] & H). apply combine_seq_in in H as [_ H]. now rewrite Nat.sub_0_r in H.
  - intros H. eexists. split; [simpl; auto|]. apply combine_seq_in. rewrite Nat.sub_0_r. split; auto. lia.
Qed.
Lemma used_as g d : used (as_numbering g) d <-> In d (concat g).
Proof.
  unfold used. rewrite in_concat. split.
  - intros (e & r & H & Hd). apply row_at_as in H. exists r. split; auto. eapply nth_error_In; eauto.
  - intros (r & H & Hd). apply In_nth_error in H as [e H]. exists e, r. split; auto. now apply row_at_as.
Qed.
Lemma m_num_lt g d : In d (concat g) -> d < m_num g.
Proof.
  intros H. unfold m_num. assert (S d <= list_max (map S (concat g))); [|lia].
  pose proof (proj1 (list_max_le (map S (concat g)) _) (le_n _)) as HF. rewrite Forall_forall in HF. apply HF. now apply in_map.
Qed.

(** ** method 1 *)
Definition phi1 (gms : list mgm) (off i d : nat) : nat := off + fold_right Nat.add 0 (map m_num (firstn i gms)) + d.
Lemma zip_app_nth a : forall b e r, nth_error (zip_app a b) e = Some r <-> exists x y, nth_error a e = Some x /\ nth_error b e = Some y /\ r = x ++ y.
Proof.
  induction a as [|x a IH]; intros b e r.
  - simpl. split; [destruct e; discriminate|intros (x & y & H & _); destruct e; discriminate].
  - destruct b as [|y b]; [split; [destruct e; discriminate|intros (x' & y & _ & H & _); destruct e; discriminate]|].
    destruct e as [|e]; simpl; [|apply IH]. split; [intros [= <-]; eauto|]. intros (x' & y' & [= <-] & [= <-] & ->). auto.
Qed.
Lemma method_1_row gms : forall off e row, gms <> [] -> (nth_error (method_1 off gms) e = Some row <->
  exists rows, Forall2 (fun g r => nth_error g e = Some r) gms rows /\ row = concat (map (fun ir => map (phi1 gms off (fst ir)) (snd ir)) (combine (seq 0 (length gms)) rows))).
Proof.
  assert (forall gms k a f f' rows, (forall i d, i < length gms -> f (k + i) d = f' (a + i) d) ->
    map (fun ir => map (f (fst ir)) (snd ir)) (combine (seq k (length gms)) rows) = map (fun ir : nat * list nat => map (f' (fst ir)) (snd ir)) (combine (seq a (length (gms : list mgm))) rows) :> list (list nat)) as Hsh.
  { induction gms0 as [|g gms0 IH]; intros k a f f' rows H; simpl; auto. destruct rows as [|r rows]; simpl; auto. f_equal.
    - apply map_ext. intros d. specialize (H 0 d). rewrite !Nat.add_0_r in H. apply H. simpl; lia.
    - apply IH. intros i d Hi. rewrite !Nat.add_succ_comm. apply H. simpl; lia. }
  induction gms as [|g gms IH]; intros off e row Hne; [tauto|]. destruct gms as [|g1 gms].
  - cbn [method_1]. split.
    + intros H. rewrite nth_error_map in H. destruct (nth_error g e) as [r|] eqn:E; [|discriminate]. injection H as <-. exists [r]. split; auto.
      simpl. rewrite app_nil_r. apply map_ext. intros d. unfold phi1. simpl. lia.
    + intros (rows & H & ->). inversion H as [|? r ? rr Hr Hrr]; subst. inversion Hrr; subst. simpl. rewrite app_nil_r, nth_error_map, Hr. simpl. f_equal.
      apply map_ext. intros d. unfold phi1. simpl. lia.
  - change (method_1 off (g :: g1 :: gms)) with (zip_app (map (map (Nat.add off)) g) (method_1 (off + m_num g) (g1 :: gms))).
    rewrite zip_app_nth. split.
    + intros (x & y & Hx & Hy & ->). apply IH in Hy as (rows & Hr & ->); [|discriminate]. rewrite nth_error_map in Hx. destruct (nth_error g e) as [r|] eqn:E; [|discriminate]. injection Hx as <-.
      exists (r :: rows). split; [constructor; auto|]. cbn [length seq combine map concat fst snd]. f_equal.
      * apply map_ext. intros d. unfold phi1. simpl. lia.
      * f_equal. symmetry. apply (Hsh (g1 :: gms) 1 0). intros i d Hi. unfold phi1. change (1 + i) with (S i). simpl. lia.
    + intros (rows & H & ->). inversion H as [|? r ? rr Hr Hrr]; subst. exists (map (Nat.add off) r).
      exists (concat (map (fun ir => map (phi1 (g1 :: gms) (off + m_num g) (fst ir)) (snd ir)) (combine (seq 0 (length (g1 :: gms))) rr))).
      split; [now rewrite nth_error_map, Hr|]. split; [apply IH; [discriminate|]; eauto|].
      cbn [length seq combine map concat fst snd]. f_equal.
      * apply map_ext. intros d. unfold phi1. simpl. lia.
      * f_equal. apply (Hsh (g1 :: gms) 1 0). intros i d Hi. unfold phi1. change (1 + i) with (S i). simpl. lia.
Qed.
Lemma sum_firstn (l : list nat) i : i < length l -> fold_right Nat.add 0 (firstn (S i) l) = fold_right Nat.add 0 (firstn i l) + nth i l 0.
Proof. revert i. induction l as [|a l IH]; intros [|i] H; simpl in *; try lia. rewrite (IH i) by lia. simpl. lia. Qed.
Lemma sum_firstn_mono (l : list nat) i j : i <= j -> fold_right Nat.add 0 (firstn i l) <= fold_right Nat.add 0 (firstn j l).
Proof. revert i j. induction l as [|a l IH]; intros [|i] [|j] H; simpl; try lia. specialize (IH i j). lia. Qed.
Lemma sum_firstn_all (l : list nat) i : fold_right Nat.add 0 (firstn i l) <= fold_right Nat.add 0 l.
Proof. revert i. induction l as [|a l IH]; intros [|i]; simpl; try lia. specialize (IH i). lia. Qed.
Lemma locate_sum (l : list nat) k : k < fold_right Nat.add 0 l -> exists i d, i < length l /\ d < nth i l 0 /\ k = fold_right Nat.add 0 (firstn i l) + d.
Proof.
  revert k. induction l as [|a l IH]; intros k H; simpl in *; [lia|]. destruct (lt_dec k a).
  - exists 0, k. simpl. lia.
  - destruct (IH (k - a)) as (i & d & H1 & H2 & H3); [lia|]. exists (S i), d. simpl. lia.
Qed.
Definition m_total (gms : list mgm) : nat := fold_right Nat.add 0 (map m_num gms).
Lemma map_nth_num (gms : list mgm) i g : nth_error gms i = Some g -> nth i (map m_num gms) 0 = m_num g /\ i < length (map m_num gms).
Proof.
  intros H. assert (i < length gms) by (apply nth_error_Some; congruence). rewrite map_length. split; auto.
  apply nth_error_nth. rewrite nth_error_map, H. auto.
Qed.
Lemma method_1_chained gms g : m_chain 1 gms = Some g -> Forall (fun g => forall d, In d (concat g) <-> d < m_num g) gms ->
  chained (map as_numbering gms) (as_numbering g) (m_total gms).
Proof.
  intros Hc Hex. assert (gms <> []) as Hne by (destruct gms; [discriminate|congruence]).
  assert (g = method_1 0 gms) as ->. { destruct gms; [discriminate|]. unfold m_chain in Hc. destruct (forallb _ _); [congruence|discriminate]. }
  exists (phi1 gms 0). repeat split.
  - intros e row H. apply row_at_as in H. apply method_1_row in H as (rows & Hr & ->); auto. exists rows. rewrite map_length. split; auto.
    clear - Hr. induction Hr; simpl; constructor; auto. now apply row_at_as.
  - intros. unfold phi1 in *. rewrite nth_error_map in H, H0. destruct (nth_error gms i) as [gi|] eqn:Ei; [|discriminate]. destruct (nth_error gms j) as [gj|] eqn:Ej; [|discriminate].
    injection H as <-. injection H0 as <-. apply used_as in H1, H2. apply m_num_lt in H1, H2.
    apply map_nth_num in Ei as [Ei Li]. apply map_nth_num in Ej as [Ej Lj]. rewrite <- !firstn_map in H3.
    destruct (lt_eq_lt_dec i j) as [[Hl|He]|Hl]; auto; exfalso.
    + pose proof (sum_firstn_mono (map m_num gms) (S i) j Hl). rewrite sum_firstn in H by auto. lia.
    + pose proof (sum_firstn_mono (map m_num gms) (S j) i Hl). rewrite sum_firstn in H by auto. lia.
  - unfold phi1 in *. rewrite nth_error_map in H, H0. destruct (nth_error gms i) as [gi|] eqn:Ei; [|discriminate]. destruct (nth_error gms j) as [gj|] eqn:Ej; [|discriminate].
    injection H as <-. injection H0 as <-. apply used_as in H1, H2. apply m_num_lt in H1, H2.
    apply map_nth_num in Ei as [Ei Li]. apply map_nth_num in Ej as [Ej Lj]. rewrite <- !firstn_map in H3.
    destruct (lt_eq_lt_dec i j) as [[Hl|He]|Hl]; [|subst; lia|]; exfalso.
    + pose proof (sum_firstn_mono (map m_num gms) (S i) j Hl). rewrite sum_firstn in H by auto. lia.
    + pose proof (sum_firstn_mono (map m_num gms) (S j) i Hl). rewrite sum_firstn in H by auto. lia.
  - intros Hk. unfold m_total in Hk. destruct (locate_sum _ _ Hk) as (i & d & Hi & Hd & ->). rewrite map_length in Hi.
    destruct (nth_error gms i) as [gi|] eqn:Ei; [|apply nth_error_None in Ei; lia]. exists i, (as_numbering gi), d. split; [now rewrite nth_error_map, Ei|].
    pose proof (map_nth_num _ _ _ Ei) as [En _]. rewrite Forall_forall in Hex. split; [apply used_as, Hex; [eapply nth_error_In; eauto|lia]|].
    unfold phi1. now rewrite firstn_map.
  - intros (i & gi & d & Hi & Hd & <-). rewrite nth_error_map in Hi. destruct (nth_error gms i) as [x|] eqn:Ei; [|discriminate]. injection Hi as <-.
    apply used_as, m_num_lt in Hd. apply map_nth_num in Ei as [En Ln]. unfold phi1, m_total. rewrite <- firstn_map.
    pose proof (sum_firstn_all (map m_num gms) (S i)). rewrite sum_firstn in H by auto. lia.
Qed.

(** ** method 0 *)
Definition val (sts : list mstate) (j d v : nat) : Prop := exists s, nth_error sts j = Some s /\ d < fst s /\ nth_error (snd s) d = Some v.
Definition MI (sts : list mstate) (cur : nat) : Prop :=
  (forall j d v, val sts j d v -> v < cur) /\ (forall v, v < cur -> exists j d, val sts j d v) /\
  (forall j d j' d' v, val sts j d v -> val sts j' d' v -> j = j' /\ d = d').
Definition step_ok (row : list nat) (s : mstate) (m : nat) : Prop :=
  NoDup row /\ (forall d, (In d row /\ fst s <= d) <-> fst s <= d < fst s + m) /\ fst s + m <= length (snd s).

Lemma set_all_nth (ix : list nat) : forall vs (l : list nat), NoDup ix -> length ix = length vs -> (forall d, In d ix -> d < length l) ->
  exists l', set_all ix vs l = Some l' /\ length l' = length l /\
    (forall p d, nth_error ix p = Some d -> nth_error l' d = nth_error vs p) /\ (forall d, ~ In d ix -> nth_error l' d = nth_error l d).
Proof.
  induction ix as [|i ix IH]; intros [|v vs] l Hn Hl Hb; try discriminate; simpl.
  - exists l. repeat split; auto. intros [|p] d; discriminate.
  - inversion Hn as [|? ? Hx Hn']; subst. destruct (setnth_spec i v l) as (l1 & E1 & L1 & D1); [apply Hb; simpl; auto|]. rewrite E1.
    destruct (IH vs l1 Hn') as (l2 & E2 & L2 & P2 & D2); [simpl in Hl; lia|intros d Hd; rewrite L1; apply Hb; simpl; auto|].
    exists l2. split; auto. split; [congruence|]. split.
    + intros [|p] d; simpl; [|apply P2]. intros [= <-]. rewrite D2 by auto. rewrite D1, Nat.eqb_refl. auto.
    + intros d Hd. rewrite D2 by tauto. rewrite D1. destruct (Nat.eqb_spec d i); auto. subst. tauto.
Qed.
Lemma interval_length l a m : NoDup l -> (forall d, In d l <-> a <= d < a + m) -> length l = m.
Proof.
  intros Hn H. rewrite <- (seq_length m a). apply Nat.le_antisymm; apply NoDup_incl_length; auto using seq_NoDup; intros d Hd.
  - apply in_seq. apply H. auto.
  - apply H. apply in_seq. auto.
Qed.
Lemma renumber_step done s todo cur row m : MI (done ++ s :: todo) cur -> step_ok row s m ->
  exists s1, renumber row cur s = Some (cur + m, s1) /\ MI (done ++ s1 :: todo) (cur + m) /\ fst s1 = fst s + m /\ length (snd s1) = length (snd s).
Proof.
  intros (I1 & I2 & I3) (Hn & Hm & Hb). destruct s as [f c]. cbn [fst snd] in *. unfold renumber. cbn [fst snd].
  set (fv := filter (fun d => f <=? d) row).
  assert (NoDup fv) as Nf by (apply NoDup_filter; auto).
  assert (forall d, In d fv <-> f <= d < f + m) as Hf. { intros d. unfold fv. rewrite filter_In, Nat.leb_le. apply Hm. }
  pose proof (interval_length fv f m Nf Hf) as Lf. rewrite Lf.
  destruct (set_all_nth fv (seq cur m) c Nf) as (c' & E & L & P & D); [now rewrite seq_length|intros d Hd; apply Hf in Hd; lia|].
  rewrite E. eexists. split; [reflexivity|]. cbn [fst snd]. split; [|auto].
  assert (forall j d v, val (done ++ (f + m, c') :: todo) j d v <-> val (done ++ (f, c) :: todo) j d v \/
     (j = length done /\ exists p, nth_error fv p = Some d /\ v = cur + p)) as HV.
  { intros j d v. unfold val. destruct (lt_eq_lt_dec j (length done)) as [[Hl|He]|Hl].
    - rewrite !nth_error_app1 by auto. split; [auto|intros [?|[? _]]; [auto|lia]].
    - subst j. rewrite !nth_error_app2, Nat.sub_diag by auto. simpl. split.
      + intros (s & [= <-] & H1 & H2). cbn [fst snd] in *. destruct (le_lt_dec f d) as [Hfd|Hfd].
        * right. split; auto. assert (In d fv) as Hin by (apply Hf; lia). apply In_nth_error in Hin as [p Hp]. exists p. split; auto.
          rewrite (P p d Hp) in H2. assert (p < m) by (rewrite <- Lf; apply nth_error_Some; congruence).
          rewrite (nth_error_nth' _ 0) in H2 by (now rewrite seq_length). rewrite seq_nth in H2 by auto. congruence.
        * left. exists (f, c). repeat split; auto. cbn [snd]. rewrite <- D; auto. rewrite Hf. lia.
      + intros [(s & [= <-] & H1 & H2)|(_ & p & Hp & ->)]; exists (f + m, c'); cbn [fst snd] in *.
        * repeat split; auto; [lia|]. rewrite D; auto. rewrite Hf. lia.
        * assert (p < m) by (rewrite <- Lf; apply nth_error_Some; congruence). repeat split; auto.
          -- apply nth_error_In, Hf in Hp. lia.
          -- rewrite (P p d Hp). rewrite (nth_error_nth' _ 0) by (now rewrite seq_length). now rewrite seq_nth.
    - rewrite !nth_error_app2 by lia. destruct (j - length done) as [|x] eqn:Ex; [lia|]. simpl. split; [auto|intros [?|[? _]]; [auto|lia]]. }
  split; [|split].
  - intros j d v H. apply HV in H as [H|(-> & p & Hp & ->)]; [apply I1 in H; lia|].
    assert (p < m) by (rewrite <- Lf; apply nth_error_Some; congruence). lia.
  - intros v Hv. destruct (le_lt_dec cur v) as [Hc|Hc].
    + destruct (nth_error fv (v - cur)) as [d|] eqn:Ed; [|apply nth_error_None in Ed; lia].
      exists (length done), d. apply HV. right. split; auto. exists (v - cur). split; auto. lia.
    + destruct (I2 v Hc) as (j & d & H). exists j, d. apply HV. auto.
  - intros j d j' d' v H H'. apply HV in H as [H|(-> & p & Hp & ->)], H' as [H'|(-> & p' & Hp' & E')].
    + eapply I3; eauto.
    + apply I1 in H. lia.
    + apply I1 in H'. lia.
    + split; auto. assert (p = p') as -> by lia. congruence.
Qed.
Lemma renumber_members_step rows : forall done sts cur ms, MI (done ++ sts) cur ->
  Forall2 (fun rs m => step_ok (fst rs) (snd rs) m) (combine rows sts) ms -> length rows = length sts ->
  exists cur' sts', renumber_members rows cur sts = Some (cur', sts') /\ MI (done ++ sts') cur' /\
    Forall2 (fun sm s' => fst s' = fst (fst sm) + snd sm /\ length (snd s') = length (snd (fst sm))) (combine sts ms) sts'.
Proof.
  induction rows as [|r rows IH]; intros done sts cur ms HI HF Hl; destruct sts as [|s sts]; try discriminate; simpl in *.
  - exists cur, []. split; auto.
  - inversion HF as [|? m ? ms' H1 H2]; subst. simpl in H1. destruct (renumber_step done s sts cur r m HI H1) as (s1 & E & HI' & F1 & F2). rewrite E.
    destruct (IH (done ++ [s1]) sts (cur + m) ms') as (cur' & sts' & E' & HI2 & HF2); auto. { now rewrite <- app_assoc. }
    rewrite E'. exists cur', (s1 :: sts'). split; auto. split; [now rewrite <- app_assoc in HI2|]. constructor; auto.
Qed.

(** the state of a member after [e] elements *)
Definition at_prefix (g : mgm) (e : nat) (s : mstate) : Prop :=
  length (snd s) = m_num g /\ forall d, In d (concat (firstn e g)) <-> d < fst s.
Lemma firstn_S_nth {X} (l : list X) e r : nth_error l e = Some r -> firstn (S e) l = firstn e l ++ [r].
Proof. revert e. induction l as [|a l IH]; intros [|e] H; simpl in *; try discriminate; [congruence|]. f_equal. auto. Qed.
Lemma prefix_step g e s row : sequential g -> at_prefix g e s -> nth_error g e = Some row -> exists m, step_ok row s m /\
  forall s', fst s' = fst s + m -> length (snd s') = length (snd s) -> at_prefix g (S e) s'.
Proof.
  intros [Hn Hs] [Hl Hp] Hr. assert (e < length g) as He by (apply nth_error_Some; congruence).
  destruct (Hs (S e)) as [k Hk]; [lia|]. rewrite (firstn_S_nth _ _ _ Hr), concat_app in Hk. simpl in Hk. rewrite app_nil_r in Hk.
  assert (forall d, In d row \/ d < fst s <-> d < k) as Hk' by (intros d; rewrite <- Hk, in_app_iff, Hp; tauto). clear Hk.
  assert (fst s <= k) as Hle. { destruct (le_lt_dec (fst s) k); auto. assert (k < k); [|lia]. apply Hk'. auto. }
  exists (k - fst s). split; [split; [|split]|].
  - rewrite Forall_forall in Hn. apply Hn. eapply nth_error_In; eauto.
  - intros d. specialize (Hk' d). split; [intros [H1 H2]; assert (d < k) by tauto; lia|].
    intros H. assert (In d row \/ d < fst s) as [?|?] by (apply Hk'; lia); [split; auto; lia|lia].
  - rewrite Hl. destruct (Nat.eq_dec k 0); [lia|]. assert (k - 1 < m_num g); [|lia]. apply m_num_lt.
    assert (In (k - 1) (concat (firstn (S e) g))) as Hin.
    { rewrite (firstn_S_nth _ _ _ Hr), concat_app. simpl. rewrite app_nil_r, in_app_iff, Hp. assert (In (k - 1) row \/ k - 1 < fst s) by (apply Hk'; lia). tauto. }
    apply in_concat in Hin as (r' & H1 & H2). apply in_concat. exists r'. split; auto. rewrite <- (firstn_skipn (S e) g). apply in_or_app; auto.
  - intros s' E1 E2. split; [congruence|]. intros d. rewrite (firstn_S_nth _ _ _ Hr), concat_app. simpl. rewrite app_nil_r, in_app_iff, Hp, E1.
    specialize (Hk' d). replace (fst s + (k - fst s)) with k by lia. tauto.
Qed.
Lemma renumber_elements_step gms n : Forall sequential gms -> Forall (fun g => length g = n) gms ->
  forall c e cur sts, e + c = n -> MI sts cur -> Forall2 (fun g s => at_prefix g e s) gms sts ->
  exists cur' sts', renumber_elements gms (seq e c) cur sts = Some (cur', sts') /\ MI sts' cur' /\ Forall2 (fun g s => at_prefix g n s) gms sts'.
Proof.
  intros Hs Hlen. induction c as [|c IH]; intros e cur sts Hec HI HP; simpl.
  - exists cur, sts. assert (e = n) as -> by lia. auto.
  - assert (exists rows, obind gms (fun g => nth_error g e) = Some rows) as [rows Hrows].
    { apply obind_ok. intros g Hg. rewrite Forall_forall in Hlen. apply Hlen in Hg. destruct (nth_error g e) eqn:E; eauto. apply nth_error_None in E. lia. }
    rewrite Hrows. apply obind_forall2 in Hrows.
    assert (exists ms, Forall2 (fun rs m => step_ok (fst rs) (snd rs) m) (combine rows sts) ms /\
      forall sts', Forall2 (fun sm s' => fst s' = fst (fst sm) + snd sm /\ length (snd s') = length (snd (fst sm))) (combine sts ms) sts' ->
        Forall2 (fun g s => at_prefix g (S e) s) gms sts') as (ms & Hms & Hnext).
    { clear - Hs HP Hrows. revert sts HP. induction Hrows as [|g r gms rows Hr Hrows IH]; intros sts HP; inversion HP as [|? s ? sts0 H1 H2]; subst.
      - exists []. split; [constructor|]. simpl. intros sts' H. inversion H; constructor.
      - inversion Hs; subst. destruct (IH ltac:(auto) sts0 H2) as (ms & M1 & M2). destruct (prefix_step g e s r) as (m & S1 & S2); auto.
        exists (m :: ms). simpl. split; [constructor; auto|]. intros sts' H. inversion H as [|? s' ? sts'' [F1 F2] HF]; subst. simpl in F1, F2. constructor; auto. }
    destruct (renumber_members_step rows [] sts cur ms HI Hms) as (cur1 & sts1 & E & HI1 & HF).
    { apply Forall2_len in Hrows. apply Forall2_len in HP. congruence. }
    rewrite E. apply IH; auto; lia.
Qed.

Lemma method_0_chained gms : Forall sequential gms -> gms <> [] -> Forall (fun g => length g = length (hd [] gms)) gms ->
  exists g, m_chain 0 gms = Some g /\ chained (map as_numbering gms) (as_numbering g) (m_total gms) /\ length g = length (hd [] gms).
Proof.
  intros Hs Hne Hlen. destruct gms as [|g0 gms0] eqn:Eg; [tauto|]. rewrite <- Eg in *. simpl in Hlen. clear Hne.
  assert (m_chain 0 gms = method_0 (length g0) gms) as ->.
  { rewrite Eg. unfold m_chain. assert (forallb (fun g => length g =? length g0) (g0 :: gms0) = true) as ->; auto.
    apply forallb_forall. intros g Hg. apply Nat.eqb_eq. rewrite Forall_forall in Hlen. rewrite (Hlen g); rewrite Eg; auto. }
  replace (length (hd [] gms)) with (length g0) in * by (rewrite Eg; auto). set (n := length g0) in *. clearbody n. clear Eg g0 gms0.
  unfold method_0. destruct (renumber_elements_step gms n Hs Hlen n 0 0 (map (fun g => (0, repeat 1 (m_num g))) gms)) as (cur & sts & E & HI & HP); auto.
  { split; [|split]; try (intros; lia).
    - intros j d v (s & Hs' & Hd & _). rewrite nth_error_map in Hs'. destruct (nth_error gms j); [|discriminate]. injection Hs' as <-. simpl in Hd. lia.
    - intros j d j' d' v (s & Hs' & Hd & _). rewrite nth_error_map in Hs'. destruct (nth_error gms j); [|discriminate]. injection Hs' as <-. simpl in Hd. lia. }
  { clear. induction gms; simpl; constructor; auto. split; [apply repeat_length|]. simpl. intros d. split; [tauto|lia]. }
  rewrite E. clear E.
  assert (Forall2 (fun g s => length (snd s) = m_num g /\ fst s = m_num g /\ forall d, In d (concat g) <-> d < m_num g) gms sts) as HQ.
  { clear - HP Hlen. induction HP as [|g s gms sts [H1 H2] HP IH]; constructor; [|apply IH; now inversion Hlen]. inversion Hlen as [|? ? Hg]; subst.
    rewrite firstn_all in H2. assert (fst s = m_num g) as E.
    { destruct (fst s) as [|k] eqn:Ek.
      - assert (concat g = []) as E0. { destruct (concat g) as [|x l]; auto. exfalso. assert (x < 0) by (apply H2; simpl; auto). lia. }
        unfold m_num. now rewrite E0.
      - apply Nat.le_antisymm.
        + apply m_num_lt. apply H2. auto.
        + unfold m_num. apply list_max_le. apply Forall_forall. intros x Hx. apply in_map_iff in Hx as (d & <- & Hd). apply H2 in Hd. lia. }
    split; auto. split; auto. now rewrite <- E. }
  assert (forall e, e < n -> exists rows row, new_row gms sts e = Some row /\ Forall2 (fun g r => nth_error g e = Some r) gms rows /\
     row = concat (map (fun ir => map (fun d => nth d (snd (nth (fst ir) sts (0, []))) 0) (snd ir)) (combine (seq 0 (length gms)) rows))) as Hrow.
  { intros e He. unfold new_row.
    assert (forall k sts', skipn k sts' = sts -> exists rows parts, obind (combine gms sts) (fun gs => match nth_error (fst gs) e with Some row => obind row (nth_error (snd (snd gs))) | None => None end) = Some parts /\
      Forall2 (fun g r => nth_error g e = Some r) gms rows /\
      parts = map (fun ir => map (fun d => nth d (snd (nth (fst ir) sts' (0, []))) 0) (snd ir)) (combine (seq k (length gms)) rows)) as HH.
    { clear - HQ Hlen He. induction HQ as [|g s gms sts (Q1 & Q2 & Q3) HQ IH]; intros k sts' Hk; simpl; [exists [], []; auto|].
      inversion Hlen as [|? ? Hg Hlen']; subst. destruct (nth_error g e) as [row|] eqn:Er; [|apply nth_error_None in Er; lia].
      assert (skipn (S k) sts' = sts) as Hk'.
      { clear - Hk. revert sts' Hk. induction k as [|k IH]; intros [|x l] Hk; simpl in *; try discriminate; [congruence|]. apply IH. auto. }
      destruct (IH Hlen' (S k) sts' Hk') as (rows & parts & E & HF & ->). rewrite E.
      assert (nth k sts' (0, []) = s) as En. { clear - Hk. revert sts' Hk. induction k as [|k IH]; intros [|x l] Hk; simpl in *; try discriminate; [congruence|]. auto. }
      assert (obind row (nth_error (snd s)) = Some (map (fun d => nth d (snd s) 0) row)) as ->.
      { apply obind_forall2. assert (forall d, In d row -> d < length (snd s)) as Hb.
        { intros d Hd. rewrite Q1. apply Q3. apply in_concat. exists row. split; auto. eapply nth_error_In; eauto. }
        clear - Hb. induction row as [|d row IH]; simpl; constructor; [apply nth_error_nth'; apply Hb; simpl; auto|apply IH; intros; apply Hb; simpl; auto]. }
      exists (row :: rows). eexists. split; [reflexivity|]. split; [constructor; auto|]. cbn [length seq combine map fst snd]. now rewrite En. }
    destruct (HH 0 sts eq_refl) as (rows & parts & E & HF & ->). rewrite E. simpl. exists rows. eexists. eauto. }
  destruct (obind_ok (new_row gms sts) (seq 0 n)) as [g Hg].
  { intros e He. apply in_seq in He. destruct (Hrow e) as (rows & row & E & _); [lia|eauto]. }
  exists g. split; auto.
  assert (length g = n) as Lg. { apply obind_forall2, Forall2_len in Hg. rewrite seq_length in Hg. auto. } split; auto.
  set (phi := fun i d => nth d (snd (nth i sts (0, []))) 0).
  assert (forall i gi d, nth_error gms i = Some gi -> In d (concat gi) -> val sts i d (phi i d)) as Hval.
  { intros i gi d Hi Hd. destruct (Forall2_nth_l _ _ _ _ _ HQ Hi) as (s & Hs' & Q1 & Q2 & Q3). exists s. unfold phi. rewrite (nth_error_nth _ _ (0, []) Hs').
    apply Q3 in Hd. repeat split; auto; [lia|]. apply nth_error_nth'. lia. }
  destruct HI as (I1 & I2 & I3).
  assert (cur = m_total gms) as Ec.
  { (* both count the pairs *)
    assert (forall k, k < cur -> exists i d gi, nth_error gms i = Some gi /\ d < m_num gi /\ phi i d = k) as Honto.
    { intros k Hk. destruct (I2 k Hk) as (j & d & s & Hj & Hd & Hv). destruct (Forall2_nth_r _ _ _ _ _ HQ Hj) as (gi & Hgi & Q1 & Q2 & Q3).
      exists j, d, gi. split; auto. split; [lia|]. unfold phi. rewrite (nth_error_nth _ _ (0, []) Hj). now apply nth_error_nth. }
    set (pairs := concat (map (fun ig => map (pair (fst ig)) (seq 0 (m_num (snd ig)))) (combine (seq 0 (length gms)) gms))).
    assert (forall i d, In (i, d) pairs <-> exists gi, nth_error gms i = Some gi /\ d < m_num gi) as Hpairs.
    { intros i d. unfold pairs. rewrite in_concat. split.
      - intros (l & Hl & Hin). apply in_map_iff in Hl as ([i' gi] & <- & Hl). apply combine_seq_in in Hl as [_ Hl]. rewrite Nat.sub_0_r in Hl.
        simpl in Hin. apply in_map_iff in Hin as (x & [= <- <-] & Hx). apply in_seq in Hx. exists gi. split; auto. lia.
      - intros (gi & Hi & Hd). eexists. split; [apply in_map_iff; exists (i, gi); split; [reflexivity|]; apply combine_seq_in; rewrite Nat.sub_0_r; split; auto; lia|].
        simpl. apply in_map. apply in_seq. lia. }
    assert (NoDup pairs) as Np.
    { unfold pairs. clear. assert (forall k, NoDup (concat (map (fun ig => map (pair (fst ig)) (seq 0 (m_num (snd ig)))) (combine (seq k (length gms)) gms)))) as H; [|apply H].
      induction gms as [|g gms IH]; intros k; simpl; [constructor|]. apply NoDup_app_intro; auto.
      - apply FinFun.Injective_map_NoDup; [intros a b; congruence|apply seq_NoDup].
      - intros [i d] H1 H2. apply in_map_iff in H1 as (x & [= <- <-] & _). apply in_concat in H2 as (l & Hl & Hin). apply in_map_iff in Hl as ([i' gi] & <- & Hl).
        apply combine_seq_in in Hl as [Hl _]. simpl in Hin. apply in_map_iff in Hin as (y & [= E _] & _). lia. }
    assert (length pairs = m_total gms) as Lp.
    { unfold pairs, m_total. clear. generalize 0 at 2. induction gms as [|g gms IH]; intros k; simpl; auto. rewrite app_length, map_length, seq_length, IH. auto. }
    rewrite <- Lp. rewrite <- (seq_length cur 0). apply Nat.le_antisymm.
    - rewrite <- (map_length (fun id => phi (fst id) (snd id)) pairs). apply NoDup_incl_length; [apply seq_NoDup|]. intros k Hk. apply in_seq in Hk.
      destruct (Honto k) as (i & d & gi & H1 & H2 & H3); [lia|]. apply in_map_iff. exists (i, d). split; auto. apply Hpairs. eauto.
    - rewrite <- (map_length (fun id => phi (fst id) (snd id)) pairs). apply NoDup_incl_length.
      + assert (forall i d i' d', In (i, d) pairs -> In (i', d') pairs -> phi i d = phi i' d' -> (i, d) = (i', d')) as Hinj.
        { intros i d i' d' H1 H2 H3. apply Hpairs in H1 as (gi & G1 & D1). apply Hpairs in H2 as (gj & G2 & D2).
          destruct (Forall2_nth_l _ _ _ _ _ HQ G1) as (s1 & S1 & Q11 & Q12 & Q13), (Forall2_nth_l _ _ _ _ _ HQ G2) as (s2 & S2 & Q21 & Q22 & Q23).
          destruct (I3 i d i' d' (phi i d)) as [-> ->]; auto; [apply (Hval i gi); auto; now apply Q13|rewrite H3; apply (Hval i' gj); auto; now apply Q23]. }
        clear - Np Hinj. induction Np as [|[i d] l Hx Np IH]; simpl; constructor.
        * intros Hin. apply in_map_iff in Hin as ([i' d'] & E & Hin). simpl in E. apply Hx. rewrite (Hinj i d i' d'); simpl; auto.
        * apply IH. intros. apply Hinj; simpl; auto.
      + intros k Hk. apply in_map_iff in Hk as ([i d] & <- & Hin). apply Hpairs in Hin as (gi & G1 & D1).
        destruct (Forall2_nth_l _ _ _ _ _ HQ G1) as (s1 & S1 & Q11 & Q12 & Q13). apply in_seq. simpl. split; [lia|]. apply (I1 i d). apply (Hval i gi); auto. now apply Q13. }
  exists phi. split; [|split].
  - intros e row Hat. apply row_at_as in Hat. assert (e < n) as He by (rewrite <- Lg; apply nth_error_Some; congruence).
    destruct (Hrow e He) as (rows & row' & E & HF & ->). exists rows. split.
    + clear - HF. induction HF; simpl; constructor; auto. now apply row_at_as.
    + rewrite map_length. apply obind_forall2 in Hg. destruct (Forall2_nth_r _ _ _ _ _ Hg Hat) as (e' & He' & E').
      assert (e' = e) as -> by (rewrite (nth_error_nth' _ 0), seq_nth in He'; [injection He' as <-; auto|auto|now rewrite seq_length]). rewrite E in E'. injection E' as <-. reflexivity.
  - intros i j gi gj d d' Hi Hj Hd Hd' Ev. rewrite nth_error_map in Hi, Hj. destruct (nth_error gms i) as [x|] eqn:Ei; [|discriminate]. destruct (nth_error gms j) as [y|] eqn:Ej; [|discriminate].
    injection Hi as <-. injection Hj as <-. apply used_as in Hd, Hd'. apply (I3 i d j d' (phi i d)); [eapply Hval; eauto|rewrite Ev; eapply Hval; eauto].
  - intros k. rewrite <- Ec. split.
    + intros Hk. destruct (I2 k Hk) as (j & d & s & Hj & Hd & Hv). destruct (Forall2_nth_r _ _ _ _ _ HQ Hj) as (gi & Hgi & Q1 & Q2 & Q3).
      exists j, (as_numbering gi), d. split; [now rewrite nth_error_map, Hgi|]. split; [apply used_as, Q3; lia|]. unfold phi. rewrite (nth_error_nth _ _ (0, []) Hj). now apply nth_error_nth.
    + intros (i & gi & d & Hi & Hd & <-). rewrite nth_error_map in Hi. destruct (nth_error gms i) as [x|] eqn:Ei; [|discriminate]. injection Hi as <-.
      apply used_as in Hd. apply (I1 i d). eapply Hval; eauto.
Qed.

(** numbers not given in order *)
Definition unordered : mgm := [[2]; [0]; [1]].
Lemma method_0_unordered : exists g, m_chain 0 [unordered; unordered] = Some g /\ (forall d, In d (concat unordered) <-> d < 3) /\
  exists row, In row g /\ ~ NoDup row.
Proof.
  eexists. split; [vm_compute; reflexivity|]. split.
  - intros d. simpl. split; [intuition lia|]. intros H. destruct d as [|[|[|d]]]; auto. lia.
  - exists [1; 1]. split; [simpl; auto|]. intros H. inversion H; subst. simpl in *. tauto.
Qed.

(** ** the cache *)
Lemma m_history_inv env k calls : Forall (fun nm => snd nm = k) calls ->
  match m_history env calls with Some (s, g) => m_chain k (map env s) = Some g | None => True end.
Proof.
  induction calls as [|[names m] calls IH] using rev_ind; intros H; [simpl; auto|]. apply Forall_app in H as [H1 H2]. inversion H2 as [|? ? Em _]. simpl in Em. rewrite <- Em in *. clear H2.
  unfold m_history. rewrite fold_left_app. fold (m_history env calls). cbn [fold_left fst snd]. specialize (IH H1). unfold m_get.
  destruct (m_history env calls) as [[s g]|].
  - destruct (sig_eqb names s); [auto|]. destruct (m_chain m (map env names)) eqn:E; simpl; auto.
  - destruct (m_chain m (map env names)) eqn:E; simpl; auto.
Qed.
Lemma m_get_one_method env calls k names : Forall (fun nm => snd nm = k) calls ->
  fst (m_get env (m_history env calls) names k) = m_chain k (map env names).
Proof.
  intros H. pose proof (m_history_inv env k calls H) as HI. unfold m_get. destruct (m_history env calls) as [[s g]|].
  - destruct (sig_eqb names s) eqn:E; [apply sig_eqb_spec in E as ->; auto|]. destruct (m_chain k (map env names)); auto.
  - destruct (m_chain k (map env names)); auto.
Qed.
Lemma m_get_other_method : exists env names, fst (m_get env (m_history env [(names, 0)]) names 1) <> m_chain 1 (map env names) /\ m_chain 1 (map env names) <> None.
Proof.
  exists (fun _ => [[0; 1]; [1; 2]]), [7; 8]. split; vm_compute; discriminate.
Qed.
