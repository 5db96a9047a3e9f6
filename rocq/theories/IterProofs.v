From Coq Require Import List ZArith QArith Qabs Qcanon Bool Lia Lqa Permutation.
From Verif Require Import Dict MetricKeyModel MetricKeyThms IterModel IterSpec.
Import ListNotations.
Local Open Scope Z_scope.

Lemma ikey_eqb_spec a b : ikey_eqb a b = true <-> a = b.
Proof.
  destruct a as [x|s x], b as [y|t y]; cbn; try (split; intros H; discriminate).
  - rewrite Z.eqb_eq. split; congruence.
  - rewrite andb_true_iff, Z.eqb_eq, eqb_true_iff. split; [intros [-> ->]|intros [= -> ->]]; auto.
Qed.
Lemma total_app {A} (f : A -> nat) l l' : total f (l ++ l') = (total f l + total f l')%nat.
Proof. induction l as [|a l IH]; cbn; auto. rewrite IH. lia. Qed.
Lemma total_perm {A} (f : A -> nat) l l' : Permutation l l' -> total f l = total f l'.
Proof. induction 1; cbn; lia. Qed.
Lemma total_exists {A} (p : A -> bool) l : existsb p l = true <-> (0 < total (fun a => b2n (p a)) l)%nat.
Proof. induction l as [|a l IH]; cbn; [split; [discriminate|lia]|]. destruct (p a); cbn; [split; auto; lia|]. rewrite IH. reflexivity. Qed.
Lemma total_none {A} (p : A -> bool) l : existsb p l = false <-> total (fun a => b2n (p a)) l = 0%nat.
Proof. pose proof (total_exists p l) as H. destruct (existsb p l), (total (fun a => b2n (p a)) l); intuition (try lia; try discriminate). Qed.
Lemma check_stored c k : check_input c k = true <-> (0 < stored c k)%nat.
Proof.
  destruct k as [i|s u]; cbn [check_input stored].
  - unfold in_ints. pose proof (total_exists (Z.eqb i) (c_ints c)) as H1. pose proof (total_exists (in_range i) (c_ranges c)) as H2. unfold in_range in H2 at 2. cbn beta in H2.
    destruct (existsb (Z.eqb i) (c_ints c)).
    + split; auto. intros _. destruct H1 as [H1 _]. specialize (H1 eq_refl). lia.
    + rewrite H2. destruct (total (fun j => b2n (i =? j)%Z) (c_ints c)) eqn:E; [rewrite Nat.add_0_r; reflexivity|]. destruct H1 as [_ H1]. rewrite <- H2. discriminate H1. lia.
  - unfold in_strs. apply total_exists.
Qed.
Lemma stored_none c k : check_input c k = false <-> stored c k = 0%nat.
Proof. pose proof (check_stored c k) as H. destruct (check_input c k), (stored c k); intuition (try lia; try discriminate). Qed.
Lemma ikey_eqb_refl k : ikey_eqb k k = true. Proof. now apply ikey_eqb_spec. Qed.
Lemma stored_update c k k' : stored (update_input c k) k' = (stored c k' + b2n (ikey_eqb k' k && negb (check_input c k)))%nat.
Proof.
  destruct (check_input c k) eqn:E.
  - rewrite andb_false_r. replace (update_input c k) with c; [cbn; lia|]. destruct k as [i|s u]; cbn [check_input update_input] in *.
    + destruct (in_ints i (c_ints c)); auto. now rewrite E.
    + now rewrite E.
  - rewrite andb_true_r. destruct k as [i|s u]; cbn [check_input update_input] in *.
    + destruct (in_ints i (c_ints c)); [discriminate|]. rewrite E. destruct k' as [j|t v]; cbn [stored c_ints c_ranges c_strs ikey_eqb]; [|cbn; lia]. rewrite total_app. cbn. lia.
    + rewrite E. destruct k' as [j|t v]; cbn [stored c_ints c_ranges c_strs ikey_eqb]; [cbn; lia|]. rewrite total_app. cbn. lia.
Qed.

(** ** compressing *)
Definition proper (c : computed) : Prop := Forall (fun r => fst r < snd r) (c_ranges c).
Lemma insert_perm i l : Permutation (insert_z i l) (i :: l).
Proof. induction l as [|j l IH]; cbn; auto. destruct (i <=? j); auto. rewrite IH. apply perm_swap. Qed.
Lemma sort_perm l : Permutation (sort_z l) l.
Proof. induction l as [|i l IH]; cbn; auto. rewrite insert_perm. now constructor. Qed.
Lemma remove_z_perm i l : In i l -> exists l', remove_z i l = Some l' /\ Permutation l (i :: l').
Proof.
  induction l as [|j l IH]; [intros []|]. intros H. cbn. destruct (Z.eqb_spec i j) as [->|Hn]; [eauto|]. destruct H as [->|H]; [congruence|].
  destruct (IH H) as (l' & -> & P). exists (j :: l'). split; auto. rewrite P. apply perm_swap.
Qed.
Lemma remove_all_perm xs : forall l y, Permutation l (xs ++ y) -> exists l', remove_all xs l = Some l' /\ Permutation l' y.
Proof.
  induction xs as [|x xs IH]; intros l y P; cbn; [eauto|]. destruct (remove_z_perm x l) as (l1 & -> & P1); [rewrite P; now left|]. apply IH.
  apply (Permutation_cons_inv (a := x)). now rewrite <- P1, P.
Qed.
Lemma absorb_stored i rs rs' z : Forall (fun r => fst r < snd r) rs -> absorb i rs = Some rs' ->
  Forall (fun r => fst r < snd r) rs' /\ total (fun r => b2n ((fst r <=? z) && (z <? snd r))%Z) rs' = (total (fun r => b2n ((fst r <=? z) && (z <? snd r))%Z) rs + b2n (z =? i)%Z)%nat.
Proof.
  revert rs'. induction rs as [|[lo hi] rs IH]; intros rs' F E; cbn [absorb] in E; [discriminate|]. inversion_clear F as [|? ? H1 H2]. cbn [fst snd] in H1.
  destruct (Z.eqb_spec i hi) as [->|N1]; [|destruct (Z.eqb_spec i (lo - 1)) as [->|N2]].
  - injection E as <-. split; [constructor; auto; cbn; lia|]. cbn [total fst snd].
    destruct (Z.leb_spec lo z), (Z.ltb_spec z hi), (Z.ltb_spec z (hi + 1)), (Z.eqb_spec z hi); cbn; lia.
  - injection E as <-. split; [constructor; auto; cbn; lia|]. cbn [total fst snd].
    destruct (Z.leb_spec lo z), (Z.ltb_spec z hi), (Z.leb_spec (lo - 1) z), (Z.eqb_spec z (lo - 1)); cbn; lia.
  - destruct (absorb i rs) as [rs1|]; [|discriminate]. injection E as <-. destruct (IH rs1 H2 eq_refl) as [I1 I2]. split; [constructor; auto|]. cbn [total fst snd]. lia.
Qed.
Lemma absorb_all_stored ints : forall rs rs' rm z, Forall (fun r => fst r < snd r) rs -> absorb_all ints rs = (rs', rm) ->
  Forall (fun r => fst r < snd r) rs' /\ (exists keep, Permutation ints (rm ++ keep)) /\
  total (fun r => b2n ((fst r <=? z) && (z <? snd r))%Z) rs' = (total (fun r => b2n ((fst r <=? z) && (z <? snd r))%Z) rs + total (fun j => b2n (z =? j)%Z) rm)%nat.
Proof.
  induction ints as [|i ints IH]; intros rs rs' rm z F E; cbn [absorb_all] in E.
  - injection E as <- <-. split; auto. split; [exists []; auto|]. cbn. lia.
  - destruct (absorb i rs) as [rs1|] eqn:E1.
    + destruct (absorb_all ints rs1) as [rs2 rm2] eqn:E2. injection E as <- <-. destruct (absorb_stored i rs rs1 z F E1) as [F1 T1].
      destruct (IH rs1 rs2 rm2 z F1 E2) as (F2 & (keep & P) & T2). split; auto. split; [exists keep; cbn; now constructor|]. cbn [total]. lia.
    + destruct (IH rs rs' rm z F E) as (F2 & (keep & P) & T2). split; auto. split; auto. exists (i :: keep). rewrite P. apply Permutation_middle.
Qed.
Lemma find_pair l i : find (fun i => in_ints (i + 1) l) l = Some i -> exists l', Permutation l (i :: i + 1 :: l').
Proof.
  intros H. apply find_some in H as [Hi Hs]. apply existsb_exists in Hs as (x & Hx & E). apply Z.eqb_eq in E as <-. destruct (remove_z_perm i l Hi) as (l1 & _ & P).
  assert (H1 : In (i + 1) l1) by (assert (In (i + 1) (i :: l1)) as [|] by (now rewrite <- P); auto; lia). destruct (remove_z_perm _ _ H1) as (l2 & _ & P2). exists l2. rewrite P. now constructor.
Qed.
Lemma compress_stored c : proper c -> exists c', compress c = Some c' /\ proper c' /\ forall k, stored c' k = stored c k.
Proof.
  intros F. unfold compress. pose proof (sort_perm (c_ints c)) as PS. destruct (absorb_all (sort_z (c_ints c)) (c_ranges c)) as [rs rm] eqn:EA.
  assert (HA := fun z => absorb_all_stored _ _ _ _ z F EA). destruct (HA 0) as (F1 & (keep & P) & _). destruct (remove_all_perm rm _ keep P) as (ints & E & PK). rewrite E.
  assert (HT : forall z, total (fun j => b2n (z =? j)%Z) (c_ints c) = (total (fun j => b2n (z =? j)%Z) rm + total (fun j => b2n (z =? j)%Z) ints)%nat).
  { intros z. rewrite <- (total_perm _ _ _ PS), (total_perm _ _ _ P), total_app, (total_perm _ _ _ PK). reflexivity. }
  destruct (find _ ints) as [i|] eqn:Ef.
  - destruct (find_pair ints i Ef) as (l' & P2). destruct (remove_all_perm [i; i + 1] ints l' P2) as (ints' & -> & PI). eexists. split; [reflexivity|]. split.
    + apply Forall_app. split; auto. constructor; auto. cbn. lia.
    + intros [z|s u]; cbn [stored c_ranges c_ints c_strs]; auto. rewrite total_app. destruct (HA z) as (_ & _ & ->). rewrite HT, (total_perm _ _ _ PI), (total_perm _ _ _ P2).
      cbn [total fst snd]. destruct (Z.leb_spec i z), (Z.ltb_spec z (i + 2)), (Z.eqb_spec z i), (Z.eqb_spec z (i + 1)); cbn; lia.
  - eexists. split; [reflexivity|]. split; auto. intros [z|s u]; cbn [stored c_ranges c_ints c_strs]; auto. destruct (HA z) as (_ & _ & ->). rewrite HT. lia.
Qed.
Lemma update_proper c k : proper c -> proper (update_input c k).
Proof.
  unfold proper. destruct k as [i|s u]; cbn; intros H; [destruct (in_ints i (c_ints c)); auto; destruct (existsb _ _); auto|destruct (in_strs s u (c_strs c)); auto].
Qed.
Lemma history_stored ops : forall c, proper c -> (forall k, (stored c k <= 1)%nat) ->
  exists c', history ops c = Some c' /\ proper c' /\ forall k, (stored c' k <= 1)%nat /\ (check_input c' k = true <-> check_input c k = true \/ In (Note k) ops).
Proof.
  induction ops as [|[k0|] ops IH]; intros c F H1; cbn [history].
  - exists c. split; auto. split; auto. intros k. split; auto. cbn. tauto.
  - destruct (IH (update_input c k0)) as (c' & E & F' & H'); [now apply update_proper| |].
    { intros k. rewrite stored_update. specialize (H1 k). destruct (ikey_eqb k k0) eqn:Ek; cbn; [|lia]. apply ikey_eqb_spec in Ek as ->. destruct (check_input c k0) eqn:Ec; cbn; [lia|]. apply stored_none in Ec. lia. }
    exists c'. split; auto. split; auto. intros k. destruct (H' k) as [A B]. split; auto. rewrite B. rewrite !check_stored, stored_update. cbn [In].
    destruct (ikey_eqb k k0) eqn:Ek; cbn.
    + apply ikey_eqb_spec in Ek as ->. split; [auto|]. intros _. left. destruct (check_input c k0) eqn:Ec; cbn; [apply check_stored in Ec|]; lia.
    + assert (k <> k0) by (intros ->; now rewrite ikey_eqb_refl in Ek). rewrite Nat.add_0_r. split; [tauto|]. intros [?|[?|?]]; auto. congruence.
  - destruct (compress_stored c F) as (c1 & -> & F1 & S1). destruct (IH c1 F1) as (c' & E & F' & H'); [intros k; rewrite S1; auto|]. exists c'. split; auto. split; auto. intros k. destruct (H' k) as [A B].
    split; auto. rewrite B, !check_stored, S1. cbn [In]. split; [intros [?|?]; auto|intros [?|[?|?]]; auto; discriminate].
Qed.
Theorem record_exact ops : exists c, history ops no_computed = Some c /\ forall k, (check_input c k = true <-> In (Note k) ops) /\ (stored c k <= 1)%nat.
Proof.
  destruct (history_stored ops no_computed) as (c & E & _ & H); [constructor|intros [|]; cbn; lia|]. exists c. split; auto. intros k. destruct (H k) as [A B]. split; auto. rewrite B.
  assert (check_input no_computed k = false) as -> by (destruct k; reflexivity). split; [intros [|]; auto; discriminate|auto].
Qed.
Theorem compress_exact ops c : history ops no_computed = Some c -> exists c', compress c = Some c' /\ forall k, stored c' k = stored c k.
Proof.
  intros E. destruct (history_stored ops no_computed) as (c2 & E2 & F & _); [constructor|intros [|]; cbn; lia|]. assert (c2 = c) as -> by congruence. destruct (compress_stored c F) as (c' & H1 & _ & H2). eauto.
Qed.

(** ** keys of inputs *)
Theorem keys_close a b : make_key a = make_key b -> a = b \/ (Qabs (this a - this b) <= 1 # 100000)%Q.
Proof.
  unfold make_key. destruct (Z.eqb_spec (Zpos (Qden (this a))) 1) as [Ea|Ea], (Z.eqb_spec (Zpos (Qden (this b))) 1) as [Eb|Eb]; intros H; try discriminate.
  - left. apply Qc_is_canon. injection H as H. unfold Qeq. rewrite H, Ea, Eb. reflexivity.
  - right. injection H as Hs Hr. pose proof (rnd_near (Qabs (this a) * 100000)) as H1. pose proof (rnd_near (Qabs (this b) * 100000)) as H2. rewrite Hr in H1.
    apply Qabs_Qle_condition in H1, H2. set (z := inject_Z _) in *.
    assert (S : forall q : Q, (Qabs q == if Qnum q <? 0 then - q else q)%Q).
    { intros q. destruct (Z.ltb_spec (Qnum q) 0) as [L|L]; [apply Qabs_neg|apply Qabs_pos]; unfold Qle; cbn; lia. }
    rewrite (S (this a)) in H1. rewrite (S (this b)) in H2. rewrite Hs in H1. apply Qabs_Qle_condition. destruct (Qnum (this b) <? 0); lra.
Qed.
Theorem integer_keys_exact a b : Qden (this a) = 1%positive -> make_key a = make_key b -> a = b.
Proof.
  unfold make_key. intros E. rewrite E, Z.eqb_refl. destruct (Z.eqb_spec (Zpos (Qden (this b))) 1) as [Eb|Eb]; [|discriminate]. intros [= H]. apply Qc_is_canon. unfold Qeq. rewrite H, E.
  injection Eb as ->. reflexivity.
Qed.
Theorem spaced_keys_differ a b : ((1 # 100000) < Qabs (this a - this b))%Q -> make_key a <> make_key b.
Proof.
  intros H E. destruct (keys_close a b E) as [->|L].
  - assert (Z0 : (this b - this b == 0)%Q) by ring. rewrite Z0 in H. discriminate.
  - apply (Qlt_not_le _ _ H L).
Qed.
Lemma keys_refuted : exists a b, a <> b /\ make_key a = make_key b.
Proof. exists (Q2Qc (1 # 10)), (Q2Qc (100001 # 1000000)). split; [intros H; apply (f_equal this) in H; discriminate|reflexivity]. Qed.

(** ** resuming *)
Section Resume.
  Context {St Out Dat : Type}.
  Variable solve : St -> Qc -> St * (Z * Out).
  Variable code : St -> Dat.
  Variable restore : St -> Dat -> St.
  (** states the solver cannot tell apart *)
  Variable R : St -> St -> Prop.
  Hypothesis R_solve : forall s t i, R s t -> snd (solve s i) = snd (solve t i) /\ R (fst (solve s i)) (fst (solve t i)).
  Hypothesis R_restore : forall s t x, R s t -> R s (restore x (code t)).
  Notation file := (file Out Dat). Notation mem := (mem St Out Dat).
  Definition traj (s : St) (l : list Qc) : St := fold_left (fun s i => fst (solve s i)) l s.
  Definition results (s0 : St) (p : list Qc) (res : dict ikey (Z * Out)) : Prop :=
    forall p1 i p2, p = p1 ++ i :: p2 -> get ikey_eqb res (make_key i) = Some (snd (solve (traj s0 p1) i)).
  Definition known (p : list Qc) (c : computed) : Prop := proper c /\ forall k, check_input c k = true <-> In k (map make_key p).
  Definition knows (s0 : St) (p : list Qc) (c : computed) (res : dict ikey (Z * Out)) : Prop :=
    known p c /\ results s0 p res /\ forall k, In k (keys res) <-> In k (map make_key p).
  Definition valid (s0 : St) (p : list Qc) (f : file) : Prop :=
    knows s0 p (f_comp f) (f_res f) /\ (match p with [] => f_data f = None | _ => exists s, f_data f = Some (code s) /\ R (traj s0 p) s end).
  Lemma valid_empty s0 : valid s0 [] empty_file.
  Proof.
    split; [|reflexivity]. split; [split; [constructor|]; intros [|]; cbn; split; [discriminate|tauto|discriminate|tauto]|]. split; [intros p1 i p2 H; now destruct p1|]. cbn. tauto.
  Qed.
  Lemma knows_record w p i s r m m' s0 : knows s0 p (m_comp m) (m_res m) -> ~ In (make_key i) (map make_key p) -> r = snd (solve (traj s0 p) i) ->
    record code w (make_key i) s r m = Some m' -> knows s0 (p ++ [i]) (m_comp m') (m_res m') /\ m_st m' = s /\ m_check m' = false /\
      m_disk m' = if w then {| f_comp := m_comp m'; f_res := m_res m'; f_data := Some (code s) |} else m_disk m.
  Proof.
    intros ((F & HC) & HR & HK) Hn Hr E. unfold record in E. destruct (compress_stored (update_input (m_comp m) (make_key i)) (update_proper _ _ F)) as (c' & E1 & F1 & S1).
    rewrite E1 in E. cbv zeta in E. destruct (has ikey_eqb (m_res m) (make_key i)) eqn:Eh.
    { apply (has_spec ikey_eqb ikey_eqb_spec) in Eh. apply HK in Eh. contradiction. }
    injection E as <-. cbn [m_comp m_res m_st m_check m_disk]. split; [|auto]. split; [split; auto|split].
    - intros k. rewrite check_stored, S1, stored_update, map_app, in_app_iff. cbn [map In]. rewrite <- HC, check_stored.
      assert (Ec : check_input (m_comp m) (make_key i) = false) by (destruct (check_input (m_comp m) (make_key i)) eqn:X; auto; apply HC in X; contradiction). rewrite Ec. cbn [negb]. rewrite andb_true_r.
      destruct (ikey_eqb k (make_key i)) eqn:Ek; cbn.
      + apply ikey_eqb_spec in Ek as ->. split; [auto|lia].
      + rewrite Nat.add_0_r. split; [auto|]. intros [?|[?|[]]]; auto. subst k. now rewrite ikey_eqb_refl in Ek.
    - intros p1 j p2 Ep. rewrite (get_put ikey_eqb ikey_eqb_spec). destruct p2 as [|x p2] using rev_ind.
      + apply app_inj_tail in Ep as [-> ->]. rewrite ikey_eqb_refl. congruence.
      + rewrite app_comm_cons, app_assoc in Ep. apply app_inj_tail in Ep as [-> ->]. destruct (ikey_eqb (make_key j) (make_key x)) eqn:Ek; [|eapply HR; eauto].
        apply ikey_eqb_spec in Ek. destruct Hn. rewrite <- Ek. apply in_map. rewrite in_app_iff. right. now left.
    - intros k. rewrite (in_keys_put ikey_eqb ikey_eqb_spec), map_app, in_app_iff, HK. cbn. intuition congruence.
  Qed.
  Lemma record_some w k s r (m : mem) : proper (m_comp m) -> exists m', record code w k s r m = Some m'.
  Proof. intros F. unfold record. destruct (compress_stored (update_input (m_comp m) k) (update_proper _ _ F)) as (c' & -> & _). cbv zeta. eauto. Qed.
  Lemma traj_app s l i : traj s (l ++ [i]) = fst (solve (traj s l) i).
  Proof. unfold traj. rewrite fold_left_app. reflexivity. Qed.
  (** the rest of a run once a solver call was made *)
  Lemma loop_computing s0 all data : NoDup (map make_key all) -> forall is ws p m q, p ++ is = all -> m_check m = false -> knows s0 p (m_comp m) (m_res m) -> R (traj s0 p) (m_st m) ->
    valid s0 q (m_disk m) -> (exists q', all = q ++ q') ->
    let '(m', rows, en) := loop solve code restore data is ws m in
    (rows, en) = (snd (fst (plain_run solve (traj s0 p) is)), snd (plain_run solve (traj s0 p) is)) /\ R (fst (fst (plain_run solve (traj s0 p) is))) (m_st m') /\ m_check m' = false /\
    exists q, valid s0 q (m_disk m') /\ exists q', all = q ++ q'.
  Proof.
    intros ND. induction is as [|i is IH]; intros ws p m q Ep Hc K HR V Hq; cbn [loop plain_run].
    - cbn. repeat split; auto. eauto.
    - unfold iteration. rewrite Hc. pose proof (R_solve _ _ i HR) as [Hs HR']. destruct (solve (m_st m) i) as [s' r] eqn:Es. destruct (solve (traj s0 p) i) as [t' co] eqn:Et. cbn [fst snd] in Hs, HR'. subst co.
      assert (Hn : ~ In (make_key i) (map make_key p)).
      { rewrite <- Ep, map_app in ND. cbn in ND. apply NoDup_remove_2 in ND. rewrite in_app_iff in ND. tauto. }
      destruct (record_some (hd false ws) (make_key i) s' r m (proj1 (proj1 K))) as (m' & Em). rewrite Em. cbn [option_map].
      destruct (knows_record (hd false ws) p i s' r m m' s0 K Hn ltac:(now rewrite Et) Em) as (K' & E1 & E2 & E3).
      assert (V' : exists q, valid s0 q (m_disk m') /\ exists q', all = q ++ q').
      { rewrite E3. destruct (hd false ws); [|eauto]. exists (p ++ [i]). split; [|exists is; rewrite <- app_assoc; auto]. split; [exact K'|]. destruct (p ++ [i]) as [|x y] eqn:X; [now destruct p|].
        rewrite <- X. exists s'. split; auto. rewrite traj_app, Et. exact HR'. }
      destruct r as [c o]. cbn [fst snd]. destruct (c =? 0).
      + destruct V' as (q2 & V2 & Hq2). specialize (IH (tl ws) (p ++ [i]) m' q2). rewrite <- app_assoc in IH. specialize (IH Ep E2 K'). rewrite traj_app, Et, E1 in IH. specialize (IH HR' V2 Hq2). cbn [fst] in IH.
        destruct (loop solve code restore data is (tl ws) m') as [[m2 rows] en]. destruct (plain_run solve t' is) as [[s2 rows2] en2]. cbn [fst snd] in *. destruct IH as (I1 & I2 & I3 & I4).
        injection I1 as -> ->. repeat split; auto.
      + destruct (c =? 1); cbn [fst snd]; repeat split; auto; rewrite E1; auto.
  Qed.
  (** a run that still reads from the file *)
  Lemma loop_checking s0 all f k : NoDup (map make_key all) -> valid s0 k f -> (exists q', all = k ++ q') -> forall is ws p m, p ++ is = all -> (exists k2, k = p ++ k2) -> m_check m = true ->
    m_comp m = f_comp f -> m_res m = f_res f -> m_disk m = f -> R s0 (m_st m) ->
    let '(m', rows, en) := loop solve code restore (f_data f) is ws m in
    (rows, en) = (snd (fst (plain_run solve (traj s0 p) is)), snd (plain_run solve (traj s0 p) is)) /\
    (if m_check m' then m_st m' = m_st m else R (fst (fst (plain_run solve (traj s0 p) is))) (m_st m')) /\ exists q, valid s0 q (m_disk m') /\ exists q', all = q ++ q'.
  Proof.
    intros ND V Hall. induction is as [|i is IH]; intros ws p m Ep [k2 Hk] Hc Ec Er Ed HR; cbn [loop plain_run].
    - cbn. rewrite Hc. repeat split; auto. exists k. rewrite Ed. auto.
    - unfold iteration at 1. rewrite Hc, Ec, Er. destruct V as (K & Hdata). pose proof K as ((F & HC) & HRes & HKeys).
      assert (Hn : ~ In (make_key i) (map make_key p)).
      { rewrite <- Ep, map_app in ND. cbn in ND. apply NoDup_remove_2 in ND. rewrite in_app_iff in ND. tauto. }
      destruct k2 as [|j k2].
      + rewrite app_nil_r in Hk. subst k. destruct (check_input (f_comp f) (make_key i)) eqn:Ek; [apply HC in Ek; contradiction|].
        set (s := match f_data f with Some d => restore (m_st m) d | None => m_st m end).
        assert (HRs : R (traj s0 p) s).
        { unfold s. destruct p as [|x y] eqn:Epp; [rewrite Hdata; exact HR|]. destruct Hdata as (t & -> & Ht). now apply R_restore. }
        pose proof (R_solve _ _ i HRs) as [Hs HR']. destruct (solve s i) as [s' r] eqn:Es. destruct (solve (traj s0 p) i) as [t' co] eqn:Et. cbn [fst snd] in Hs, HR'. subst co.
        destruct (record_some (hd false ws) (make_key i) s' r m ltac:(now rewrite Ec)) as (m' & Em). rewrite Em. cbn [option_map]. rewrite <- Ec, <- Er in K.
        destruct (knows_record (hd false ws) p i s' r m m' s0 K Hn ltac:(now rewrite Et) Em) as (K' & E1 & E2 & E3).
        assert (V' : exists q, valid s0 q (m_disk m') /\ exists q', all = q ++ q').
        { rewrite E3. destruct (hd false ws); [|rewrite Ed; exists p; split; auto; rewrite Ec, Er in K; split; auto]. exists (p ++ [i]). split; [|exists is; rewrite <- app_assoc; auto]. split; [exact K'|].
          destruct (p ++ [i]) as [|x y] eqn:X; [now destruct p|]. rewrite <- X. exists s'. split; auto. rewrite traj_app, Et. exact HR'. }
        destruct r as [c o]. cbn [fst snd]. destruct (c =? 0).
        * destruct V' as (q2 & V2 & Hq2). pose proof (loop_computing s0 all (f_data f) ND is (tl ws) (p ++ [i]) m' q2) as LC. rewrite <- app_assoc in LC. specialize (LC Ep E2 K'). rewrite traj_app, Et, E1 in LC.
          specialize (LC HR' V2 Hq2). cbn [fst] in LC. destruct (loop solve code restore (f_data f) is (tl ws) m') as [[m2 rows] en]. destruct (plain_run solve t' is) as [[s2 rows2] en2]. cbn [fst snd] in *.
          destruct LC as (I1 & I2 & I3 & I4). injection I1 as -> ->. rewrite I3. repeat split; auto.
        * destruct (c =? 1); cbn [fst snd]; rewrite E2, E1; repeat split; auto.
      + assert (i = j) as <-.
        { destruct Hall as [q' Hall]. rewrite <- Ep, Hk, <- app_assoc in Hall. apply app_inv_head in Hall. cbn in Hall. now injection Hall. }
        assert (Ek : check_input (f_comp f) (make_key i) = true) by (apply HC, in_map; rewrite Hk, in_app_iff; right; now left). rewrite Ek.
        rewrite (HRes p i k2 Hk). destruct (solve (traj s0 p) i) as [t' [c o]] eqn:Et. cbn [fst snd]. destruct (c =? 0).
        * specialize (IH (tl ws) (p ++ [i]) m). rewrite <- app_assoc in IH. specialize (IH Ep). assert (Hk2 : exists k3, k = (p ++ [i]) ++ k3) by (exists k2; now rewrite <- app_assoc).
          specialize (IH Hk2 Hc Ec Er Ed HR). rewrite traj_app, Et in IH. cbn [fst] in IH. destruct (loop solve code restore (f_data f) is (tl ws) m) as [[m2 rows] en]. destruct (plain_run solve t' is) as [[s2 rows2] en2]. cbn [fst snd] in *.
          destruct IH as (I1 & I2 & I3). injection I1 as -> ->. repeat split; auto.
        * destruct (c =? 1); cbn [fst snd]; rewrite Hc, Ed; repeat split; auto; exists k; split; auto; split; auto.
  Qed.
  (** files left by runs killed after any number of iterations *)
  Inductive left_over (s0 : St) (all : list Qc) : file -> Prop :=
    | left_new : left_over s0 all empty_file
    | left_run f s n ws : left_over s0 all f -> R s0 s -> left_over s0 all (m_disk (fst (fst (run solve code restore f s (firstn n all) ws)))).
  Lemma left_valid s0 all f : NoDup (map make_key all) -> left_over s0 all f -> exists q, valid s0 q f /\ exists q', all = q ++ q'.
  Proof.
    intros ND. induction 1 as [|f s n ws L (q & V & q' & Hq) HR].
    - exists []. split; [apply valid_empty|exists all; auto].
    - (* the killed run is a run over a prefix; with more inputs it would have gone on *)
      destruct (Nat.le_gt_cases (length q) n) as [Hl|Hl].
      + assert (ND' : NoDup (map make_key (firstn n all))).
        { rewrite <- (firstn_skipn n all), map_app in ND. clear -ND. induction (map make_key (firstn n all)) as [|a l IH]; constructor; inversion_clear ND as [|? ? H1 H2]; [intros X; apply H1, in_or_app; auto|auto]. }
        assert (Hq2 : exists x, firstn n all = q ++ x).
        { rewrite Hq, firstn_app, (firstn_all2 q) by lia. eauto. }
        pose proof (loop_checking s0 (firstn n all) f q ND' V Hq2 (firstn n all) ws [] (start f s) eq_refl (ex_intro _ q eq_refl) eq_refl eq_refl eq_refl eq_refl HR) as HL. unfold run.
        destruct (loop solve code restore (f_data f) (firstn n all) ws (start f s)) as [[m' rows] en]. destruct HL as (_ & _ & q2 & V2 & x & Hx). cbn [fst]. exists q2. split; auto.
        exists (x ++ skipn n all). rewrite app_assoc, <- Hx. symmetry. apply firstn_skipn.
      + assert (HM : forall is ws m p, firstn n all = p ++ is -> m_check m = true -> m_comp m = f_comp f -> m_res m = f_res f -> m_disk m = f -> m_disk (fst (fst (loop solve code restore (f_data f) is ws m))) = f).
        { assert (Hpre : forall p i is, firstn n all = p ++ i :: is -> exists k2, q = p ++ i :: k2).
          { intros p i is E. rewrite Hq, firstn_app in E. replace (n - length q)%nat with 0%nat in E by lia. cbn in E. rewrite app_nil_r in E. exists (is ++ skipn n q). rewrite app_comm_cons, app_assoc, <- E. symmetry. apply firstn_skipn. }
          induction is as [|i is IH]; intros ws' m p Ep Hc Ec Er Ed; cbn [loop]; [auto|]. destruct V as (((F & HC) & HRes & _) & _). destruct (Hpre p i is Ep) as (k2 & Hk).
          unfold iteration. rewrite Hc, Ec, Er. assert (Ek : check_input (f_comp f) (make_key i) = true) by (apply HC, in_map; rewrite Hk, in_app_iff; right; now left). rewrite Ek, (HRes p i k2 Hk).
          destruct (snd (solve (traj s0 p) i)) as [c o]. destruct (c =? 0); [|destruct (c =? 1); auto].
          specialize (IH (tl ws') m (p ++ [i])). rewrite <- app_assoc in IH. specialize (IH Ep Hc Ec Er Ed). destruct (loop solve code restore (f_data f) is (tl ws') m) as [[m2 rows] en]. exact IH. }
        unfold run. rewrite (HM (firstn n all) ws (start f s) [] eq_refl eq_refl eq_refl eq_refl eq_refl). exists q. split; auto. exists q'. auto.
  Qed.
  Theorem resumed_run s0 all f s ws : NoDup (map make_key all) -> left_over s0 all f -> R s0 s ->
    let '(m, rows, en) := run solve code restore f s all ws in
    rows = snd (fst (plain_run solve s0 all)) /\ en = snd (plain_run solve s0 all) /\ (if m_check m then m_st m = s else R (fst (fst (plain_run solve s0 all))) (m_st m)).
  Proof.
    intros ND L HR. destruct (left_valid s0 all f ND L) as (q & V & Hq). unfold run.
    pose proof (loop_checking s0 all f q ND V Hq all ws [] (start f s) eq_refl (ex_intro _ q eq_refl) eq_refl eq_refl eq_refl eq_refl HR) as HL.
    destruct (loop solve code restore (f_data f) all ws (start f s)) as [[m rows] en]. destruct HL as (H1 & H2 & _). injection H1 as -> ->. auto.
  Qed.
End Resume.

(** ** what goes wrong *)
Definition count_solve (s : nat) (i : Qc) : nat * (Z * nat) := (S s, (0, s)).
Definition run_rows {S O D} (x : mem S O D * list O * ending) : list O := snd (fst x).
Definition run_disk {S O D} (x : mem S O D * list O * ending) : file O D := m_disk (fst (fst x)).
Definition run_state {S O D} (x : mem S O D * list O * ending) : S := m_st (fst (fst x)).
Definition save (s : nat) : nat := s.
Definition reload (_ d : nat) : nat := d.
Definition i2 (z : Z) : Qc := Q2Qc (inject_Z z).
Lemma repeated_input_refuted : exists all f, left_over count_solve save reload eq 0%nat all f /\ run_rows (run count_solve save reload f 0%nat all []) <> snd (fst (plain_run count_solve 0%nat all)).
Proof.
  exists [i2 0; i2 1; i2 0], (run_disk (run count_solve save reload empty_file 0%nat (firstn 3 [i2 0; i2 1; i2 0]) [true; true; true])). split; [apply left_run; [apply left_new|reflexivity]|]. vm_compute. discriminate.
Qed.
Lemma close_inputs_refuted : exists all f, NoDup all /\ left_over count_solve save reload eq 0%nat all f /\ run_rows (run count_solve save reload f 0%nat all []) <> snd (fst (plain_run count_solve 0%nat all)).
Proof.
  exists [Q2Qc (1 # 10); Q2Qc (100001 # 1000000)], (run_disk (run count_solve save reload empty_file 0%nat (firstn 2 [Q2Qc (1 # 10); Q2Qc (100001 # 1000000)]) [true; true])).
  split; [|split; [apply left_run; [apply left_new|reflexivity]|vm_compute; discriminate]].
  constructor; [|repeat constructor; cbn; tauto]. intros [H|[]]. apply (f_equal this) in H. discriminate.
Qed.
(** all results come from the file: the objects stay as they were *)
Lemma finished_state_refuted : exists all f, NoDup (map make_key all) /\ left_over count_solve save reload eq 0%nat all f /\ run_state (run count_solve save reload f 0%nat all []) <> fst (fst (plain_run count_solve 0%nat all)).
Proof.
  exists [i2 0; i2 1], (run_disk (run count_solve save reload empty_file 0%nat (firstn 2 [i2 0; i2 1]) [true; true])).
  split; [repeat constructor; cbn; intuition congruence|]. split; [apply left_run; [apply left_new|reflexivity]|]. vm_compute. discriminate.
Qed.
