(** The product with the assembled matrix, the Jacobi preconditioner and the detected essential rows *)
From Coq Require Import List Arith ZArith Lia Bool QArith Qcanon Permutation.
From Verif Require Import Dict GmModel GmSpec GmProofs GmChain QSums LmModel LmSpec LmProofs LmVec LmSystem.
Import ListNotations.
Local Open Scope nat_scope.

(** ** the product is the assembled vector of the element-wise products *)
Lemma column_sum n (l : list nat) (f x : nat -> Qc) : (forall b, b < length l -> nth b l 0 < n) ->
  sumq n (fun c => sumq (length l) (fun b => if nth b l 0%nat =? c then f b else 0) * x c)%Qc = sumq (length l) (fun b => f b * x (nth b l 0%nat))%Qc.
Proof.
  intros H. rewrite (sumq_ext n _ (fun c => sumq (length l) (fun b => if nth b l 0%nat =? c then f b * x c else 0))%Qc).
  2:{ intros c _. rewrite <- sumq_mul_r. apply sumq_ext. intros b _. destruct (_ =? c); ring. }
  rewrite sumq_swap. apply sumq_ext. intros b Hb. rewrite (sumq_single n _ (nth b l 0)); [now rewrite Nat.eqb_refl|auto|].
  intros c _ Hc. destruct (Nat.eqb_spec (nth b l 0) c); congruence.
Qed.
Lemma global_product gr gc M x r : wf_numbering gc -> (forall e, In e (elements gr) -> In e (elements gc)) ->
  sumq (num_dofs gc) (fun c => global_entry gr gc M r c * x c)%Qc =
  global_value gr (fun e a => sumq (length (numbers gc e)) (fun b => M e a b * x (nth b (numbers gc e) 0%nat)))%Qc r.
Proof.
  intros Hw He. unfold global_entry, global_value.
  rewrite (sumq_ext _ _ (fun c => qsum (map (fun e => sumq (length (numbers gr e)) (fun a => sumq (length (numbers gc e)) (fun b =>
     if andb (nth a (numbers gr e) 0%nat =? r) (nth b (numbers gc e) 0%nat =? c) then M e a b else 0%Qc)) * x c) (elements gr)))%Qc)
    by (intros; now rewrite qsum_map_mul_r).
  unfold sumq at 1. rewrite qsum_swap. apply qsum_map_ext. intros e Hin.
  match goal with |- qsum (map ?f (seq 0 ?n)) = _ => change (qsum (map f (seq 0 n))) with (sumq n f) end.
  rewrite (sumq_ext _ _ (fun c => sumq (length (numbers gr e)) (fun a => sumq (length (numbers gc e)) (fun b =>
     if andb (nth a (numbers gr e) 0%nat =? r) (nth b (numbers gc e) 0%nat =? c) then M e a b else 0%Qc) * x c))%Qc) by (intros; now rewrite sumq_mul_r).
  rewrite sumq_swap. apply sumq_ext. intros a _. destruct (nth a (numbers gr e) 0%nat =? r); cbn [andb].
  - apply column_sum. intros b Hb. apply num_dofs_bound, (numbers_used gc e); auto. now apply nth_In.
  - apply sumq_zero. intros c _. rewrite sumq_zero; [ring|auto].
Qed.
Theorem assembled_product gr gc Ms x : fits gr gc Ms -> exists A, assemble_matrix None gr gc Ms = Some A /\
  forall r, sumq (num_dofs gc) (fun c => value_at A r c * x c)%Qc =
    global_value gr (fun e a => sumq (length (numbers gc e)) (fun b => mat_of Ms e a b * x (nth b (numbers gc e) 0%nat)))%Qc r.
Proof.
  intros Hf. destruct (assemble_matrix_ok gr gc Ms Hf) as (A & E & _ & HA & _). exists A. split; auto. intros r.
  destruct Hf as (Hwr & Hwc & _ & Hs & _). rewrite <- global_product; auto.
  - apply sumq_ext. intros c _. now rewrite HA.
  - intros e He. unfold elements in *. apply in_map_iff in He as ([e' row] & <- & Hin). apply in_concat in Hin as (rk & Hrk & Hin).
    apply In_nth_error in Hrk as [k Hk]. destruct (Forall2_nth_l _ _ _ _ _ Hs Hk) as (rk' & Hk' & Hi). cbn [fst].
    assert (In e' (map fst rk')) by (apply Hi, in_map_iff; exists (e', row); auto).
    rewrite concat_map. apply in_concat. exists (map fst rk'). split; auto. apply in_map. eapply nth_error_In; eauto.
Qed.

(** ** the distribution over the ranks does not matter *)
Lemma numbers_perm (g h : numbering) e : wf_numbering g -> wf_numbering h -> Permutation (concat g) (concat h) -> numbers g e = numbers h e.
Proof.
  intros Wg Wh P. destruct (in_dec Nat.eq_dec e (elements g)) as [He|He].
  - unfold elements in He. apply in_map_iff in He as ([e' row] & <- & Hin). cbn [fst]. rewrite (numbers_in g e' row Wg Hin).
    symmetry. apply numbers_in; auto. eapply Permutation_in; eauto.
  - assert (N : forall g' : numbering, ~ In e (elements g') -> numbers g' e = []).
    { intros g' Hn. unfold numbers. destruct (List.find _ _) as [[e' row]|] eqn:F; auto. exfalso. apply List.find_some in F as [F1 F2]. cbn in F2. apply Nat.eqb_eq in F2. subst e'.
      apply Hn. unfold elements. apply in_map_iff. exists (e, row). auto. }
    rewrite !N; auto. intros H. apply He. unfold elements in *. eapply Permutation_in; [apply Permutation_map, Permutation_sym, P|auto].
Qed.
Lemma mat_of_perm (Ms Ns : list lmat) e a b : NoDup (keys (concat Ms)) -> Permutation (concat Ms) (concat Ns) -> mat_of Ms e a b = mat_of Ns e a b.
Proof.
  intros Nd P. unfold mat_of. assert (nget (concat Ms) e = nget (concat Ns) e) as ->; auto.
  assert (Nd' : NoDup (keys (concat Ns))) by (eapply Permutation_NoDup; [apply Permutation_map, P|auto]).
  destruct (nget (concat Ms) e) as [m|] eqn:E.
  - symmetry. apply (get_in Nat.eqb Nat_eqb_spec) in E. apply (in_get Nat.eqb Nat_eqb_spec); auto. eapply Permutation_in; eauto.
  - destruct (nget (concat Ns) e) as [m|] eqn:E'; auto. apply (get_in Nat.eqb Nat_eqb_spec) in E'. apply (Permutation_in _ (Permutation_sym P)) in E'. apply (in_get Nat.eqb Nat_eqb_spec) in E'; auto. congruence.
Qed.

Theorem assembly_distribution gr gc Ms gr' gc' Ms' : fits gr gc Ms -> fits gr' gc' Ms' ->
  Permutation (concat gr) (concat gr') -> Permutation (concat gc) (concat gc') -> Permutation (concat Ms) (concat Ms') ->
  exists A A', assemble_matrix None gr gc Ms = Some A /\ assemble_matrix None gr' gc' Ms' = Some A' /\ forall r c, value_at A r c = value_at A' r c.
Proof.
  intros F F' Pr Pc Pm. destruct (assemble_matrix_ok _ _ _ F) as (A & E & _ & HA & _). destruct (assemble_matrix_ok _ _ _ F') as (A' & E' & _ & HA' & _).
  exists A, A'. split; auto. split; auto. intros r c. rewrite HA, HA'. unfold global_entry.
  destruct F as (Wr & Wc & Hk & _), F' as (Wr' & Wc' & _).
  assert (Nd : NoDup (keys (concat Ms))) by (rewrite keys_concat, Hk, <- elements_keys; now apply elements_nodup).
  rewrite (qsum_perm _ _ (Permutation_map _ (Permutation_map fst Pr : Permutation (elements gr) (elements gr')))).
  apply qsum_map_ext. intros e _. rewrite (numbers_perm gr gr'), (numbers_perm gc gc'); auto.
  apply sumq_ext. intros a _. apply sumq_ext. intros b _. destruct (_ && _)%bool; auto. now apply mat_of_perm.
Qed.

(** ** the Jacobi preconditioner *)
Lemma jacobi_nth n A r : r < n -> nth r (jacobi_diag n A) 0%Qc <> 0%Qc.
Proof.
  intros Hr. unfold jacobi_diag. rewrite (nth_indep _ _ (let d := value_at A n n in if Qclt_le_dec d 1 then (/ 1)%Qc else (/ d)%Qc)) by now rewrite map_length, seq_length.
  rewrite (map_nth (fun i => let d := value_at A i i in if Qclt_le_dec d 1 then (/ 1)%Qc else (/ d)%Qc) (seq 0 n) n), seq_nth by auto. cbn [plus].
  cbv zeta. destruct (Qclt_le_dec _ _) as [H|H]; [discriminate|]. intros E.
  assert (N : value_at A r r <> 0%Qc). { intros E0. rewrite E0 in H. apply Qcle_not_lt in H. apply H. reflexivity. }
  pose proof (Qcmult_inv_r _ N) as E1. rewrite E, Qcmult_0_r in E1. discriminate.
Qed.
Lemma entry_scale D ts r c : entry (map (fun x => (fst (fst x), snd (fst x), (nth (fst (fst x)) D 0 * snd x)%Qc)) ts) r c = (nth r D 0 * entry ts r c)%Qc.
Proof.
  rewrite !entry_sum, map_map, <- qsum_map_mul. apply qsum_map_ext. intros [[a b] v] _. unfold hit. cbn [fst snd].
  destruct (Nat.eqb_spec a r) as [->|]; cbn [andb]; [|ring]. destruct (b =? c); ring.
Qed.
Lemma value_scale D A r c : value_at (scale_rows D A) r c = (nth r D 0 * value_at A r c)%Qc.
Proof. unfold value_at, scale_rows. rewrite map_map, <- qsum_map_mul. apply qsum_map_ext. intros ts _. apply entry_scale. Qed.
Lemma vec_scale D V r : r < length D -> Forall (fun v => length v = length D) V -> vec_at (scale_vec D V) r = (nth r D 0 * vec_at V r)%Qc.
Proof.
  intros Hr HV. unfold vec_at, scale_vec. rewrite map_map, <- qsum_map_mul. apply qsum_map_ext. intros v Hv. rewrite Forall_forall in HV. specialize (HV v Hv).
  change 0%Qc with ((fun dv : Qc * Qc => (fst dv * snd dv)%Qc) (0%Qc, 0%Qc)) at 1. rewrite map_nth, combine_nth by auto. reflexivity.
Qed.
Theorem jacobi_solutions n A V x : Forall (fun v => length v = n) V ->
  forall r, r < n -> row_solved n (value_at (scale_rows (jacobi_diag n A) A)) (vec_at (scale_vec (jacobi_diag n A) V)) x r <-> row_solved n (value_at A) (vec_at V) x r.
Proof.
  intros HV r Hr. pose proof (jacobi_nth n A r Hr) as Hd. assert (L : length (jacobi_diag n A) = n) by (unfold jacobi_diag; now rewrite map_length, seq_length).
  unfold row_solved. rewrite vec_scale by (rewrite L; auto).
  rewrite (sumq_ext n _ (fun c => nth r (jacobi_diag n A) 0 * (value_at A r c * x c))%Qc) by (intros; rewrite value_scale; ring). rewrite sumq_mul.
  split; [|now intros ->]. intros H. apply Qcmult_inv_r in Hd.
  rewrite <- (Qcmult_1_l (sumq n _)), <- (Qcmult_1_l (vec_at V r)), <- Hd, (Qcmult_comm (nth r _ _)), <- !Qcmult_assoc. now rewrite H.
Qed.
(** the diagonal of the scaled matrix is one where the diagonal was at least one *)
Lemma jacobi_unit_diagonal n A r : r < n -> (1 <= value_at A r r)%Qc -> value_at (scale_rows (jacobi_diag n A) A) r r = 1%Qc.
Proof.
  intros Hr H. rewrite value_scale. unfold jacobi_diag.
  rewrite (nth_indep _ _ (let d := value_at A n n in if Qclt_le_dec d 1 then (/ 1)%Qc else (/ d)%Qc)) by now rewrite map_length, seq_length.
  rewrite (map_nth (fun i => let d := value_at A i i in if Qclt_le_dec d 1 then (/ 1)%Qc else (/ d)%Qc) (seq 0 n) n), seq_nth by auto. cbn [plus]. cbv zeta.
  destruct (Qclt_le_dec _ _) as [H'|H']; [apply Qcle_not_lt in H; tauto|]. apply Qcmult_inv_l. intros E0. rewrite E0 in H. apply Qcle_not_lt in H. apply H. reflexivity.
Qed.

(** ** detected essential rows *)
(** nothing stored in row r *)
Definition row_empty (ts : list triple) (r : nat) : Prop := forall c v, ~ In (r, c, v) ts.
Lemma row_empty_entry ts r c : row_empty ts r -> entry ts r c = 0%Qc.
Proof.
  intros H. rewrite entry_sum. apply qsum_map_zero. intros [[a b] v] Hin. unfold hit. cbn [fst snd]. destruct (Nat.eqb_spec a r) as [->|]; auto. exfalso. eapply H; eauto.
Qed.
Lemma stored_spec ts r c : In c (stored_cols ts r) <-> exists v, In (r, c, v) ts.
Proof.
  unfold stored_cols. rewrite nodup_In, in_map_iff. split.
  - intros ([[a b] v] & <- & H). apply filter_In in H as [H E]. cbn in *. apply Nat.eqb_eq in E as ->. eauto.
  - intros [v H]. exists (r, c, v). split; auto. apply filter_In. split; auto. cbn. apply Nat.eqb_refl.
Qed.
Lemma looks_essential_entry ts r c : looks_essential ts r = true -> entry ts r c = if c =? r then 1%Qc else 0%Qc.
Proof.
  unfold looks_essential. intros H. destruct (stored_cols ts r) as [|c0 [|]] eqn:E; try discriminate. apply andb_prop in H as [H1 H2]. apply Nat.eqb_eq in H1 as ->.
  destruct (Qc_eq_dec _ _) as [Ev|]; [|discriminate]. destruct (Nat.eqb_spec c r) as [->|Hn]; auto.
  rewrite entry_sum. apply qsum_map_zero. intros [[a b] v] Hin. unfold hit. cbn [fst snd]. destruct (Nat.eqb_spec a r) as [->|]; auto. cbn [andb].
  destruct (Nat.eqb_spec b c) as [->|]; auto. exfalso. assert (In c (stored_cols ts r)) as H by (apply stored_spec; eauto). rewrite E in H. destruct H as [|[]]. congruence.
Qed.
Lemma one_of_filter {A} (p : A -> bool) l : length (filter p l) = 1 -> exists i a, nth_error l i = Some a /\ p a = true /\ forall j b, nth_error l j = Some b -> p b = true -> j = i.
Proof.
  induction l as [|a l IH]; cbn [filter]; [discriminate|]. destruct (p a) eqn:E.
  - intros H. cbn [length] in H. exists 0, a. split; auto. split; auto. intros [|j] b Hb Hp; auto. exfalso. cbn in Hb.
    assert (In b (filter p l)) by (apply filter_In; split; auto; eapply nth_error_In; eauto). destruct (filter p l); [contradiction|discriminate].
  - intros H. destruct (IH H) as (i & x & Hx & Hp & Hu). exists (S i), x. split; auto. split; auto. intros [|j] b Hb Hpb; [cbn in Hb; congruence|]. f_equal. eapply Hu; eauto.
Qed.
Lemma filter_one {A} (p : A -> bool) l i a : nth_error l i = Some a -> p a = true -> (forall j b, nth_error l j = Some b -> j <> i -> p b = false) -> length (filter p l) = 1.
Proof.
  revert i. induction l as [|x l IH]; intros [|i] Hi Hp Hu; try discriminate; cbn [filter].
  - cbn in Hi. injection Hi as ->. rewrite Hp. cbn [length]. f_equal. assert (N : forall b, In b l -> p b = false).
    { intros b Hb. apply In_nth_error in Hb as [j Hj]. apply (Hu (S j)); auto. }
    clear -N. induction l as [|b l IH]; auto. cbn [filter]. rewrite (N b) by (left; auto). apply IH. intros; apply N; now right.
  - rewrite (Hu 0 x) by auto. apply (IH i); auto. intros j b Hb Hj. apply (Hu (S j)); auto.
Qed.
(** reported rows are unit rows in one rank *)
Lemma essential_one n A r : In r (essential_rows n A) -> r < n /\ exists k ts, nth_error A k = Some ts /\ (forall c, entry ts r c = if c =? r then 1%Qc else 0%Qc) /\
  forall k' ts', nth_error A k' = Some ts' -> k' <> k -> looks_essential ts' r = false.
Proof.
  unfold essential_rows. rewrite filter_In, in_seq, Nat.eqb_eq. intros [Hr H]. split; [lia|]. destruct (one_of_filter _ _ H) as (k & ts & Hk & Hp & Hu).
  exists k, ts. split; auto. split; [intros c; now apply looks_essential_entry|]. intros k' ts' Hk' Hn. destruct (looks_essential ts' r) eqn:E; auto. exfalso. eauto.
Qed.
Lemma value_split A k ts r c : nth_error A k = Some ts -> (forall k' ts', nth_error A k' = Some ts' -> k' <> k -> entry ts' r c = 0%Qc) -> value_at A r c = entry ts r c.
Proof.
  revert k. unfold value_at. induction A as [|x A IH]; intros [|k] Hk Ho; try discriminate; cbn [map]; cbn [qsum fold_right]; fold (qsum (map (fun ts => entry ts r c) A)).
  - cbn in Hk. injection Hk as ->. rewrite qsum_map_zero; [ring|]. intros y Hy. apply In_nth_error in Hy as [j Hj]. apply (Ho (S j)); auto.
  - rewrite (Ho 0 x), (IH k); auto; [ring|]. intros k' ts' H1 H2. apply (Ho (S k')); auto.
Qed.
(** if only one rank stores entries of the row, a reported row is a unit row, and unit rows stored as such are reported *)
Theorem essential_rows_exclusive n A r k : (forall k' ts', nth_error A k' = Some ts' -> k' <> k -> row_empty ts' r) ->
  In r (essential_rows n A) -> forall c, value_at A r c = if c =? r then 1%Qc else 0%Qc.
Proof.
  intros He H c. destruct (essential_one n A r H) as (_ & k0 & ts & Hk & Hv & _). rewrite (value_split A k0 ts r c Hk); auto.
  intros k' ts' Hk' Hn. destruct (Nat.eq_dec k' k) as [->|Hkk]; [|apply row_empty_entry; eauto].
  exfalso. assert (R : row_empty ts r) by (apply (He k0); auto). pose proof (Hv r) as E. rewrite Nat.eqb_refl, row_empty_entry in E by auto. discriminate.
Qed.
Theorem essential_rows_complete n A r k ts : r < n -> nth_error A k = Some ts -> (exists v, In (r, r, v) ts) -> (forall c v, In (r, c, v) ts -> c = r) -> entry ts r r = 1%Qc ->
  (forall k' ts', nth_error A k' = Some ts' -> k' <> k -> row_empty ts' r) -> In r (essential_rows n A).
Proof.
  intros Hr Hk Hex Hd Hv He. unfold essential_rows. apply filter_In. split; [apply in_seq; lia|]. apply Nat.eqb_eq. apply (filter_one _ _ k ts); auto.
  - unfold looks_essential. assert (stored_cols ts r = [r]) as ->.
    { assert (N : NoDup (stored_cols ts r)) by apply NoDup_nodup. assert (I : forall c, In c (stored_cols ts r) <-> c = r).
      { intros c. rewrite stored_spec. split; [intros [v H]; eauto|now intros ->]. }
      destruct (stored_cols ts r) as [|a [|b l]]; [destruct (proj2 (I r) eq_refl)|f_equal; apply I; now left|].
      exfalso. assert (a = r) by (apply I; now left). assert (b = r) by (apply I; right; now left). subst. inversion N; subst. apply H1. now left. }
    rewrite Nat.eqb_refl, Hv. reflexivity.
  - intros k' ts' Hk' Hn. unfold looks_essential. destruct (stored_cols ts' r) as [|c l] eqn:E; auto. exfalso.
    assert (In c (stored_cols ts' r)) as H by (rewrite E; now left). apply stored_spec in H as [v H]. eapply (He k'); eauto.
Qed.
(** one rank *)
Theorem essential_rows_serial n ts r : In r (essential_rows n [ts]) -> forall c, value_at [ts] r c = if c =? r then 1%Qc else 0%Qc.
Proof. apply (essential_rows_exclusive n [ts] r 0). intros [|[|k']] ts' H; cbn in H; try discriminate. intros N. now destruct N. Qed.
(** two ranks share dof 0: the row of one of them is a unit row, the row of both together is not *)
Lemma essential_rows_two_ranks : exists A, In 0 (essential_rows 2 A) /\ value_at A 0 0 = qz 3 /\ value_at A 0 1 = qz 5.
Proof. exists [[(0, 0, 1%Qc)]; [(0, 0, qz 2); (0, 1, qz 5); (1, 1, qz 1)]]. vm_compute. repeat split; auto. Qed.
