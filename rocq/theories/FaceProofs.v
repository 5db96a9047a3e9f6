(** Proofs about the dofs on a face: what decides a trace, and what the slices of the numbering contain. *)
From Coq Require Import List Arith Reals Lia Lra.
From Coquelicot Require Import Coquelicot.
From Verif Require Import NdArray LocalNumberingModel PolyModel PolySpec PolyProofs PolyCalc TensorModel TensorSpec TensorProofs TensorThms FaceModel FaceSpec.
Import ListNotations.
Local Open Scope R_scope.

(** * slices *)
Local Open Scope nat_scope.
Definition pos (sd : side) (n : nat) : nat := match sd with Low => 0 | High => n - 1 end.
Lemma all_some_in {A} (l : list (option A)) L : all_some l = Some L -> forall r, In r L <-> In (Some r) l.
Proof.
  revert L. induction l as [|[x|] l IH]; cbn; intros L E r; [injection E as <-; tauto| |discriminate]. destruct (all_some l) as [y|]; [|discriminate]. injection E as <-. cbn. rewrite (IH y eq_refl r). split; intros [H|H]; auto; left; congruence.
Qed.
Lemma all_some_total {A} (l : list (option A)) : (forall o, In o l -> o <> None) -> exists L, all_some l = Some L /\ map Some L = l.
Proof.
  induction l as [|[x|] l IH]; cbn; intros H; [now exists []| |exfalso; now apply (H None); auto]. destruct IH as (L & E & F); [auto|]. rewrite E. exists (x :: L). cbn. now rewrite F.
Qed.
Lemma ravelF_insert sh axis i ix : axis < length sh -> i < nth axis sh 0 -> In ix (indices (remove axis sh)) -> exists r, ravelF sh (insert axis i ix) = Some r.
Proof.
  revert axis ix. induction sh as [|n sh IH]; intros [|axis] ix Ha Hi Hix; cbn [length nth remove insert] in *; try lia.
  - apply in_indices_ravel in Hix. destruct Hix as [r E]. cbn [ravelF]. rewrite E. destruct (Nat.ltb_spec i n); [eauto|lia].
  - cbn [indices] in Hix. apply in_flat_map in Hix. destruct Hix as (iy & Hy & Hx). apply in_map_iff in Hx. destruct Hx as (j & <- & Hj). apply in_seq in Hj. cbn [insert ravelF]. destruct (IH axis iy) as [r E]; try lia; auto. rewrite E. destruct (Nat.ltb_spec j n); [eauto|lia].
Qed.
Lemma insert_inj axis i : forall ix iy, length ix = length iy -> insert axis i ix = insert axis i iy -> ix = iy.
Proof.
  induction axis as [|axis IH]; cbn; intros [|x ix] [|y iy] L E; try discriminate; auto; try congruence. injection E as -> E. injection L as L. f_equal. now apply IH.
Qed.
Lemma indices_length sh ix : In ix (indices sh) -> length ix = length sh.
Proof. revert ix. induction sh as [|n sh IH]; cbn; intros ix H; [destruct H as [<-|[]]; auto|]. apply in_flat_map in H. destruct H as (iy & Hy & Hx). apply in_map_iff in Hx. destruct Hx as (j & <- & _). cbn. f_equal. now apply IH. Qed.
Lemma at_side_spec (a : arr) axis sd : axis < length (a_shape a) -> 0 < nth axis (a_shape a) 0 ->
  exists L, at_side (of_arr a) axis sd = Some L /\ NoDup L /\
    (forall r, In r L <-> exists ix, In ix (indices (remove axis (a_shape a))) /\ aget a (insert axis (pos sd (nth axis (a_shape a) 0)) ix) = Some r) /\
    (forall ix, In ix (indices (remove axis (a_shape a))) -> exists r, aget a (insert axis (pos sd (nth axis (a_shape a) 0)) ix) = Some r) /\
    (forall r, In r L -> a_base a <= r < a_base a + asize a).
Proof.
  intros Ha Hn. unfold at_side, of_arr. cbn [fst snd]. set (sh := a_shape a) in *. set (P := pos sd (nth axis sh 0)).
  assert (HP : match sd with Low => 0 | High => nth axis sh 0 - 1 end = P) by reflexivity.
  assert (G : forall ix, In ix (indices (remove axis sh)) -> exists r, aget a (insert axis P ix) = Some r).
  { intros ix Hix. destruct (ravelF_insert sh axis P ix Ha) as [r E]; auto; [unfold P, pos; destruct sd; lia|]. exists (a_base a + r). unfold aget. fold sh. now rewrite E. }
  destruct (nth axis sh 0) as [|n] eqn:En; [lia|]. replace (match sd with Low => 0 | High => n end) with P by (rewrite <- HP; destruct sd; lia).
  destruct (all_some_total (map (fun ix => aget a (insert axis P ix)) (indices (remove axis sh)))) as (L & E & F).
  { intros o Ho. apply in_map_iff in Ho. destruct Ho as (ix & <- & Hix). destruct (G ix Hix) as [r ->]. discriminate. }
  exists L. assert (M : forall r, In r L <-> exists ix, In ix (indices (remove axis sh)) /\ aget a (insert axis P ix) = Some r).
  { intros r. rewrite (all_some_in _ _ E). rewrite in_map_iff. split; intros (ix & A & B); eauto. }
  split; [exact E|]. split; [apply NoDup_map_inv with (f := Some); rewrite F|split; [exact M|split; [exact G|intros r H; apply M in H]]].
  - assert (J : forall l, NoDup l -> (forall ix, In ix l -> In ix (indices (remove axis sh))) -> NoDup (map (fun ix => aget a (insert axis P ix)) l)).
    { induction l as [|ix l IH]; intros ND Hl; cbn; constructor.
      - rewrite in_map_iff. intros (iy & E' & Hy). inversion ND as [|? ? Hnot ND']; subst. assert (Ex : In ix (indices (remove axis sh))) by (apply Hl; now left). assert (Ey : In iy (indices (remove axis sh))) by (apply Hl; now right).
        assert (iy = ix); [|now subst]. apply (insert_inj axis P); [now rewrite (indices_length _ _ Ex), (indices_length _ _ Ey)|]. destruct (G _ Ex) as [r Hr]. rewrite Hr in E'. unfold aget in Hr, E'. fold sh in Hr, E'.
        destruct (ravelF sh (insert axis P ix)) as [q|] eqn:Q; [|discriminate]. destruct (ravelF sh (insert axis P iy)) as [q'|] eqn:Q'; [|discriminate]. assert (q = q') by (injection Hr; injection E'; lia). subst q'. eapply ravelF_inj; eauto.
      - inversion ND; subst. apply IH; auto. intros; apply Hl; now right. }
    apply J; auto. apply indices_NoDup.
  - destruct H as (ix & _ & Hr). unfold aget in Hr. destruct (ravelF (a_shape a) _) eqn:Q; [|discriminate]. apply ravelF_lt in Q. injection Hr as <-. unfold asize. lia.
Qed.
Lemma at_side_none (a : arr) axis sd : nth axis (a_shape a) 0 = 0 -> at_side (of_arr a) axis sd = None.
Proof. intros E. unfold at_side, of_arr. cbn [fst snd]. now rewrite E. Qed.
Local Open Scope R_scope.
(** the coefficients in a slice are zero iff the numbers in it have zero entries *)
Lemma slice_decides x l m a axis sd L : nth_error l m = Some a -> (axis < length (a_shape a))%nat -> (0 < nth axis (a_shape a) 0)%nat -> at_side (of_arr a) axis sd = Some L ->
  ((forall ix, In ix (indices (remove axis (a_shape a))) -> rcoef x (Some l) m (insert axis (pos sd (nth axis (a_shape a) 0%nat)) ix) = 0) <-> forall r, In r L -> x r = 0).
Proof.
  intros Hl Ha Hn E. destruct (at_side_spec a axis sd Ha Hn) as (L' & E' & _ & M & G & _). rewrite E in E'. injection E' as <-. split.
  - intros H r Hr. apply M in Hr. destruct Hr as (ix & Hix & Hr). specialize (H ix Hix). unfold rcoef in H. now rewrite Hl, Hr in H.
  - intros H ix Hix. destruct (G ix Hix) as [r Hr]. unfold rcoef. rewrite Hl, Hr. apply H. apply M. eauto.
Qed.

(** * independence of the bases *)
Definition is_basis (s : list R) (b : basis) : Prop := b = nodal s \/ b = edges s.
Lemma last_nth_s (s : list R) : (1 <= length s)%nat -> last s 0 = node s (degree s).
Proof.
  intros H. unfold degree, node. destruct (exists_last (l := s)) as (l & x & ->); [intros ->; cbn in H; lia|]. rewrite last_last, app_length. cbn. replace (length l + 1 - 1)%nat with (length l) by lia. rewrite app_nth2, Nat.sub_diag by lia. reflexivity.
Qed.
Lemma within_node s i : nodes_ok s -> (i < length s)%nat -> within s (node s i).
Proof.
  intros [Hs Ls] Hi. unfold within. rewrite last_nth_s by lia. unfold node, degree. split.
  - apply increasing_le; auto. lia.
  - apply increasing_le; auto. lia.
Qed.
Lemma within_between s i x : nodes_ok s -> (i < degree s)%nat -> node s i <= x <= node s (S i) -> within s x.
Proof.
  intros H Hi Hx. destruct (within_node s i H) as [A _]; [destruct H; unfold degree in *; lia|]. destruct (within_node s (S i) H) as [_ B]; [destruct H; unfold degree in *; lia|]. unfold within. lra.
Qed.
Lemma comb_zero s b c : nodes_ok s -> is_basis s b -> ((forall x, within s x -> combine_basis (fst b) (snd b) c x = 0) <-> forall i, (i < fst b)%nat -> c i = 0).
Proof.
  intros Hn Hb. destruct Hn as [Hs Ls] eqn:En. clear En. split.
  - intros H i Hi. destruct Hb as [-> | ->]; cbn [fst snd] in *.
    + rewrite <- (nodal_values s c Hs i Hi). apply H. now apply within_node.
    + pose proof (I_1 s Hs ltac:(lia) c i Hi) as A. assert (B : is_RInt (combine_basis (degree s) (edge s) c) (node s i) (node s (S i)) 0).
      { assert (Hlt : node s i <= node s (S i)) by (unfold node, degree in *; apply Rlt_le, Hs; lia).
        apply is_RInt_ext with (f := fun _ => 0).
        - intros x Hx. rewrite Rmin_left, Rmax_right in Hx by assumption. symmetry. apply H. apply (within_between s i); auto. lra.
        - evar_last; [apply (@is_RInt_const R_NormedModule)|]. unfold scal; cbn; unfold mult; cbn. ring. }
      rewrite <- (is_RInt_unique _ _ _ _ A). exact (is_RInt_unique _ _ _ _ B).
  - intros H x _. unfold combine_basis. apply total_0. intros i Hi. rewrite H by assumption. ring.
Qed.
Lemma T2_zero sx bx sy by' c : nodes_ok sx -> nodes_ok sy -> is_basis sx bx -> is_basis sy by' ->
  ((forall x y, within sx x -> within sy y -> T2 (fst bx) (snd bx) (fst by') (snd by') c x y = 0) <-> forall i j, (i < fst bx)%nat -> (j < fst by')%nat -> c i j = 0).
Proof.
  intros Hx Hy Bx By. split.
  - intros H i j Hi Hj. apply (proj1 (comb_zero sy by' (c i) Hy By)); auto. intros y Wy.
    apply (proj1 (comb_zero sx bx (fun i => combine_basis (fst by') (snd by') (c i) y) Hx Bx)); auto. intros x Wx. rewrite <- T2_x. auto.
  - intros H x y _ _. unfold T2. apply total_0. intros i Hi. apply total_0. intros j Hj. rewrite H by assumption. ring.
Qed.
Lemma end_node s sd : nodes_ok s -> end_of s sd = node s (pos sd (length s)) /\ (pos sd (length s) < length s)%nat.
Proof. intros [Hs Ls]. destruct sd; cbn [end_of pos]; [split; [reflexivity|lia]|]. rewrite last_nth_s by lia. split; [reflexivity|lia]. Qed.

(** * traces and coefficients *)
Lemma in_indices_1 n ix : In ix (indices [n]) <-> exists i, ix = [i] /\ (i < n)%nat.
Proof. cbn. rewrite app_nil_r, in_map_iff. split; [intros (i & <- & H); apply in_seq in H; exists i; split; auto; lia|]. intros (i & -> & H). exists i. split; auto. apply in_seq. lia. Qed.
Lemma in_indices_2 n m ix : In ix (indices [n; m]) <-> exists i j, ix = [i; j] /\ (i < n)%nat /\ (j < m)%nat.
Proof.
  change (indices [n; m]) with (flat_map (fun ix => map (fun i => i :: ix) (seq 0 n)) (indices [m])). rewrite in_flat_map. split.
  - intros (iy & Hy & Hx). apply in_indices_1 in Hy. destruct Hy as (j & -> & Hj). apply in_map_iff in Hx. destruct Hx as (i & <- & Hi). apply in_seq in Hi. exists i, j. repeat split; auto; lia.
  - intros (i & j & -> & Hi & Hj). exists [j]. split; [apply in_indices_1; eauto|]. apply in_map_iff. exists i. split; auto. apply in_seq. lia.
Qed.
Section Trace2.
Variables (sx sy : list R) (x : nat -> R) (l : list arr) (m : nat) (a : arr).
Hypothesis Hx : nodes_ok sx.
Hypothesis Hy : nodes_ok sy.
Hypothesis Hl : nth_error l m = Some a.
Lemma trace2_x by' sd L : is_basis sy by' -> a_shape a = [length sx; fst by'] -> at_side (of_arr a) 0 sd = Some L ->
  (zero2 (form2 x (Some l) m (nodal sx) by') sx sy 0 sd <-> forall r, In r L -> x r = 0).
Proof.
  intros B Sh E. rewrite <- (slice_decides x l m a 0 sd L Hl); [|rewrite Sh; cbn; lia|rewrite Sh; cbn; destruct Hx; lia|exact E]. rewrite Sh. cbn [nth remove insert]. destruct (end_node sx sd Hx) as [Ee Hp].
  unfold zero2. rewrite Ee. destruct by' as [n2 b2]. cbn [fst] in *.
  transitivity (forall j, (j < n2)%nat -> rcoef x (Some l) m [pos sd (length sx); j] = 0).
  - rewrite <- (comb_zero sy (n2, b2) (fun j => rcoef x (Some l) m [pos sd (length sx); j]) Hy B). cbn [fst snd]. split; intros H y Wy; specialize (H y Wy); rewrite form2_T2, (N_x sx) in *; auto; try apply Hx.
  - split; [intros H ix Hix; apply in_indices_1 in Hix; destruct Hix as (j & -> & Hj); now apply H|]. intros H j Hj. apply (H [j]). apply in_indices_1. eauto.
Qed.
Lemma trace2_y bx sd L : is_basis sx bx -> a_shape a = [fst bx; length sy] -> at_side (of_arr a) 1 sd = Some L ->
  (zero2 (form2 x (Some l) m bx (nodal sy)) sx sy 1 sd <-> forall r, In r L -> x r = 0).
Proof.
  intros B Sh E. rewrite <- (slice_decides x l m a 1 sd L Hl); [|rewrite Sh; cbn; lia|rewrite Sh; cbn; destruct Hy; lia|exact E]. rewrite Sh. cbn [nth remove]. destruct (end_node sy sd Hy) as [Ee Hp].
  unfold zero2. rewrite Ee. destruct bx as [n1 b1]. cbn [fst] in *.
  transitivity (forall i, (i < n1)%nat -> rcoef x (Some l) m [i; pos sd (length sy)] = 0).
  - rewrite <- (comb_zero sx (n1, b1) (fun i => rcoef x (Some l) m [i; pos sd (length sy)]) Hx B). cbn [fst snd]. split; intros H y Wy; specialize (H y Wy); rewrite form2_T2, (N_y sy) in *; auto; try apply Hy.
  - split; [intros H ix Hix; apply in_indices_1 in Hix; destruct Hix as (j & -> & Hj); now apply H|]. intros H j Hj. apply (H [j]). apply in_indices_1. eauto.
Qed.
End Trace2.
Section Trace3.
Variables (sx sy sz : list R) (x : nat -> R) (l : list arr) (m : nat) (a : arr).
Hypothesis Hx : nodes_ok sx.
Hypothesis Hy : nodes_ok sy.
Hypothesis Hz : nodes_ok sz.
Hypothesis Hl : nth_error l m = Some a.
Lemma trace3_x by' bz sd L : is_basis sy by' -> is_basis sz bz -> a_shape a = [length sx; fst by'; fst bz] -> at_side (of_arr a) 0 sd = Some L ->
  (zero3 (form3 x (Some l) m (nodal sx) by' bz) sx sy sz 0 sd <-> forall r, In r L -> x r = 0).
Proof.
  intros B B' Sh E. rewrite <- (slice_decides x l m a 0 sd L Hl); [|rewrite Sh; cbn; lia|rewrite Sh; cbn; destruct Hx; lia|exact E]. rewrite Sh. cbn [nth remove insert]. destruct (end_node sx sd Hx) as [Ee Hp].
  unfold zero3. rewrite Ee. destruct by' as [n2 b2], bz as [n3 b3]. cbn [fst] in *.
  transitivity (forall j k, (j < n2)%nat -> (k < n3)%nat -> rcoef x (Some l) m [pos sd (length sx); j; k] = 0).
  - rewrite <- (T2_zero sy (n2, b2) sz (n3, b3) (fun j k => rcoef x (Some l) m [pos sd (length sx); j; k]) Hy Hz B B'). cbn [fst snd]. split; intros H y z Wy Wz; specialize (H y z Wy Wz); rewrite form3_T3, (N3_x sx) in *; auto; try apply Hx.
  - split; [intros H ix Hix; apply in_indices_2 in Hix; destruct Hix as (j & k & -> & Hj & Hk); now apply H|]. intros H j k Hj Hk. apply (H [j; k]). apply in_indices_2. exists j, k. auto.
Qed.
Lemma trace3_y bx bz sd L : is_basis sx bx -> is_basis sz bz -> a_shape a = [fst bx; length sy; fst bz] -> at_side (of_arr a) 1 sd = Some L ->
  (zero3 (form3 x (Some l) m bx (nodal sy) bz) sx sy sz 1 sd <-> forall r, In r L -> x r = 0).
Proof.
  intros B B' Sh E. rewrite <- (slice_decides x l m a 1 sd L Hl); [|rewrite Sh; cbn; lia|rewrite Sh; cbn; destruct Hy; lia|exact E]. rewrite Sh. cbn [nth remove]. destruct (end_node sy sd Hy) as [Ee Hp].
  unfold zero3. rewrite Ee. destruct bx as [n1 b1], bz as [n3 b3]. cbn [fst] in *.
  transitivity (forall i k, (i < n1)%nat -> (k < n3)%nat -> rcoef x (Some l) m [i; pos sd (length sy); k] = 0).
  - rewrite <- (T2_zero sx (n1, b1) sz (n3, b3) (fun i k => rcoef x (Some l) m [i; pos sd (length sy); k]) Hx Hz B B'). cbn [fst snd]. split; intros H y z Wy Wz; specialize (H y z Wy Wz); rewrite form3_T3, (N3_y sy) in *; auto; try apply Hy.
  - split; [intros H ix Hix; apply in_indices_2 in Hix; destruct Hix as (j & k & -> & Hj & Hk); now apply H|]. intros H j k Hj Hk. apply (H [j; k]). apply in_indices_2. exists j, k. auto.
Qed.
Lemma trace3_z bx by' sd L : is_basis sx bx -> is_basis sy by' -> a_shape a = [fst bx; fst by'; length sz] -> at_side (of_arr a) 2 sd = Some L ->
  (zero3 (form3 x (Some l) m bx by' (nodal sz)) sx sy sz 2 sd <-> forall r, In r L -> x r = 0).
Proof.
  intros B B' Sh E. rewrite <- (slice_decides x l m a 2 sd L Hl); [|rewrite Sh; cbn; lia|rewrite Sh; cbn; destruct Hz; lia|exact E]. rewrite Sh. cbn [nth remove]. destruct (end_node sz sd Hz) as [Ee Hp].
  unfold zero3. rewrite Ee. destruct bx as [n1 b1], by' as [n2 b2]. cbn [fst] in *.
  transitivity (forall i j, (i < n1)%nat -> (j < n2)%nat -> rcoef x (Some l) m [i; j; pos sd (length sz)] = 0).
  - rewrite <- (T2_zero sx (n1, b1) sy (n2, b2) (fun i j => rcoef x (Some l) m [i; j; pos sd (length sz)]) Hx Hy B B'). cbn [fst snd]. split; intros H y z Wy Wz; specialize (H y z Wy Wz); rewrite form3_T3, (N3_z sz) in *; auto; try apply Hz.
  - split; [intros H ix Hix; apply in_indices_2 in Hix; destruct Hix as (j & k & -> & Hj & Hk); now apply H|]. intros H j k Hj Hk. apply (H [j; k]). apply in_indices_2. exists j, k. auto.
Qed.
End Trace3.
