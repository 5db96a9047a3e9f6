(** Customised matrices, vectors and systems after assembly *)
From Coq Require Import List Arith ZArith Lia Bool QArith Qcanon.
From Verif Require Import Dict GmModel GmSpec GmProofs GmData GmFind QSums LmModel LmSpec LmProofs LmVec LmCustom.
Import ListNotations.
Local Open Scope nat_scope.

Lemma norm_dof_iff n i d : norm_dof n i = Some d <-> index_of_dof n i d.
Proof.
  unfold norm_dof, index_of_dof. destruct (Z.ltb_spec i 0); destruct (_ && _)%bool eqn:E.
  - apply andb_prop in E as [E1 E2]. apply Z.leb_le in E1. apply Z.ltb_lt in E2. split; [intros [= <-]; lia|]. intros [H1 [H2|H2]]; [lia|]. f_equal. lia.
  - apply andb_false_iff in E. split; [discriminate|]. intros [H1 [H2|H2]]; [lia|]. destruct E as [E|E]; [apply Z.leb_gt in E|apply Z.ltb_ge in E]; lia.
  - apply andb_prop in E as [E1 E2]. apply Z.leb_le in E1. apply Z.ltb_lt in E2. split; [intros [= <-]; lia|]. intros [H1 [H2|H2]]; [|lia]. f_equal. lia.
  - apply andb_false_iff in E. split; [discriminate|]. intros [H1 [H2|H2]]; [|lia]. destruct E as [E|E]; [apply Z.leb_gt in E|apply Z.ltb_ge in E]; lia.
Qed.
Lemma index_test n i d d' : index_of_dof n i d -> ((i =? Z.of_nat d') || (i =? Z.of_nat d' - Z.of_nat n))%Z%bool = true -> d' < n -> d' = d.
Proof. intros [H1 H2] H3 H4. apply orb_true_iff in H3 as [H3|H3]; apply Z.eqb_eq in H3; lia. Qed.
Lemma index_self n i d : index_of_dof n i d -> ((i =? Z.of_nat d) || (i =? Z.of_nat d - Z.of_nat n))%Z%bool = true.
Proof. intros [H1 [->| ->]]; rewrite Z.eqb_refl; auto using orb_true_r. Qed.
Lemma index_eqb n i d d' : index_of_dof n i d -> d' < n -> ((i =? Z.of_nat d') || (i =? Z.of_nat d' - Z.of_nat n))%Z%bool = (d' =? d).
Proof.
  intros H Hd. destruct (Nat.eqb_spec d' d) as [->|Hn]; [eapply index_self; eauto|].
  apply not_true_is_false. intros H'. apply Hn. eapply index_test; eauto.
Qed.
Lemma zero_row_ok gr gc Ms i d : fits gr gc Ms -> index_of_dof (num_dofs gr) i d ->
  exists Ms', zero_row gr Ms i = Some Ms' /\ fits gr gc Ms' /\
    forall r c, global_entry gr gc (mat_of Ms') r c = if r =? d then 0%Qc else global_entry gr gc (mat_of Ms) r c.
Proof.
  intros Hf Hi. pose proof Hf as (Hwr & _). apply norm_dof_iff in Hi.
  destruct (run_ranks (fun k => zeros (locate (nth k gr []) d)) (fun _ _ => false) gr gc Ms d Hf) as (Ms' & E & Hf' & Hm).
  - intros k. apply zeros_fst.
  - intros k e l o H. unfold zeros in H. apply in_map_iff in H as (p & Hp & _). now injection Hp as _ <-.
  - discriminate.
  - exists Ms'. split; [|split; auto].
    + unfold zero_row. rewrite Hi, <- E. apply obind_ext. intros [k M] _. apply zero_places_ops.
    + intros r c. destruct (changed_entry gr gc (mat_of Ms) (mat_of Ms') d (fun _ _ => false) Hwr Hm) as (H1 & H2 & _). destruct (Nat.eqb_spec r d) as [->|Hr]; auto.
Qed.
Lemma identify_square g Ms i d : fits g g Ms -> index_of_dof (num_dofs g) i d -> used g d ->
  exists Ms', identify_row g Ms i = Some Ms' /\ fits g g Ms' /\
    forall r c, global_entry g g (mat_of Ms') r c = if r =? d then (if c =? d then 1%Qc else 0%Qc) else global_entry g g (mat_of Ms) r c.
Proof.
  intros Hf Hi Hu. apply norm_dof_iff in Hi. destruct (identify_row_ok g g Ms i d Hf Hu Hi) as (Ms' & e0 & l0 & E & Hf' & _ & Hn & HV); auto.
  exists Ms'. split; auto. split; auto. intros r c. rewrite HV. apply (nth_error_nth _ _ 0) in Hn. rewrite Hn, (Nat.eqb_sym d c). reflexivity.
Qed.
Lemma set_value_ok g bs i d v : vfits g bs -> index_of_dof (num_dofs g) i d -> used g d ->
  exists bs', set_value g bs i v = Some bs' /\ vfits g bs' /\ forall r, global_value g (vec_of bs') r = if r =? d then v else global_value g (vec_of bs) r.
Proof.
  intros Hf Hi Hu. apply norm_dof_iff in Hi. pose proof Hf as (Hw & _). destruct (flags_of_rows g d Hw Hu) as (fl & k0 & e0 & l0 & Hfl & _ & Hid & Hk0 & Hpl & Ht).
  pose proof (place_element _ _ _ _ _ Hk0 Hpl) as He0. pose proof Hpl as Hnn. apply (in_rank_place g k0 e0 l0 d Hw (key_place _ _ _ _ _ Hpl)) in Hnn.
  destruct (run_vranks fl (fun e l => (e =? e0) && (l =? l0)) g bs d v) as (bs' & E & Hf' & Hm); auto.
  { eapply flags_one; eauto. }
  exists bs'. split; [|split; [auto|]].
  - unfold set_value. rewrite Hi, <- E. apply obind_ext. intros [k M] _. apply Hid.
  - eapply changed_value; eauto.
Qed.
(** ** C21: histories of customisations *)
Lemma global_entry_unused gr gc M r c : ~ used gr r -> wf_numbering gr -> global_entry gr gc M r c = 0%Qc.
Proof.
  intros Hu Hw. unfold global_entry. apply qsum_map_zero. intros e He. apply sumq_zero. intros a Ha. apply sumq_zero. intros b Hb.
  destruct (Nat.eqb_spec (nth a (numbers gr e) 0) r) as [E|]; auto. exfalso. apply Hu. eapply numbers_used; eauto. rewrite <- E. now apply nth_In.
Qed.
Lemma customise_ok g ops : forall Ms, fits g g Ms ->
  Forall (fun op => exists d, index_of_dof (num_dofs g) (snd op) d /\ (fst op = true -> used g d)) ops ->
  exists Ms', customise g Ms ops = Some Ms' /\ fits g g Ms' /\
    forall r c, r < num_dofs g -> global_entry g g (mat_of Ms') r c =
      match last_op (num_dofs g) ops r with
      | Some true => if c =? r then 1%Qc else 0%Qc
      | Some false => 0%Qc
      | None => global_entry g g (mat_of Ms) r c
      end.
Proof.
  induction ops as [|[o i] ops IH]; intros Ms Hf Ho; cbn [customise last_op].
  - exists Ms. auto.
  - inversion_clear Ho as [|? ? (d & Hd & Hu) Hops]. cbn in Hd, Hu.
    assert (S : exists Ms1, (if o then identify_row g Ms i else zero_row g Ms i) = Some Ms1 /\ fits g g Ms1 /\
      forall r c, global_entry g g (mat_of Ms1) r c = if r =? d then (if o && (c =? d) then 1%Qc else 0%Qc) else global_entry g g (mat_of Ms) r c).
    { destruct o; [destruct (identify_square g Ms i d) as (M1 & ? & ? & H); auto|destruct (zero_row_ok g g Ms i d) as (M1 & ? & ? & H); auto]; exists M1; auto. }
    destruct S as (M1 & -> & F1 & V1). destruct (IH M1 F1 Hops) as (M2 & -> & F2 & V2). exists M2. split; auto. split; auto.
    intros r c Hr. rewrite V2 by auto. destruct (last_op _ ops r) as [o'|]; auto. rewrite V1, (index_eqb _ _ _ _ Hd Hr).
    destruct (Nat.eqb_spec r d) as [->|]; auto. destruct o; cbn [andb]; auto.
Qed.
Theorem customised_matrix g Ms ops : fits g g Ms ->
  Forall (fun op => exists d, index_of_dof (num_dofs g) (snd op) d /\ (fst op = true -> used g d)) ops ->
  exists A Ms' A', assemble_matrix None g g Ms = Some A /\ customise g Ms ops = Some Ms' /\ assemble_matrix None g g Ms' = Some A' /\
    forall r c, r < num_dofs g -> value_at A' r c =
      match last_op (num_dofs g) ops r with
      | Some true => if c =? r then 1%Qc else 0%Qc
      | Some false => 0%Qc
      | None => value_at A r c
      end.
Proof.
  intros Hf Ho. destruct (customise_ok g ops Ms Hf Ho) as (Ms' & E & Hf' & HV).
  destruct (assemble_matrix_ok g g Ms Hf) as (A & EA & _ & HA & _). destruct (assemble_matrix_ok g g Ms' Hf') as (A' & EA' & _ & HA' & _).
  exists A, Ms', A'. repeat split; auto. intros r c Hr. rewrite HA', HV, HA by auto. reflexivity.
Qed.
(** with different row and column numberings the one may land in another column *)
Lemma identify_rectangular_refuted : exists gr gc Ms Ms' A', fits gr gc Ms /\ num_dofs gr = num_dofs gc /\ identify_row gr Ms 0%Z = Some Ms' /\
  assemble_matrix None gr gc Ms' = Some A' /\ value_at A' 0 0 = 0%Qc /\ value_at A' 0 1 = 1%Qc.
Proof.
  exists [[(0, [0; 1])]], [[(0, [1; 0])]], [[(0, {| sm_fmt := CSR; sm_nr := 2; sm_nc := 2; sm_lines := [[(0, qz 2)]; [(1, qz 3)]] |})]].
  eexists. eexists. split; [|split; [reflexivity|split; [reflexivity|split; [reflexivity|split; reflexivity]]]].
  assert (W : forall row : list nat, wf_numbering [[(0, row)]]) by (intros; unfold wf_numbering; cbn; constructor; [intros []|constructor]).
  split; [auto|split; [auto|split; [auto|split; [|]]]].
  - constructor; [|constructor]. intros e. reflexivity.
  - intros e m [[= <- <-]|[]]. cbn. repeat split; auto. repeat constructor.
Qed.

(** ** C22: prescribed dofs *)
Fixpoint assignments (ds : list Z) (vs : list Qc) : list (Qc * Z) :=
  match ds, vs with i :: r, v :: s => (v, i) :: assignments r s | _, _ => [] end.
Lemma set_dofs_ok g ds : forall vs Ms bs, fits g g Ms -> vfits g bs -> length vs = length ds ->
  Forall (fun i => exists d, index_of_dof (num_dofs g) i d /\ used g d) ds ->
  exists Ms' bs', set_dofs g Ms bs ds vs = Some (Ms', bs') /\ fits g g Ms' /\ vfits g bs' /\
    (forall r c, r < num_dofs g -> global_entry g g (mat_of Ms') r c =
      match last_op (num_dofs g) (assignments ds vs) r with Some _ => if c =? r then 1%Qc else 0%Qc | None => global_entry g g (mat_of Ms) r c end) /\
    (forall r, r < num_dofs g -> global_value g (vec_of bs') r =
      match last_op (num_dofs g) (assignments ds vs) r with Some v => v | None => global_value g (vec_of bs) r end).
Proof.
  induction ds as [|i ds IH]; intros [|v vs] Ms bs Hf Hv Hl Ho; try discriminate; cbn [set_dofs assignments last_op].
  - exists Ms, bs. split; auto.
  - inversion_clear Ho as [|? ? (d & Hd & Hu) Hops].
    destruct (identify_square g Ms i d Hf Hd Hu) as (M1 & -> & F1 & V1). destruct (set_value_ok g bs i d v Hv Hd Hu) as (b1 & -> & F1' & V1').
    destruct (IH vs M1 b1 F1 F1') as (M2 & b2 & -> & F2 & F2' & V2 & V2'); auto. exists M2, b2. split; auto. split; auto. split; auto. split.
    + intros r c Hr. rewrite V2 by auto. destruct (last_op _ (assignments ds vs) r); auto. rewrite V1, (index_eqb _ _ _ _ Hd Hr).
      destruct (Nat.eqb_spec r d) as [->|]; auto.
    + intros r Hr. rewrite V2' by auto. destruct (last_op _ (assignments ds vs) r); auto. rewrite V1', (index_eqb _ _ _ _ Hd Hr).
      destruct (Nat.eqb_spec r d); auto.
Qed.
Lemma row_solved_ext n A A' b b' x r : (forall c, A r c = A' r c) -> b r = b' r -> (row_solved n A b x r <-> row_solved n A' b' x r).
Proof. intros H1 H2. unfold row_solved. rewrite H2. now rewrite (sumq_ext n _ (fun c => A' r c * x c)%Qc) by (intros; now rewrite H1). Qed.
Lemma row_solved_unit n A b x r : r < n -> (forall c, A r c = if c =? r then 1%Qc else 0%Qc) -> (row_solved n A b x r <-> x r = b r).
Proof.
  intros Hr H. unfold row_solved. rewrite (sumq_single n _ r); auto.
  - rewrite H, Nat.eqb_refl. now rewrite Qcmult_1_l.
  - intros j _ Hj. rewrite H. destruct (Nat.eqb_spec j r); [congruence|]. apply Qcmult_0_l.
Qed.
Theorem prescribed_system g Ms bs ds vs : fits g g Ms -> vfits g bs -> rows_nodup g -> length vs = length ds ->
  Forall (fun i => exists d, index_of_dof (num_dofs g) i d /\ used g d) ds ->
  exists A b Ms' bs' A' b', assemble_matrix None g g Ms = Some A /\ assemble_vector g bs = Some b /\
    set_dofs g Ms bs ds vs = Some (Ms', bs') /\ assemble_matrix None g g Ms' = Some A' /\ assemble_vector g bs' = Some b' /\
    forall x : nat -> Qc, (forall r, r < num_dofs g -> row_solved (num_dofs g) (value_at A') (vec_at b') x r) <->
      (forall r, r < num_dofs g -> match last_op (num_dofs g) (assignments ds vs) r with
                                   | Some v => x r = v
                                   | None => row_solved (num_dofs g) (value_at A) (vec_at b) x r
                                   end).
Proof.
  intros Hf Hv Hn Hl Ho. destruct (set_dofs_ok g ds vs Ms bs Hf Hv Hl Ho) as (Ms' & bs' & E & Hf' & Hv' & HV & HW).
  destruct (assemble_matrix_ok g g Ms Hf) as (A & EA & _ & HA & _). destruct (assemble_matrix_ok g g Ms' Hf') as (A' & EA' & _ & HA' & _).
  destruct (assemble_vector_ok g bs Hv Hn) as (b & Eb & _ & _ & Hb). destruct (assemble_vector_ok g bs' Hv' Hn) as (b' & Eb' & _ & _ & Hb').
  exists A, b, Ms', bs', A', b'. split; auto. split; auto. split; auto. split; auto. split; auto.
  intros x. assert (R : forall r, r < num_dofs g -> (row_solved (num_dofs g) (value_at A') (vec_at b') x r <->
    match last_op (num_dofs g) (assignments ds vs) r with Some v => x r = v | None => row_solved (num_dofs g) (value_at A) (vec_at b) x r end)).
  { intros r Hr. specialize (HW r Hr). rewrite <- Hb' in HW. destruct (last_op _ _ r) as [v|] eqn:EL.
    - rewrite row_solved_unit; auto; [now rewrite HW|]. intros c. rewrite HA', HV, EL by auto. reflexivity.
    - apply row_solved_ext; [|now rewrite HW, Hb]. intros c. rewrite HA', HV, EL, HA by auto. reflexivity. }
  split; intros H r Hr; [apply (proj1 (R r Hr)), (H r Hr)|apply (proj2 (R r Hr)), (H r Hr)].
Qed.
