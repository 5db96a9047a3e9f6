(** Concatenated vectors; essential boundary conditions of one unknown of a block system *)
From Coq Require Import List Arith ZArith Lia Bool QArith Qcanon Permutation.
From Verif Require Import Dict GmModel GmSpec GmProofs GmChain GmData GmFind QSums LmModel LmSpec LmProofs LmVec LmCustom LmSystem LmBlocks LmBmat.
Import ListNotations.
Local Open Scope nat_scope.

Definition vblocks_ok (gms : list dgm) (bs : list (option (list lvec))) : Prop :=
  Forall2 (fun b g => match b with Some v => vfits g v | None => True end) bs gms.
Lemma denotes_onto gms c k : Forall wf_numbering gms -> chain gms = Some c -> used c k -> exists i d, denotes gms c i d k.
Proof.
  intros Hw Hc (e & row & Hrow & Hin). destruct (chain_facts gms c Hw Hc) as ((phi & G) & Wc & _ & _).
  destruct (row_elements c e row Wc Hrow) as [He <-]. destruct (glued_numbers gms c phi e Hw Wc G He) as [HL _].
  destruct (proj1 G e (numbers c e) Hrow) as (rows & HF & _).
  assert (ER : rows = map (fun g => numbers g e) gms).
  { clear -Hw HF. induction HF; auto. inversion Hw; subst. cbn. f_equal; auto. symmetry. now apply row_elements. }
  apply In_nth_error in Hin as [p Hp]. assert (Hpl : p < length (numbers c e)) by (apply nth_error_Some; congruence). rewrite HL in Hpl.
  apply split_pos in Hpl as (i & a & Hi & Ha & ->). rewrite widths_length in Hi. rewrite nth_widths in Ha by auto.
  exists i, (nth a (numbers (nth i gms []) e) 0). exists e, rows, (numbers (nth i gms []) e), a, (numbers c e). split; auto. split; [|split; [|split]]; auto.
  - rewrite ER, nth_error_map, (nth_nth_error _ _ [] Hi). reflexivity.
  - now apply nth_nth_error.
  - rewrite <- Hp. f_equal. f_equal. rewrite length_concat_sum, ER. unfold off, widths. f_equal. now rewrite firstn_map, map_map, <- firstn_map.
Qed.
Lemma denotes_used gms c i d k : denotes gms c i d k -> used c k.
Proof. intros (e & rows & r & l & row & _ & _ & _ & H1 & H2). exists e, row. split; auto. eapply nth_error_In; eauto. Qed.
Lemma denotes_inj gms c i d j d' k : Forall wf_numbering gms -> chain gms = Some c -> denotes gms c i d k -> denotes gms c j d' k -> i = j /\ d = d'.
Proof.
  intros Hw Hc H1 H2. destruct (chain_facts gms c Hw Hc) as ((phi & G) & Wc & _ & _).
  apply (denotes_phi gms c phi) in H1 as (Hi & U1 & ->); auto. apply (denotes_phi gms c phi) in H2 as (Hj & U2 & E); auto.
  apply (proj2 G i j (nth i gms []) (nth j gms [])); auto; now apply nth_nth_error.
Qed.
Lemma denotes_same gms c i d k k' : Forall wf_numbering gms -> chain gms = Some c -> denotes gms c i d k -> denotes gms c i d k' -> k = k'.
Proof.
  intros Hw Hc H1 H2. destruct (chain_facts gms c Hw Hc) as ((phi & G) & Wc & _ & _).
  apply (denotes_phi gms c phi) in H1 as (Hi & U1 & ->); auto. apply (denotes_phi gms c phi) in H2 as (Hj & U2 & E); auto.
Qed.
Lemma chain_rows_nodup gms c : Forall wf_numbering gms -> chain gms = Some c -> Forall rows_nodup gms -> rows_nodup c.
Proof.
  intros Hw Hc Hn e row Hrow. destruct (chain_facts gms c Hw Hc) as ((phi & G) & Wc & _ & Ag). destruct (row_elements c e row Wc Hrow) as [He <-].
  destruct (glued_numbers gms c phi e Hw Wc G He) as [HL HN]. apply NoDup_nth with (d := 0). intros p q Hp Hq E.
  rewrite HL in Hp, Hq. apply split_pos in Hp as (i & a & Hi & Ha & ->). apply split_pos in Hq as (j & b & Hj & Hb & ->).
  rewrite widths_length in *. rewrite nth_widths in Ha, Hb by auto. rewrite !HN in E by auto.
  assert (U : forall I a, I < length gms -> a < length (numbers (nth I gms []) e) -> used (nth I gms []) (nth a (numbers (nth I gms []) e) 0) /\ NoDup (numbers (nth I gms []) e)).
  { intros I x HI Hx. assert (Hin : In (nth I gms []) gms) by now apply nth_In. rewrite Forall_forall in Hw, Hn.
    assert (HeI : In e (elements (nth I gms []))) by (apply (agree_elements _ c); auto). split.
    - apply (numbers_used _ e); auto. now apply nth_In.
    - apply (Hn _ Hin e). apply elements_row; auto. }
  apply (proj2 G i j (nth i gms []) (nth j gms [])) in E as [-> E]; try (apply nth_nth_error; auto); try (apply U; auto).
  f_equal. destruct (U j a Hj Ha) as [_ ND]. apply (proj1 (NoDup_nth _ 0) ND); auto.
Qed.

Section Concat.
  Context (gms : list dgm) (c : dgm) (bs : list (option (list lvec))).
  Context (Hw : Forall wf_numbering gms) (Hc : chain gms = Some c) (HB : vblocks_ok gms bs).

  Definition part (e : nat) (i : nat) : list Qc :=
    match nth i bs None with
    | Some b => match nget (concat b) e with Some d => d | None => [] end
    | None => repeat 0%Qc (length (numbers (nth i gms []) e))
    end.
  Lemma concat_local : exists Vb, concatenate c gms bs = Some Vb /\ vfits c Vb /\
    forall e i a, In e (elements c) -> i < length gms -> a < length (numbers (nth i gms []) e) ->
      vec_of Vb e (off (widths gms e) i + a) = match nth i bs None with Some b => vec_of b e a | None => 0%Qc end.
  Proof.
    destruct (chain_facts gms c Hw Hc) as ((phi & G) & Wc & Ne & Ag).
    assert (LB : length bs = length gms) by (eapply Forall2_len; eauto).
    assert (Pl : forall e i, In e (elements c) -> i < length gms -> length (part e i) = length (numbers (nth i gms []) e)).
    { intros e i He Hi. unfold part. pose proof (Forall2_nth_lt _ _ _ None [] i HB Hi) as Hf. destruct (nth i bs None) as [b|]; [|apply repeat_length].
      destruct Hf as (W & HK & HS). assert (He' : In e (elements (nth i gms []))) by (apply (agree_elements _ c); auto; apply Ag; now apply nth_In).
      rewrite elements_keys, <- HK, <- keys_concat in He'. apply (get_keys Nat.eqb Nat_eqb_spec) in He' as [d Hd]. rewrite Hd. apply HS. now apply (get_in Nat.eqb Nat_eqb_spec). }
    set (V := fun e => concat (map (part e) (seq 0 (length gms)))).
    assert (LV : forall e, In e (elements c) -> map (@length Qc) (map (part e) (seq 0 (length gms))) = widths gms e).
    { intros e He. apply nth_error_list_ext. intros i. rewrite map_map, nth_error_map. unfold widths. rewrite nth_error_map.
      destruct (Nat.lt_ge_cases i (length gms)) as [Hi|Hi].
      - rewrite (nth_nth_error _ _ 0) by (now rewrite seq_length). rewrite seq_nth by auto. rewrite (nth_nth_error _ _ [] Hi). cbn. f_equal. apply Pl; auto.
      - rewrite (proj2 (nth_error_None _ _)) by (now rewrite seq_length). rewrite (proj2 (nth_error_None _ _)) by auto. reflexivity. }
    destruct (obind_indexed c (fun k g => match by_rank k gms, obind bs (at_rank k) with Some gs, Some bk => concat_rank (keys g) gs bk | _, _ => None end)
      (fun k g b => b = map (fun e => (e, V e)) (keys g))) as (Vb & EV & LVb & HV).
    { intros k g Hg. assert (Hk : k < length c) by (apply nth_error_Some; congruence). assert (Eg : nth k c [] = g) by (now apply nth_error_nth).
      assert (Lg : forall i, i < length gms -> length (nth i gms []) = length c) by (intros i Hi; eapply Forall2_len; apply Ag; now apply nth_In).
      assert (E1 : by_rank k gms = Some (map (fun g => nth k g []) gms)).
      { unfold by_rank. apply obind_map_some. intros h Hh. apply nth_nth_error. apply In_nth with (d := []) in Hh as (i & Hi & <-). rewrite Lg; auto. }
      assert (Lb : forall b, In (Some b) bs -> length b = length c).
      { intros b Hb. apply In_nth with (d := None) in Hb as (i & Hi & Eb). rewrite LB in Hi. pose proof (Forall2_nth_lt _ _ _ None [] i HB Hi) as Hf. cbn in Hf. rewrite Eb in Hf.
        destruct Hf as (_ & HK & _). rewrite <- (Lg i Hi), <- (map_length keys b), HK. apply map_length. }
      assert (E2 : obind bs (at_rank k) = Some (map (fun b => match b with Some b => Some (nth k b []) | None => None end) bs)).
      { apply obind_map_some. intros [b|] Hb; [|reflexivity]. cbn. rewrite (nth_nth_error _ _ []) by (rewrite (Lb b Hb); auto). reflexivity. }
      rewrite E1, E2. eexists. split; [|reflexivity]. unfold concat_rank. apply obind_map_some. intros e He.
      assert (Hel : In e (elements c)) by (rewrite elements_keys; apply in_concat; exists (keys g); split; auto; apply in_map; rewrite <- Eg; now apply nth_In).
      match goal with |- option_map _ ?o = _ => assert (o = Some (map (part e) (seq 0 (length gms)))) as -> end; [|reflexivity].
      rewrite obind_forall2. apply nth_Forall2; [rewrite combine_length, !map_length, seq_length; lia|].
      intros i [h b] p Hi Hp. assert (Hil : i < length gms).
      { apply (f_equal (fun x => match x with Some _ => true | None => false end)) in Hp. destruct (Nat.lt_ge_cases i (length gms)); auto.
        rewrite (proj2 (nth_error_None _ _)) in Hp by (rewrite map_length, seq_length; lia). discriminate. }
      rewrite (nth_nth_error _ _ ([], None)) in Hi by (rewrite combine_length, !map_length; lia). rewrite combine_nth in Hi by (rewrite !map_length; lia).
      rewrite nth_error_map, (nth_nth_error _ _ 0) in Hp by (now rewrite seq_length). rewrite seq_nth in Hp by auto. cbn [option_map Nat.add] in Hp.
      injection Hp as <-. injection Hi as Eh Eb. cbn [fst snd].
      rewrite (nth_indep _ [] ((fun g : dgm => nth k g []) [])) in Eh by (now rewrite map_length). rewrite (map_nth (fun g : dgm => nth k g [])) in Eh.
      pose proof (map_nth (fun b : option (list lvec) => match b with Some b => Some (nth k b []) | None => None end) bs None i) as MN. cbv beta iota in MN. rewrite MN in Eb. subst h b. unfold part.
      assert (Wi : wf_numbering (nth i gms [])) by (rewrite Forall_forall in Hw; apply Hw; now apply nth_In).
      pose proof (Ag _ (nth_In _ [] Hil)) as Ai.
      assert (Hek : In e (keys (nth k (nth i gms []) []))) by (apply (Forall2_nth_lt _ _ _ [] [] k Ai Hk); now rewrite Eg).
      pose proof (Forall2_nth_lt _ _ _ None [] i HB Hil) as Hf. cbn in Hf. destruct (nth i bs None) as [b|] eqn:Eb.
      - destruct Hf as (_ & HK & _). assert (Hb : In (Some b) bs) by (rewrite <- Eb; apply nth_In; lia). pose proof (Lb b Hb) as L1.
        assert (EK : keys (nth k b []) = keys (nth k (nth i gms []) [])).
        { apply (nth_error_same keys keys b (nth i gms []) k); auto; apply nth_nth_error; [lia|rewrite Lg; auto]. }
        rewrite <- EK in Hek. assert (ND : NoDup (concat (map keys b))) by (apply (keys_nodup (nth i gms [])); auto).
        rewrite (rank_get b (nth k b []) e ND); auto; [|apply nth_In; lia].
        assert (Hcc : In e (keys (concat b))) by (rewrite keys_concat; apply in_concat; exists (keys (nth k b [])); split; auto; apply in_map, nth_In; lia).
        apply (get_keys Nat.eqb Nat_eqb_spec) in Hcc as [d ->]. reflexivity.
      - rewrite (rank_numbers (nth i gms []) _ e Wi); auto. apply nth_In. rewrite Lg; auto. }
    assert (HK : map keys Vb = map keys c).
    { apply nth_error_list_ext. intros k. rewrite !nth_error_map. destruct (nth_error c k) as [g|] eqn:Eg.
      - destruct (nth_error_len c Vb k g (eq_sym LVb) Eg) as [b Eb]. rewrite Eb. cbn. f_equal. rewrite (HV k g b Eg Eb). unfold keys. rewrite map_map. cbn. apply map_id.
      - apply nth_error_None in Eg. assert (nth_error Vb k = None) as -> by (apply nth_error_None; lia). reflexivity. }
    assert (HG : forall e d, In (e, d) (concat Vb) -> In e (elements c) /\ d = V e).
    { intros e d H. split.
      - rewrite elements_keys, <- HK, <- keys_concat. apply in_map_iff. exists (e, d). auto.
      - apply in_concat in H as (b & Hb & H). apply In_nth_error in Hb as [k Hb]. destruct (nth_error_len Vb c k b LVb Hb) as [g Hg].
        rewrite (HV k g b Hg Hb) in H. apply in_map_iff in H as (e' & E & _). congruence. }
    exists Vb. split; [exact EV|]. split; [split; [auto|split; [auto|]]|].
    - intros e d H. apply HG in H as [He ->]. unfold V. rewrite length_concat_sum, LV by auto. now destruct (glued_numbers gms c phi e Hw Wc G He) as [-> _].
    - intros e i a He Hi Ha. pose proof He as He2. rewrite elements_keys, <- HK, <- keys_concat in He2. apply (get_keys Nat.eqb Nat_eqb_spec) in He2 as [d Hd].
      unfold vec_of at 1. rewrite Hd. apply (get_in Nat.eqb Nat_eqb_spec), HG in Hd as [_ ->]. unfold V.
      assert (Hp : nth_error (map (part e) (seq 0 (length gms))) i = Some (part e i)).
      { rewrite nth_error_map, (nth_nth_error _ _ 0) by (now rewrite seq_length). now rewrite seq_nth. }
      rewrite <- (LV e He). apply nth_error_nth with (d := 0%Qc).
      rewrite (nth_error_concat_off _ i a _ Hp) by (rewrite Pl; auto). rewrite (nth_nth_error _ _ 0%Qc) by (rewrite Pl; auto). f_equal.
      unfold part. destruct (nth i bs None) as [b|].
      + unfold vec_of. destruct (nget (concat b) e); auto. now destruct a.
      + apply nth_repeat.
  Qed.
  Lemma concat_value Vb : (forall e i a, In e (elements c) -> i < length gms -> a < length (numbers (nth i gms []) e) ->
      vec_of Vb e (off (widths gms e) i + a) = match nth i bs None with Some b => vec_of b e a | None => 0%Qc end) ->
    forall i r k, denotes gms c i r k -> global_value c (vec_of Vb) k = match nth i bs None with Some b => global_value (nth i gms []) (vec_of b) r | None => 0%Qc end.
  Proof.
    intros HL i r k D. destruct (chain_facts gms c Hw Hc) as ((phi & G) & Wc & Ne & Ag). destruct (denotes_phi gms c phi i r k Hw Wc G D) as (Hi & U & Ek). rewrite Ek. clear Ek D k.
    unfold global_value.
    transitivity (qsum (map (fun e => sumq (length (numbers (nth i gms []) e)) (fun a => if nth a (numbers (nth i gms []) e) 0 =? r then match nth i bs None with Some b => vec_of b e a | None => 0%Qc end else 0%Qc)) (elements c))).
    - apply qsum_map_ext. intros e He. rewrite (glued_sum gms c phi e i r); auto. apply sumq_ext. intros a Ha. destruct (_ =? r); auto.
    - destruct (nth i bs None) as [b|].
      + apply qsum_perm, Permutation_map, Permutation_sym, agree_perm; auto; [rewrite Forall_forall in Hw; apply Hw|apply Ag]; now apply nth_In.
      + apply qsum_map_zero. intros e _. apply sumq_zero. intros a _. now destruct (_ =? r).
  Qed.
  Theorem concatenate_assembled : Forall rows_nodup gms -> exists Vb V, concatenate c gms bs = Some Vb /\ assemble_vector c Vb = Some V /\
    forall i r k, denotes gms c i r k ->
      match nth i bs None with
      | Some b => exists Vi, assemble_vector (nth i gms []) b = Some Vi /\ vec_at V k = vec_at Vi r
      | None => vec_at V k = 0%Qc
      end.
  Proof.
    intros Hn. destruct concat_local as (Vb & E & Hf & HL). destruct (assemble_vector_ok c Vb Hf (chain_rows_nodup gms c Hw Hc Hn)) as (V & EV & _ & _ & HV).
    exists Vb, V. split; auto. split; auto. intros i r k D. rewrite HV, (concat_value Vb HL i r k D).
    destruct (chain_facts gms c Hw Hc) as ((phi & G) & Wc & Ne & Ag). destruct (denotes_phi gms c phi i r k Hw Wc G D) as (Hi & _ & _).
    pose proof (Forall2_nth_lt _ _ _ None [] i HB Hi) as Hfi. cbn in Hfi. destruct (nth i bs None) as [b|]; auto.
    rewrite Forall_forall in Hn. destruct (assemble_vector_ok (nth i gms []) b Hfi) as (Vi & EVi & _ & _ & HVi); [apply Hn; now apply nth_In|]. exists Vi. auto.
  Qed.
End Concat.

(** ** essential boundary conditions of unknown [i0] *)
Lemma zero_rows_ok gr gc ds : forall Ms, fits gr gc Ms -> Forall (fun i => exists d, index_of_dof (num_dofs gr) i d) ds ->
  exists Ms', zero_rows gr Ms ds = Some Ms' /\ fits gr gc Ms' /\
    forall r c, r < num_dofs gr -> global_entry gr gc (mat_of Ms') r c = if last_op (num_dofs gr) (map (pair tt) ds) r then 0%Qc else global_entry gr gc (mat_of Ms) r c.
Proof.
  induction ds as [|i ds IH]; intros Ms Hf Ho; cbn [zero_rows map last_op].
  - exists Ms. auto.
  - inversion_clear Ho as [|? ? (d & Hd) Hops]. destruct (zero_row_ok gr gc Ms i d Hf Hd) as (M1 & -> & F1 & V1). destruct (IH M1 F1 Hops) as (M2 & -> & F2 & V2).
    exists M2. split; auto. split; auto. intros r c Hr. rewrite V2 by auto. destruct (last_op _ _ r); auto. rewrite V1, (index_eqb _ _ _ _ Hd Hr). now destruct (r =? d).
Qed.
Lemma identify_rows_customise g ds : forall Ms, identify_rows g Ms ds = customise g Ms (map (pair true) ds).
Proof. induction ds as [|i ds IH]; intros Ms; cbn; auto. destruct (identify_row g Ms i); auto. Qed.
Lemma last_op_pair {A B} n (a : A) (b : B) ds r : match last_op n (map (pair a) ds) r with Some a' => a' = a | None => True end /\
  (if last_op n (map (pair a) ds) r then true else false) = (if last_op n (map (pair b) ds) r then true else false).
Proof.
  induction ds as [|i ds IH]; cbn; auto. destruct IH as [IH1 IH2]. destruct (last_op n (map (pair a) ds) r), (last_op n (map (pair b) ds) r); try discriminate; auto.
  destruct (_ || _); auto.
Qed.
Lemma last_op_values n ds : forall vs r, length vs = length ds ->
  (if last_op n (map (pair tt) ds) r then true else false) = (if last_op n (assignments ds vs) r then true else false).
Proof.
  induction ds as [|i ds IH]; intros [|v vs] r HL; try discriminate; cbn; auto. specialize (IH vs r ltac:(cbn in HL; lia)).
  destruct (last_op n (map (pair tt) ds) r), (last_op n (assignments ds vs) r); try discriminate; auto. now destruct (_ || _).
Qed.
Lemma set_values_ok g ds : forall vs bs, vfits g bs -> length vs = length ds -> Forall (fun i => exists d, index_of_dof (num_dofs g) i d /\ used g d) ds ->
  exists bs', set_values g bs ds vs = Some bs' /\ vfits g bs' /\
    forall r, r < num_dofs g -> global_value g (vec_of bs') r = match last_op (num_dofs g) (assignments ds vs) r with Some v => v | None => global_value g (vec_of bs) r end.
Proof.
  induction ds as [|i ds IH]; intros [|v vs] bs Hv Hl Ho; try discriminate; cbn [set_values assignments last_op].
  - exists bs. auto.
  - inversion_clear Ho as [|? ? (d & Hd & Hu) Hops]. destruct (set_value_ok g bs i d v Hv Hd Hu) as (b1 & -> & F1 & V1).
    destruct (IH vs b1 F1) as (b2 & -> & F2 & V2); auto. exists b2. split; auto. split; auto.
    intros r Hr. rewrite V2 by auto. destruct (last_op _ (assignments ds vs) r); auto. rewrite V1, (index_eqb _ _ _ _ Hd Hr). now destruct (Nat.eqb_spec r d).
Qed.
Lemma nth_set_nth_block {A} (B : list (list (option A))) i0 row i j : i0 < length B ->
  nth_block (set_nth i0 row B) i j = if i =? i0 then nth j row None else nth_block B i j.
Proof. intros H. unfold nth_block. rewrite nth_set_nth by auto. now destruct (i =? i0). Qed.

Section Essential.
  Context (gms : list dgm) (cg : dgm) (B : list (list (option (list lmat)))) (bs : list (option (list lvec))) (i0 : nat) (ds : list Z) (vs : list Qc).
  Context (Hw : Forall wf_numbering gms) (Hc : chain gms = Some cg) (HB : blocks_ok gms gms B) (Hb : vblocks_ok gms bs) (Hn : Forall rows_nodup gms).
  Context (Hi0 : i0 < length gms) (Hrow : forall j, j < length gms -> nth_block B i0 j <> None) (Hrhs : nth i0 bs None <> None) (Hlen : length vs = length ds).
  Context (Hds : Forall (fun i => exists d, index_of_dof (num_dofs (nth i0 gms [])) i d /\ used (nth i0 gms []) d) ds).
  Let g := nth i0 gms [].
  Let val (d : nat) : option Qc := last_op (num_dofs g) (assignments ds vs) d.

  Lemma essential_row_ok row : nth_error B i0 = Some row -> exists row', essential_row g i0 row ds = Some row' /\ length row' = length row /\
    forall j, j < length gms -> exists Ms Ms', nth j row None = Some Ms /\ nth j row' None = Some Ms' /\ fits g (nth j gms []) Ms' /\
      forall r c, r < num_dofs g -> global_entry g (nth j gms []) (mat_of Ms') r c =
        if val r then (if (j =? i0) && (c =? r) then 1%Qc else 0%Qc) else global_entry g (nth j gms []) (mat_of Ms) r c.
  Proof.
    intros Hr. destruct HB as (L1 & L2 & HF & _). assert (Lr : length row = length gms) by (rewrite Forall_forall in L2; apply L2; eapply nth_error_In; eauto).
    unfold essential_row.
    destruct (obind_indexed row (fun j b => match b with Some Ms => option_map Some (if i0 =? j then identify_rows g Ms ds else zero_rows g Ms ds) | None => None end)
      (fun j b b' => exists Ms Ms', b = Some Ms /\ b' = Some Ms' /\ fits g (nth j gms []) Ms' /\
        forall r c, r < num_dofs g -> global_entry g (nth j gms []) (mat_of Ms') r c =
          if val r then (if (j =? i0) && (c =? r) then 1%Qc else 0%Qc) else global_entry g (nth j gms []) (mat_of Ms) r c)) as (row' & E & Lr' & HP).
    { intros j b Hj. assert (Hjl : j < length gms) by (rewrite <- Lr; apply nth_error_Some; congruence). specialize (Hrow j Hjl).
      rewrite (nth_block_row _ _ _ _ Hr), (nth_error_nth _ _ None Hj) in Hrow. destruct b as [Ms|]; [|congruence].
      assert (Hf : fits g (nth j gms []) Ms) by (apply HF; rewrite (nth_block_row _ _ _ _ Hr); now apply nth_error_nth).
      rewrite (Nat.eqb_sym i0 j). destruct (Nat.eqb_spec j i0) as [->|Hne].
      - rewrite identify_rows_customise. destruct (customise_ok g (map (pair true) ds) Ms Hf) as (Ms' & -> & Hf' & HV).
        { apply Forall_forall. intros [o i] Hin. apply in_map_iff in Hin as (i' & [= <- <-] & Hin). rewrite Forall_forall in Hds. destruct (Hds i' Hin) as (d & ? & ?). exists d. auto. }
        eexists. split; [reflexivity|]. exists Ms, Ms'. split; [auto|split; [auto|split; [auto|]]]. intros r c Hrr. rewrite HV by auto.
        unfold val. pose proof (last_op_values (num_dofs g) ds vs r Hlen) as E1. pose proof (last_op_pair (num_dofs g) true tt ds r) as [E2 E3]. rewrite E1 in E3.
        destruct (last_op _ (map (pair true) ds) r) as [o|], (last_op _ (assignments ds vs) r); try discriminate; [|reflexivity]. now rewrite E2.
      - destruct (zero_rows_ok g (nth j gms []) ds Ms Hf) as (Ms' & -> & Hf' & HV).
        { eapply Forall_impl; [|exact Hds]. intros i (d & ? & _). eauto. }
        eexists. split; [reflexivity|]. exists Ms, Ms'. split; [auto|split; [auto|split; [auto|]]]. intros r c Hrr. rewrite HV by auto.
        unfold val. pose proof (last_op_values (num_dofs g) ds vs r Hlen) as E1.
        destruct (last_op _ (map (pair tt) ds) r), (last_op _ (assignments ds vs) r); try discriminate; reflexivity. }
    exists row'. split; [exact E|]. split; auto. intros j Hj. assert (Hjr : j < length row) by lia.
    destruct (nth_error_len row row' j _ (eq_sym Lr') (nth_nth_error _ _ None Hjr)) as [b' Hb'].
    destruct (HP j _ b' (nth_nth_error _ _ None Hjr) Hb') as (Ms & Ms' & H1 & -> & H2). exists Ms, Ms'. split; auto. split; auto. now apply nth_error_nth.
  Qed.

  Theorem essential_bc_exact : exists Mb A Vb b B' bs' Mb' A' Vb' b',
    bmat cg B = Some Mb /\ assemble_matrix None cg cg Mb = Some A /\ concatenate cg gms bs = Some Vb /\ assemble_vector cg Vb = Some b /\
    apply_essential_bc gms B bs i0 ds vs = Some (B', bs') /\
    bmat cg B' = Some Mb' /\ assemble_matrix None cg cg Mb' = Some A' /\ concatenate cg gms bs' = Some Vb' /\ assemble_vector cg Vb' = Some b' /\
    let n := num_dofs cg in
    forall x : nat -> Qc, (forall k, k < n -> row_solved n (value_at A') (vec_at b') x k) <->
      (forall k, k < n ->
         (forall d v, denotes gms cg i0 d k -> last_op (num_dofs (nth i0 gms [])) (assignments ds vs) d = Some v -> x k = v) /\
         (~ (exists d v, denotes gms cg i0 d k /\ last_op (num_dofs (nth i0 gms [])) (assignments ds vs) d = Some v) -> row_solved n (value_at A) (vec_at b) x k)).
  Proof.
    pose proof HB as (L1 & L2 & HF & HR & HC). assert (LB : length bs = length gms) by (eapply Forall2_len; eauto).
    destruct (chain_facts gms cg Hw Hc) as (_ & Wc & _ & _).
    assert (Hrow0 : nth_error B i0 = Some (nth i0 B [])) by (apply nth_nth_error; lia).
    destruct (essential_row_ok _ Hrow0) as (row' & Er & Lr & HP).
    destruct (nth i0 bs None) as [bi|] eqn:Ebi; [|congruence].
    assert (Hvi : vfits g bi) by (pose proof (Forall2_nth_lt _ _ _ None [] i0 Hb Hi0) as H; cbn in H; now rewrite Ebi in H).
    destruct (set_values_ok g ds vs bi Hvi Hlen Hds) as (bi' & Ev & Hvi' & HVi).
    set (B' := set_nth i0 row' B). set (bs' := set_nth i0 (Some bi') bs).
    assert (EA : apply_essential_bc gms B bs i0 ds vs = Some (B', bs')).
    { unfold apply_essential_bc. rewrite (nth_nth_error gms i0 []) by auto. rewrite Hrow0. rewrite (nth_nth_error bs i0 None) by lia. rewrite Ebi.
      fold g. rewrite Er, Ev. reflexivity. }
    assert (NB : forall i j, nth_block B' i j = if i =? i0 then nth j row' None else nth_block B i j) by (intros; apply nth_set_nth_block; lia).
    assert (Lrow : length (nth i0 B []) = length gms) by (rewrite Forall_forall in L2; apply L2, nth_In; lia).
    assert (HB' : blocks_ok gms gms B').
    { split; [unfold B'; now rewrite set_nth_length|]. split; [|split; [|split]].
      - apply Forall_forall. intros rw Hrw. apply in_set_nth in Hrw as [->|Hrw]; [lia|]. rewrite Forall_forall in L2. auto.
      - intros i j Ms H. rewrite NB in H. destruct (Nat.eqb_spec i i0) as [->|]; [|now apply HF].
        assert (Hj : j < length gms). { destruct (Nat.lt_ge_cases j (length gms)); auto. rewrite nth_overflow in H by lia. discriminate. }
        destruct (HP j Hj) as (M1 & M2 & _ & E2 & F2 & _). assert (M2 = Ms) as -> by congruence. exact F2.
      - intros i Hi. destruct (Nat.eqb_spec i i0) as [->|Hne].
        + destruct (HP i0 Hi0) as (M1 & M2 & _ & E2 & _). exists i0, M2. rewrite NB, Nat.eqb_refl. auto.
        + destruct (HR i Hi) as (j & Ms & Hj & H). exists j, Ms. rewrite NB. destruct (Nat.eqb_spec i i0); [congruence|auto].
      - intros j Hj. destruct (HP j Hj) as (M1 & M2 & _ & E2 & _). exists i0, M2. rewrite NB, Nat.eqb_refl. auto. }
    assert (Nb : forall i, nth i bs' None = if i =? i0 then Some bi' else nth i bs None) by (intros; apply nth_set_nth; lia).
    assert (Hb' : vblocks_ok gms bs').
    { apply (Forall2_of_nth _ _ _ None []); [unfold bs'; now rewrite set_nth_length|]. intros i Hi. rewrite Nb. unfold bs' in Hi. rewrite set_nth_length, LB in Hi.
      destruct (Nat.eqb_spec i i0) as [->|]; auto. apply (Forall2_nth_lt _ _ _ None [] i Hb Hi). }
    pose proof (chain_rows_nodup gms cg Hw Hc Hn) as Hnc.
    destruct (bmat_local gms gms cg cg B Hw Hw Hc Hc HB) as (Mb & E1 & F1 & V1). destruct (assemble_matrix_ok cg cg Mb F1) as (A & E2 & _ & HA & _).
    destruct (concat_local gms cg bs Hw Hc Hb) as (Vb & E3 & F3 & V3). destruct (assemble_vector_ok cg Vb F3 Hnc) as (b & E4 & _ & _ & Hbv).
    destruct (bmat_local gms gms cg cg B' Hw Hw Hc Hc HB') as (Mb' & E1' & F1' & V1'). destruct (assemble_matrix_ok cg cg Mb' F1') as (A' & E2' & _ & HA' & _).
    destruct (concat_local gms cg bs' Hw Hc Hb') as (Vb' & E3' & F3' & V3'). destruct (assemble_vector_ok cg Vb' F3' Hnc) as (b' & E4' & _ & _ & Hbv').
    exists Mb, A, Vb, b, B', bs', Mb', A', Vb', b'. repeat (split; [assumption|]). cbv zeta. set (n := num_dofs cg).
    pose proof (bmat_entry gms gms cg cg B Hw Hw Hc Hc Mb V1 F1) as G. pose proof (bmat_entry gms gms cg cg B' Hw Hw Hc Hc Mb' V1' F1') as G'.
    pose proof (concat_value gms cg bs Hw Hc Vb V3) as Gv. pose proof (concat_value gms cg bs' Hw Hc Vb' V3') as Gv'.
    (* unused columns and rows *)
    assert (ZC : forall M k k', ~ used cg k' -> global_entry cg cg M k k' = 0%Qc).
    { intros M k k' U. unfold global_entry. apply qsum_map_zero. intros e He. apply sumq_zero. intros p _. apply sumq_zero. intros q Hq.
      destruct (Nat.eqb_spec (nth q (numbers cg e) 0) k') as [E|]; [|now rewrite andb_false_r]. exfalso. apply U. rewrite <- E. eapply numbers_used; eauto. now apply nth_In. }
    assert (ZV : forall w k, ~ used cg k -> global_value cg w k = 0%Qc).
    { intros w k U. unfold global_value. apply qsum_map_zero. intros e He. apply sumq_zero. intros p Hp.
      destruct (Nat.eqb_spec (nth p (numbers cg e) 0) k) as [E|]; auto. exfalso. apply U. rewrite <- E. eapply numbers_used; eauto. now apply nth_In. }
    assert (Dl : forall d k, denotes gms cg i0 d k -> d < num_dofs g).
    { intros d k D. apply num_dofs_bound. destruct (chain_facts gms cg Hw Hc) as ((phi & Gl) & _). apply (denotes_phi gms cg phi i0 d k Hw Wc Gl) in D. tauto. }
    assert (UD : forall k, used cg k \/ ~ used cg k).
    { intros k. destruct (in_dec Nat.eq_dec k (concat (map snd (concat cg)))) as [H|H].
      - left. apply in_concat in H as (row & Hr & Hk). apply in_map_iff in Hr as ([e r] & <- & Hr). apply in_concat in Hr as (rk & H1 & H2). exists e, r. split; auto. exists rk. auto.
      - right. intros (e & row & (rk & H1 & H2) & Hk). apply H. apply in_concat. exists row. split; auto. apply in_map_iff. exists (e, row). split; auto. apply in_concat. eauto. }
    (* the row of a prescribed dof *)
    assert (P1 : forall k d v, denotes gms cg i0 d k -> val d = Some v -> (forall k', value_at A' k k' = if k' =? k then 1%Qc else 0%Qc) /\ vec_at b' k = v).
    { intros k d v D Hv. split.
      - intros k'. rewrite HA'. destruct (UD k') as [U|U].
        + destruct (denotes_onto gms cg k' Hw Hc U) as (j & c & D'). rewrite (G' i0 j d c k k' D D'), NB, Nat.eqb_refl.
          assert (Hj : j < length gms). { destruct (chain_facts gms cg Hw Hc) as ((phi & Gl) & _). apply (denotes_phi gms cg phi j c k' Hw Wc Gl) in D'. tauto. }
          destruct (HP j Hj) as (M1 & M2 & _ & -> & _ & HM). fold g. rewrite HM by eauto. unfold val in Hv. fold g. unfold val. rewrite Hv.
          destruct (Nat.eqb_spec k' k) as [->|Hk].
          * destruct (denotes_inj gms cg i0 d j c k Hw Hc D D') as [<- <-]. now rewrite !Nat.eqb_refl.
          * destruct (Nat.eqb_spec j i0) as [->|]; auto. destruct (Nat.eqb_spec c d) as [->|]; auto. exfalso. apply Hk. eapply denotes_same; eauto.
        + rewrite ZC by auto. destruct (Nat.eqb_spec k' k) as [->|]; auto. exfalso. apply U. eapply denotes_used; eauto.
      - rewrite Hbv', (Gv' i0 d k D), Nb, Nat.eqb_refl. fold g. rewrite HVi by eauto. unfold val in Hv. now rewrite Hv. }
    assert (P2 : forall k, ~ (exists d v, denotes gms cg i0 d k /\ val d = Some v) -> (forall k', value_at A' k k' = value_at A k k') /\ vec_at b' k = vec_at b k).
    { intros k N. destruct (UD k) as [U|U].
      - destruct (denotes_onto gms cg k Hw Hc U) as (i & d & D).
        assert (VN : i = i0 -> val d = None) by (intros ->; destruct (val d) as [v|] eqn:Ev2; auto; exfalso; eauto). split.
        + intros k'. rewrite HA', HA. destruct (UD k') as [U'|U']; [|now rewrite !ZC by auto].
          destruct (denotes_onto gms cg k' Hw Hc U') as (j & c & D'). rewrite (G' i j d c k k' D D'), (G i j d c k k' D D'), NB. destruct (Nat.eqb_spec i i0) as [->|]; auto.
          assert (Hj : j < length gms). { destruct (chain_facts gms cg Hw Hc) as ((phi & Gl) & _). apply (denotes_phi gms cg phi j c k' Hw Wc Gl) in D'. tauto. }
          destruct (HP j Hj) as (M1 & M2 & Q1 & -> & _ & HM). fold g. rewrite HM by eauto. rewrite VN by auto. rewrite (nth_block_row _ _ _ _ Hrow0), Q1. reflexivity.
        + rewrite Hbv', Hbv, (Gv' i d k D), (Gv i d k D), Nb. destruct (Nat.eqb_spec i i0) as [->|]; auto. rewrite Ebi. fold g. rewrite HVi by eauto.
          specialize (VN eq_refl). unfold val in VN. now rewrite VN.
      - split; [|now rewrite Hbv', Hbv, !ZV by auto]. intros k'. rewrite HA', HA. now rewrite !global_entry_unused by auto. }
    intros x. split.
    - intros H k Hk. specialize (H k Hk). split.
      + intros d v D Hv. destruct (P1 k d v D Hv) as [Q1 Q2]. apply row_solved_unit in H; auto. congruence.
      + intros N. destruct (P2 k N) as [Q1 Q2]. exact (proj1 (row_solved_ext n (value_at A') (value_at A) (vec_at b') (vec_at b) x k Q1 Q2) H).
    - intros H k Hk. destruct (H k Hk) as [H1 H2].
      assert (Dec : (exists d v, denotes gms cg i0 d k /\ val d = Some v) \/ ~ (exists d v, denotes gms cg i0 d k /\ val d = Some v)).
      { destruct (UD k) as [U|U].
        - destruct (denotes_onto gms cg k Hw Hc U) as (i & d & D). destruct (Nat.eq_dec i i0) as [->|Hne].
          + destruct (val d) as [v|] eqn:Ev2; [left; eauto|right]. intros (d' & v & D' & Hv). destruct (denotes_inj gms cg i0 d i0 d' k Hw Hc D D') as [_ <-]. congruence.
          + right. intros (d' & v & D' & Hv). destruct (denotes_inj gms cg i d i0 d' k Hw Hc D D') as [E _]. congruence.
        - right. intros (d & v & D & _). apply U. eapply denotes_used; eauto. }
      destruct Dec as [(d & v & D & Hv)|N].
      + destruct (P1 k d v D Hv) as [Q1 Q2]. apply row_solved_unit; auto. rewrite Q2. eapply H1; eauto.
      + destruct (P2 k N) as [Q1 Q2]. exact (proj2 (row_solved_ext n (value_at A') (value_at A) (vec_at b') (vec_at b) x k Q1 Q2) (H2 N)).
  Qed.
End Essential.
