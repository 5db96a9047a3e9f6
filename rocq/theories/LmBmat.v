(** The assembled block matrix consists of the assembled blocks *)
From Coq Require Import List Arith ZArith Lia Bool QArith Qcanon Permutation.
From Verif Require Import Dict GmModel GmSpec GmProofs GmChain GmData GmFind QSums LmModel LmSpec LmProofs LmVec LmCustom LmSystem LmBlocks.
Import ListNotations.
Local Open Scope nat_scope.

(** what bmat asserts: one numbering per block row and block column, none of them without a block *)
Definition blocks_ok (gr gc : list dgm) (B : list (list (option (list lmat)))) : Prop :=
  length B = length gr /\ Forall (fun row => length row = length gc) B /\
  (forall i j Ms, nth_block B i j = Some Ms -> fits (nth i gr []) (nth j gc []) Ms) /\
  (forall i, i < length gr -> exists j Ms, j < length gc /\ nth_block B i j = Some Ms) /\
  (forall j, j < length gc -> exists i Ms, i < length gr /\ nth_block B i j = Some Ms).

Lemma Forall2_of_nth {A B} (P : A -> B -> Prop) l l' da db : length l = length l' -> (forall i, i < length l -> P (nth i l da) (nth i l' db)) -> Forall2 P l l'.
Proof.
  intros HL H. apply nth_Forall2; auto. intros i a b Ha Hb. assert (i < length l) by (apply nth_error_Some; congruence).
  specialize (H i H0). now rewrite (nth_error_nth _ _ _ Ha), (nth_error_nth _ _ _ Hb) in H.
Qed.
Lemma nth_block_row {A} (B : list (list (option A))) i row j : nth_error B i = Some row -> nth_block B i j = nth j row None.
Proof. intros H. unfold nth_block. now rewrite (nth_error_nth _ _ [] H). Qed.
(** applying an operation to all blocks *)
Lemma obind2_ok {A C} (f : option A -> option (option C)) (B : list (list (option A))) n : Forall (fun row => length row = n) B ->
  f None = Some None ->
  (forall i j M, nth_block B i j = Some M -> exists c, f (Some M) = Some (Some c)) ->
  exists Bc, obind B (fun row => obind row f) = Some Bc /\ length Bc = length B /\ Forall (fun row => length row = n) Bc /\
    forall i j, match nth_block B i j with Some M => exists c, f (Some M) = Some (Some c) /\ nth_block Bc i j = Some c | None => nth_block Bc i j = None end.
Proof.
  intros HL HN HS.
  assert (R : forall row, In row B -> exists rc, obind row f = Some rc /\ length rc = n /\
    forall j, match nth j row None with Some M => exists c, f (Some M) = Some (Some c) /\ nth j rc None = Some c | None => nth j rc None = None end).
  { intros row Hrow. apply In_nth_error in Hrow as [i Hi].
    assert (G : exists rc, obind row f = Some rc).
    { apply obind_ok. intros b Hb. destruct b as [M|]; [|eauto]. apply In_nth_error in Hb as [j Hj].
      destruct (HS i j M) as [c Hc]; [rewrite (nth_block_row _ _ _ _ Hi); now apply nth_error_nth|eauto]. }
    destruct G as [rc E]. exists rc. split; auto. apply obind_forall2 in E. split.
    - rewrite <- (Forall2_len _ _ _ E). rewrite Forall_forall in HL. apply HL. eapply nth_error_In; eauto.
    - intros j. destruct (nth_error row j) as [b|] eqn:Ej.
      + destruct (Forall2_nth_l _ _ _ j b E Ej) as (b' & Hb' & Eb). rewrite (nth_error_nth _ _ None Ej), (nth_error_nth _ _ None Hb'). destruct b as [M|].
        * destruct (HS i j M) as [c Hc]; [rewrite (nth_block_row _ _ _ _ Hi); now apply nth_error_nth|]. exists c. rewrite Hc in Eb. split; congruence.
        * rewrite HN in Eb. congruence.
      + apply nth_error_None in Ej. rewrite !nth_overflow; auto. rewrite <- (Forall2_len _ _ _ E). auto. }
  assert (G : exists Bc, obind B (fun row => obind row f) = Some Bc).
  { apply obind_ok. intros row Hrow. destruct (R row Hrow) as (rc & E & _). eauto. }
  destruct G as [Bc E]. exists Bc. split; auto. apply obind_forall2 in E. split; [symmetry; now apply (Forall2_len _ _ _ E)|]. split.
  - apply Forall_forall. intros rc Hrc. apply In_nth_error in Hrc as [i Hi]. destruct (Forall2_nth_r _ _ _ i rc E Hi) as (row & Hrow & Er).
    destruct (R row) as (rc' & E' & HL' & _); [eapply nth_error_In; eauto|]. congruence.
  - intros i j. destruct (nth_error B i) as [row|] eqn:Ei.
    + destruct (Forall2_nth_l _ _ _ i row E Ei) as (rc & Hrc & Er). rewrite (nth_block_row _ _ _ _ Ei), (nth_block_row _ _ _ _ Hrc).
      destruct (R row) as (rc' & E' & _ & HR); [eapply nth_error_In; eauto|]. assert (rc' = rc) as -> by congruence. apply HR.
    + apply nth_error_None in Ei. unfold nth_block. rewrite (nth_overflow B) by auto. rewrite nth_overflow by (cbn; lia).
      rewrite (nth_overflow Bc); [destruct j; reflexivity|]. rewrite <- (Forall2_len _ _ _ E). auto.
Qed.

Section Bmat.
  Context (gr gc : list dgm) (cr cc : dgm) (B : list (list (option (list lmat)))).
  Context (Hwr : Forall wf_numbering gr) (Hwc : Forall wf_numbering gc) (Hcr : chain gr = Some cr) (Hcc : chain gc = Some cc) (HB : blocks_ok gr gc B).

  Lemma block_index i j Ms : nth_block B i j = Some Ms -> i < length gr /\ j < length gc.
  Proof.
    destruct HB as (L1 & L2 & _). intros H. unfold nth_block in H. destruct (Nat.lt_ge_cases i (length B)) as [Hi|Hi].
    - split; [lia|]. destruct (Nat.lt_ge_cases j (length gc)) as [Hj|Hj]; auto. rewrite nth_overflow in H; [discriminate|].
      rewrite Forall_forall in L2. rewrite (L2 _ (nth_In _ [] Hi)). auto.
    - rewrite (nth_overflow B) in H by auto. destruct j; discriminate.
  Qed.
  Lemma block_rank i j Ms k e : nth_block B i j = Some Ms -> k < length cr -> In e (keys (nth k cr [])) ->
    exists M m, nth_error Ms k = Some M /\ nget M e = Some m /\ sm_ok m /\ sm_nr m = length (numbers (nth i gr []) e) /\
      sm_nc m = length (numbers (nth j gc []) e) /\ forall a b, mat_of Ms e a b = sm_at m a b.
  Proof.
    intros Hb Hk He. destruct (block_index i j Ms Hb) as [Hi Hj]. destruct HB as (_ & _ & HF & _). pose proof (HF i j Ms Hb) as (W1 & W2 & HK & _ & HS).
    destruct (chain_facts gr cr Hwr Hcr) as (_ & Wc & _ & HA). specialize (HA (nth i gr []) (nth_In _ _ Hi)).
    assert (Lg : length (nth i gr []) = length cr) by (eapply Forall2_len; eauto).
    assert (LM : length Ms = length cr) by (rewrite <- Lg, <- (map_length keys Ms), HK; apply map_length).
    exists (nth k Ms []). pose proof (nth_nth_error Ms k [] ltac:(lia)) as EM.
    assert (EK : keys (nth k Ms []) = keys (nth k (nth i gr []) [])).
    { apply (nth_error_same keys keys Ms (nth i gr []) k); auto. apply nth_nth_error. lia. }
    assert (Hke : In e (keys (nth k Ms []))) by (rewrite EK; apply (Forall2_nth_lt _ _ _ [] [] k HA Hk); auto).
    destruct (nget (nth k Ms []) e) as [m|] eqn:Em.
    - exists m. split; auto. split; auto.
      assert (Hc : In (e, m) (concat Ms)) by (apply in_concat; exists (nth k Ms []); split; [apply nth_In; lia|now apply (get_in Nat.eqb Nat_eqb_spec)]).
      destruct (HS e m Hc) as (? & ? & ?). split; [auto|split; [auto|split; [auto|]]]. intros a b. rewrite (mat_of_rank (nth i gr []) Ms k (nth k Ms [])); auto. unfold dat. now rewrite Em.
    - exfalso. apply (get_keys Nat.eqb Nat_eqb_spec) in Hke as [m Hm]. congruence.
  Qed.
  Lemma bmat_local : exists Mb, bmat cr B = Some Mb /\ fits cr cc Mb /\
    forall e i j a b, In e (elements cr) -> i < length gr -> j < length gc -> a < length (numbers (nth i gr []) e) -> b < length (numbers (nth j gc []) e) ->
      mat_of Mb e (off (widths gr e) i + a) (off (widths gc e) j + b) = match nth_block B i j with Some Ms => mat_of Ms e a b | None => 0%Qc end.
  Proof.
    destruct (chain_facts gr cr Hwr Hcr) as ((phi & Gr) & Wr & Ner & Ar). destruct (chain_facts gc cc Hwc Hcc) as ((psi & Gc) & Wc & Nec & Ac).
    pose proof HB as (L1 & L2 & HF & HR & HC).
    assert (Acc : agree cr cc).
    { destruct (HR 0) as (j & Ms & Hj & Hb); [destruct gr; [congruence|cbn; lia]|]. destruct (block_index 0 j Ms Hb) as [Hi _].
      destruct (HF 0 j Ms Hb) as (_ & _ & _ & HE & _). apply same_elements_keys in HE.
      eapply agree_trans; [apply agree_sym, (Ar (nth 0 gr [])), nth_In; auto|]. eapply agree_trans; [exact HE|]. apply Ac, nth_In; auto. }
    assert (E : forall k e, k < length cr -> In e (keys (nth k cr [])) -> forall Bk, obind B (fun row => obind row (at_rank k)) = Some Bk ->
      length Bk = length B -> Forall (fun row => length row = length gc) Bk ->
      (forall i j, match nth_block B i j with Some Ms => exists M, at_rank k (Some Ms) = Some (Some M) /\ nth_block Bk i j = Some M | None => nth_block Bk i j = None end) ->
      exists Be m, obind Bk (fun row => obind row (fun b => match b with None => Some None | Some M => option_map Some (nget M e) end)) = Some Be /\
        sp_bmat Be = Some m /\ sm_ok m /\ sm_nr m = length (numbers cr e) /\ sm_nc m = length (numbers cc e) /\
        forall i j a b, i < length gr -> j < length gc -> a < length (numbers (nth i gr []) e) -> b < length (numbers (nth j gc []) e) ->
          sm_at m (off (widths gr e) i + a) (off (widths gc e) j + b) = match nth_block B i j with Some Ms => mat_of Ms e a b | None => 0%Qc end).
    { intros k e Hk He Bk _ LK LK2 HBk.
      assert (Hel : In e (elements cr)) by (rewrite elements_keys; apply in_concat; exists (keys (nth k cr [])); split; auto; apply in_map; now apply nth_In).
      assert (Hel' : In e (elements cc)) by (now apply (agree_elements _ _ Acc)).
      destruct (obind2_ok (fun b : option lmat => match b with None => Some None | Some M => option_map Some (nget M e) end) Bk (length gc)) as (Be & EBe & LBe & LBe2 & HBe); auto.
      { intros i j M HM. specialize (HBk i j). destruct (nth_block B i j) as [Ms|] eqn:Eb; [|congruence]. destruct HBk as (M' & EM' & EM).
        assert (M' = M) as -> by congruence. destruct (block_rank i j Ms k e Eb Hk He) as (M2 & m & E1 & E2 & _). cbn in EM'. rewrite E1 in EM'. cbn in EM'.
        assert (M2 = M) as -> by congruence. rewrite E2. cbn. eauto. }
      assert (HBe' : forall i j, match nth_block B i j with Some Ms => exists m, nth_block Be i j = Some m /\ sm_ok m /\ sm_nr m = length (numbers (nth i gr []) e) /\
        sm_nc m = length (numbers (nth j gc []) e) /\ forall a b, mat_of Ms e a b = sm_at m a b | None => nth_block Be i j = None end).
      { intros i j. specialize (HBk i j). specialize (HBe i j). destruct (nth_block B i j) as [Ms|] eqn:Eb.
        - destruct HBk as (M & EM & EB). rewrite EB in HBe. destruct HBe as (m & Em & EBm). exists m. split; auto.
          destruct (block_rank i j Ms k e Eb Hk He) as (M2 & m2 & E1 & E2 & E3). cbn in EM. rewrite E1 in EM. cbn in EM. assert (M2 = M) as -> by congruence.
          rewrite E2 in Em. cbn in Em. assert (m2 = m) as -> by congruence. auto.
        - rewrite HBk in HBe. auto. }
      destruct (glued_numbers gr cr phi e Hwr Wr Gr Hel) as [LR _]. destruct (glued_numbers gc cc psi e Hwc Wc Gc Hel') as [LC _].
      assert (BF : blocks_fit (widths gr e) (widths gc e) Be).
      { apply (Forall2_of_nth _ _ _ [] 0); [rewrite widths_length; congruence|]. intros i Hi. apply (Forall2_of_nth _ _ _ None 0).
        - rewrite widths_length. rewrite Forall_forall in LBe2. apply LBe2. now apply nth_In.
        - intros j Hj. specialize (HBe' i j). change (nth j (nth i Be []) None) with (nth_block Be i j). destruct (nth_block Be i j) as [m|] eqn:Em; auto.
          destruct (nth_block B i j) as [Ms|] eqn:Eb; [|congruence]. destruct HBe' as (m' & E1 & E2 & E3 & E4 & _). assert (m' = m) as -> by congruence.
          destruct (block_index i j Ms Eb) as [Hi2 Hj2]. rewrite !nth_widths by auto. auto. }
      destruct (sp_bmat_ok (widths gr e) (widths gc e) Be BF) as (m & Em & Hok & Hnr & Hnc & HV).
      { intros ->. cbn in LBe. destruct gr; [congruence|]. cbn in L1. lia. }
      { intros i Hi. rewrite widths_length in *. destruct (HR i Hi) as (j & Ms & Hj & Hb). specialize (HBe' i j). rewrite Hb in HBe'. destruct HBe' as (m & E1 & _).
        exists j, m. rewrite ?widths_length. auto. }
      { intros j Hj. rewrite widths_length in *. destruct (HC j Hj) as (i & Ms & Hi & Hb). specialize (HBe' i j). rewrite Hb in HBe'. destruct HBe' as (m & E1 & _).
        exists i, m. rewrite ?widths_length. auto. }
      exists Be, m. split; auto. split; auto. split; auto. split; [congruence|]. split; [congruence|]. intros i j a b Hi Hj Ha Hb.
      rewrite HV by (rewrite ?widths_length, ?nth_widths; auto). specialize (HBe' i j). destruct (nth_block B i j) as [Ms|].
      - destruct HBe' as (m' & -> & _ & _ & _ & Hv). symmetry. apply Hv.
      - now rewrite HBe'. }
    set (good := fun e m => sm_ok m /\ sm_nr m = length (numbers cr e) /\ sm_nc m = length (numbers cc e) /\
        forall i j a b, i < length gr -> j < length gc -> a < length (numbers (nth i gr []) e) -> b < length (numbers (nth j gc []) e) ->
          sm_at m (off (widths gr e) i + a) (off (widths gc e) j + b) = match nth_block B i j with Some Ms => mat_of Ms e a b | None => 0%Qc end) in E.
    destruct (obind_indexed cr (fun k g => match obind B (fun row => obind row (at_rank k)) with Some Bk => bmat_rank (keys g) Bk | None => None end)
      (fun k g M => keys M = keys g /\ forall e m, In (e, m) M -> good e m)) as (Mb & EMb & LMb & HMb).
    { intros k g Hg. assert (Hk : k < length cr) by (apply nth_error_Some; congruence). assert (Eg : nth k cr [] = g) by (now apply nth_error_nth).
      destruct (obind2_ok (at_rank k) B (length gc)) as (Bk & EBk & LBk & LBk2 & HBk); auto.
      { intros i j Ms Hb. destruct (HF i j Ms Hb) as (_ & _ & HK & _). destruct (block_index i j Ms Hb) as [Hi _].
        assert (Lg : length (nth i gr []) = length cr) by (eapply Forall2_len; apply Ar, nth_In; auto).
        assert (LM : length Ms = length cr) by (rewrite <- Lg, <- (map_length keys Ms), HK; apply map_length).
        exists (nth k Ms []). cbn. rewrite (nth_nth_error _ _ []) by lia. reflexivity. }
      rewrite EBk. unfold bmat_rank.
      assert (GE : forall e, In e (keys g) -> exists Be m, obind Bk (fun row => obind row (fun b => match b with None => Some None | Some M => option_map Some (nget M e) end)) = Some Be /\ sp_bmat Be = Some m /\ good e m).
      { intros e He. rewrite <- Eg in He. destruct (E k e Hk He Bk EBk LBk LBk2 HBk) as (Be & m & ? & ? & ?). exists Be, m. auto. }
      match goal with |- exists b, obind _ ?f = _ /\ _ => destruct (obind_ok f (keys g)) as [M EM] end.
      { intros e He. destruct (GE e He) as (Be & m & E1 & E2 & _). rewrite E1, E2. cbn. eauto. }
      exists M. split; auto. apply obind_forall2 in EM.
      assert (F2 : Forall2 (fun e (p : nat * smat) => fst p = e /\ good e (snd p)) (keys g) M).
      { apply nth_Forall2; [now apply (Forall2_len _ _ _ EM)|]. intros i e p He Hp.
        destruct (Forall2_nth_l _ _ _ i e EM He) as (p' & Hp' & E3). assert (p' = p) as -> by congruence.
        destruct (GE e) as (Be & m & E1 & E2 & E4); [eapply nth_error_In; eauto|]. rewrite E1, E2 in E3. cbn in E3. injection E3 as <-. auto. }
      clear -F2. split.
      - induction F2 as [|e p l l' [H1 H2] _ IH]; cbn; auto. rewrite H1. f_equal. auto.
      - intros e m Hin. apply In_nth_error in Hin as [i Hi]. destruct (Forall2_nth_r _ _ _ i _ F2 Hi) as (e' & He' & H1 & H2). cbn in *. now subst. }
    assert (HK : map keys Mb = map keys cr).
    { apply nth_error_list_ext. intros k. rewrite !nth_error_map. destruct (nth_error cr k) as [g|] eqn:Eg.
      - destruct (nth_error_len cr Mb k g (eq_sym LMb) Eg) as [M EM]. rewrite EM. cbn. f_equal. apply (HMb k g M Eg EM).
      - apply nth_error_None in Eg. assert (nth_error Mb k = None) as -> by (apply nth_error_None; lia). reflexivity. }
    assert (HG : forall e m, In (e, m) (concat Mb) -> good e m).
    { intros e m H. apply in_concat in H as (M & HM & H). apply In_nth_error in HM as [k HM]. destruct (nth_error_len Mb cr k M LMb HM) as [g Hg].
      apply (HMb k g M Hg HM); auto. }
    exists Mb. split; [exact EMb|]. split.
    - split; [auto|split; [auto|split; [auto|split; [now apply same_elements_keys|]]]]. intros e m H. destruct (HG e m H) as (? & ? & ? & _). auto.
    - intros e i j a b He Hi Hj Ha Hb. rewrite elements_keys, <- HK, <- keys_concat in He. apply (get_keys Nat.eqb Nat_eqb_spec) in He as [m Hm].
      unfold mat_of at 1. rewrite Hm. apply (get_in Nat.eqb Nat_eqb_spec) in Hm. apply HG in Hm. apply Hm; auto.
  Qed.

  Lemma bmat_entry Mb : (forall e i j a b, In e (elements cr) -> i < length gr -> j < length gc -> a < length (numbers (nth i gr []) e) -> b < length (numbers (nth j gc []) e) ->
      mat_of Mb e (off (widths gr e) i + a) (off (widths gc e) j + b) = match nth_block B i j with Some Ms => mat_of Ms e a b | None => 0%Qc end) ->
    fits cr cc Mb -> forall i j r c k k', denotes gr cr i r k -> denotes gc cc j c k' ->
      global_entry cr cc (mat_of Mb) k k' = match nth_block B i j with Some Ms => global_entry (nth i gr []) (nth j gc []) (mat_of Ms) r c | None => 0%Qc end.
  Proof.
    intros HL (_ & _ & _ & HE & _) i j r c k k' D1 D2. apply same_elements_keys in HE.
    destruct (chain_facts gr cr Hwr Hcr) as ((phi & Gr) & Wr & Ner & Ar). destruct (chain_facts gc cc Hwc Hcc) as ((psi & Gc) & Wc & Nec & Ac).
    apply (denotes_phi gr cr phi) in D1 as (Hi & Ur & ->); auto. apply (denotes_phi gc cc psi) in D2 as (Hj & Uc & ->); auto.
    unfold global_entry.
    transitivity (qsum (map (fun e => sumq (length (numbers (nth i gr []) e)) (fun a => sumq (length (numbers (nth j gc []) e)) (fun b =>
      if (nth a (numbers (nth i gr []) e) 0 =? r) && (nth b (numbers (nth j gc []) e) 0 =? c) then match nth_block B i j with Some Ms => mat_of Ms e a b | None => 0%Qc end else 0%Qc))) (elements cr))).
    - apply qsum_map_ext. intros e He. assert (He' : In e (elements cc)) by (now apply (agree_elements _ _ HE)).
      transitivity (sumq (length (numbers cr e)) (fun p => if nth p (numbers cr e) 0 =? phi i r then
        sumq (length (numbers cc e)) (fun q => if nth q (numbers cc e) 0 =? psi j c then mat_of Mb e p q else 0%Qc) else 0%Qc)).
      { apply sumq_ext. intros p _. destruct (_ =? phi i r); [reflexivity|]. apply sumq_zero. reflexivity. }
      rewrite (glued_sum gr cr phi e i r (fun p => sumq (length (numbers cc e)) (fun q => if nth q (numbers cc e) 0 =? psi j c then mat_of Mb e p q else 0%Qc))); auto.
      apply sumq_ext. intros a Ha. destruct (_ =? r); cbn [andb].
      + rewrite (glued_sum gc cc psi e j c); auto. apply sumq_ext. intros b Hb. destruct (_ =? c); auto.
      + symmetry. apply sumq_zero. reflexivity.
    - destruct (nth_block B i j) as [Ms|].
      + apply qsum_perm, Permutation_map, Permutation_sym, agree_perm; auto; [rewrite Forall_forall in Hwr; apply Hwr|apply Ar]; now apply nth_In.
      + apply qsum_map_zero. intros e _. apply sumq_zero. intros a _. apply sumq_zero. intros b _. now destruct (_ && _).
  Qed.
  Theorem bmat_assembled : exists Mb A, bmat cr B = Some Mb /\ assemble_matrix None cr cc Mb = Some A /\
    forall i j r c k k', denotes gr cr i r k -> denotes gc cc j c k' ->
      match nth_block B i j with
      | Some Ms => exists Aij, assemble_matrix None (nth i gr []) (nth j gc []) Ms = Some Aij /\ value_at A k k' = value_at Aij r c
      | None => value_at A k k' = 0%Qc
      end.
  Proof.
    destruct bmat_local as (Mb & E & Hf & HL). destruct (assemble_matrix_ok cr cc Mb Hf) as (A & EA & _ & HA & _). exists Mb, A. split; auto. split; auto.
    intros i j r c k k' D1 D2. rewrite HA, (bmat_entry Mb HL Hf i j r c k k' D1 D2). destruct (nth_block B i j) as [Ms|] eqn:Eb; auto.
    destruct HB as (_ & _ & HF & _). destruct (assemble_matrix_ok _ _ Ms (HF i j Ms Eb)) as (Aij & EAij & _ & HAij & _). exists Aij. split; auto.
  Qed.
End Bmat.
