From Coq Require Import ZArith List Arith Lia Bool.
From Verif Require Import NdArray LocalNumberingModel IncidenceModel Sums IncidenceSpec IncidenceProofs IncidenceThms.
Import ListNotations.

(** * node numbering of a triangle element *)
Lemma tri_S px py i j r : ln_m2n2k0_tri px py [S i; j] = Some r <->
  (i < px /\ j < py + 1 /\ r = 1 + (i + px * j)).
Proof.
  simpl. destruct (Nat.ltb_spec i px); [|split; [discriminate|lia]].
  destruct (Nat.ltb_spec j (py+1)); [|split; [discriminate|lia]].
  split; [intros [= <-]; nia|]. intros (_ & _ & ->). f_equal; nia.
Qed.
Lemma tri_O px py j r : ln_m2n2k0_tri px py [0; j] = Some r <-> (j < py + 1 /\ r = 0).
Proof.
  simpl. destruct (Nat.ltb_spec j (py+1)); [|split; [discriminate|lia]].
  split; [now intros [= <-]|]. now intros (_ & ->).
Qed.
Lemma tri_def px py i j : i <= px -> j <= py -> tri_node px py i j.
Proof.
  intros Hi Hj. destruct i as [|i].
  - exists 0. rewrite tri_O. lia.
  - exists (1 + (i + px * j)). rewrite tri_S. nia.
Qed.

(** same number iff same node of the collapsed grid *)
Lemma tri_inj px py i j i' j' r :
  ln_m2n2k0_tri px py [i; j] = Some r -> ln_m2n2k0_tri px py [i'; j'] = Some r ->
  (i = 0 /\ i' = 0) \/ (i = i' /\ j = j').
Proof.
  destruct i as [|i], i' as [|i']; rewrite ?tri_O, ?tri_S; intros H H'; auto; try lia.
  right. assert (i + px * j = i' + px * j') as E by lia.
  assert (j = j') by nia. subst. split; lia.
Qed.
Lemma tri_surj px py r : r < px * (py+1) + 1 -> exists i j, ln_m2n2k0_tri px py [i; j] = Some r.
Proof.
  intros H. destruct r as [|r].
  - exists 0, 0. apply tri_O. lia.
  - destruct (Nat.eq_dec px 0) as [->|Hp]; [simpl in H; lia|].
    exists (S (r mod px)), (r / px). apply tri_S.
    pose proof (Nat.div_mod r px Hp). pose proof (Nat.mod_upper_bound r px Hp).
    split; [lia|]. split; [|lia]. apply Nat.div_lt_upper_bound; nia.
Qed.
Lemma tri_range px py i j r : ln_m2n2k0_tri px py [i; j] = Some r -> r < px * (py+1) + 1.
Proof. destruct i; rewrite ?tri_O, ?tri_S; nia. Qed.

Lemma ln_outer_tri_eq px py :
  ln_m2n2k1_outer_tri px py = Some [mk_arr 0 [px; py]; mk_arr (px*py) [px; py+1]].
Proof. unfold ln_m2n2k1_outer_tri. rewrite ar0, ar_ok2 by (simpl; lia). reflexivity. Qed.
Lemma ln_inner_tri_eq px py :
  ln_m2n2k1_inner_tri px py = Some [mk_arr 0 [px; py+1]; mk_arr (px*(py+1)) [px; py]].
Proof. unfold ln_m2n2k1_inner_tri. rewrite ar0, ar_ok2 by (simpl; lia). reflexivity. Qed.

Ltac rw_tri := rewrite ?ln_outer_tri_eq, ?ln_inner_tri_eq, ?ln_m2n2k2_eq in *.

Lemma bij_outer_tri px py : numbering_bijective (ln_m2n2k1_outer_tri px py) (px*py + px*(py+1)).
Proof. rw_tri. apply consec_bijective; [consec_tac|unfold total, asize; simpl; lia]. Qed.
Lemma bij_inner_tri px py : numbering_bijective (ln_m2n2k1_inner_tri px py) (px*(py+1) + px*py).
Proof. rw_tri. apply consec_bijective; [consec_tac|unfold total, asize; simpl; lia]. Qed.

Local Open Scope Z_scope.

Lemma fill_tri_spec nr px py (d : list arr) bs :
  consec 0 d -> (total d <= nr)%nat ->
  (forall c b ix r, nth_error bs c = Some b -> num (Some d) c ix r ->
     Forall (fun t => fst (fst t) = 0%nat /\ exists i j, snd (fst t) = [i; j] /\ (i <= px)%nat /\ (j <= py)%nat) (b ix) /\
     NoDup (map (fun t => ln_m2n2k0_tri px py (snd (fst t))) (b ix))) ->
  exists E, fill nr (px*(py+1)+1) (map of_arr d) [tri0 px py] bs = Some E /\
   m_rows E = nr /\ m_cols E = (px*(py+1)+1)%nat /\
   forall x c b ix r, nth_error bs c = Some b -> num (Some d) c ix r ->
     matvec E x r = zsum (map (fun t => snd t *
        match snd (fst t) with [i; j] => tri_coef px py x i j | _ => 0 end) (b ix)).
Proof.
  intros Hd Htd Hb.
  destruct (fill_ok nr (px*(py+1)+1) (map of_arr d) [tri0 px py] bs) as (E & HE & Hr & Hc).
  { intros c sh look b ix H1 H2 H3. rewrite nth_error_map in H1.
    destruct (nth_error d c) as [a|] eqn:Ea; [|discriminate]. injection H1 as <- <-.
    apply in_indices_ravel in H3 as [q Hq].
    assert (aget a ix = Some (a_base a + q)%nat) as Hg by (unfold aget; now rewrite Hq).
    assert (num (Some d) c ix (a_base a + q)) as Hnum by (exists d, a; auto).
    exists (a_base a + q)%nat. split; auto. split.
    - pose proof (consec_range _ _ _ _ _ _ Hd Ea Hg). lia.
    - destruct (Hb c b ix _ H2 Hnum) as [Hf _]. eapply Forall_impl; [|exact Hf].
      intros [[c' ix'] v] (E1 & i & j & E2 & Hi & Hj); simpl in *. subst.
      destruct (tri_def px py i j Hi Hj) as (r & Hr & Hlt).
      exists r. split; auto. }
  exists E. repeat split; auto.
  intros x c b ix r Hbc Hnum. destruct (Hb c b ix r Hbc Hnum) as [Hf Hn].
  destruct Hnum as (? & a & [= <-] & Ha & Hg).
  rewrite (fill_action nr (px*(py+1)+1) (map of_arr d) [tri0 px py] bs E c (a_shape a) (aget a) b ix r x); auto.
  - apply zsum_map_ext. intros [[c' ix'] v] Hin. rewrite Forall_forall in Hf.
    destruct (Hf _ Hin) as (E1 & i & j & E2 & Hi & Hj). cbn [fst snd] in *. subst.
    destruct (tri_def px py i j Hi Hj) as (r' & Hr' & _).
    unfold tri_coef, tcol, col_of. cbn [nth_error fst snd tri0]. rewrite Hr'. reflexivity.
  - apply rows_inj_arr; auto.
  - rewrite nth_error_map, Ha. reflexivity.
  - apply in_indices_ravel. unfold aget in Hg. destruct (ravelF _ ix); eauto; discriminate.
  - assert (forall t, In t (b ix) -> Some (tcol [tri0 px py] t) = ln_m2n2k0_tri px py (snd (fst t))) as Ht.
    { intros [[c' ix'] v] Hin. rewrite Forall_forall in Hf.
      destruct (Hf _ Hin) as (E1 & i & j & E2 & Hi & Hj). cbn [fst snd] in *. subst.
      destruct (tri_def px py i j Hi Hj) as (r' & Hr' & _).
      unfold tcol, col_of. cbn [nth_error fst snd tri0]. rewrite Hr'. reflexivity. }
    assert (NoDup (map Some (map (tcol [tri0 px py]) (b ix)))) as Hs.
    { rewrite map_map. erewrite map_ext_in; [exact Hn|]. exact Ht. }
    apply NoDup_map_inv in Hs. exact Hs.
Qed.

Lemma num_fst_lt l c b I J i j r : nth_error l c = Some (mk_arr b [I; J]) ->
  num (Some l) c [i; j] r -> (i < I /\ j < J)%nat.
Proof.
  intros H Hn. apply (num2_iff _ _ _ _ _ _ _ H) in Hn as (? & ? & [= <- <-] & ? & ? & ?). auto.
Qed.

Ltac tri_nodup := simpl; constructor; [|constructor; [simpl; tauto|constructor]];
  simpl; intros [Hq|[]].

Lemma tri_neq_i px py i j : (i < px)%nat -> (j <= py)%nat ->
  ln_m2n2k0_tri px py [(i+1)%nat; j] <> ln_m2n2k0_tri px py [i; j].
Proof.
  intros Hi Hj H. destruct (tri_def px py i j) as (r & Hr & _); try lia. rewrite Hr in H.
  destruct (tri_inj _ _ _ _ _ _ _ H Hr); lia.
Qed.
Lemma tri_neq_j px py i j : (0 < i <= px)%nat -> (j < py)%nat ->
  ln_m2n2k0_tri px py [i; (j+1)%nat] <> ln_m2n2k0_tri px py [i; j].
Proof.
  intros Hi Hj H. destruct (tri_def px py i j) as (r & Hr & _); try lia. rewrite Hr in H.
  destruct (tri_inj _ _ _ _ _ _ _ H Hr); lia.
Qed.

Ltac tri_fill :=
  match goal with |- exists E, fill ?nr _ (map of_arr ?d) [tri0 ?px ?py] ?bs = Some E /\ _ =>
    let E := fresh "E" in
    destruct (fill_tri_spec nr px py d bs) as (E & HE & Hrw & Hcl & HA);
    [ consec_tac | unfold total, asize; simpl; nia
    | intros c b ix r Hb Hn; destruct c as [|[|[|c]]]; simpl in Hb; try discriminate Hb;
      injection Hb as <-; inv_num Hn; subst ix; cbn [b2 map fst snd];
      (split; [ repeat constructor; simpl; do 2 eexists; (split; [reflexivity|]); lia
              | constructor; [ intros [Hq|[]] | repeat constructor; intros [] ] ])
    | exists E; split; [exact HE|]; split; [exact Hrw|]; split; [exact Hcl|] ]
  end.

Ltac tri_act HA :=
  intros;
  let H := fresh in
  match goal with Hn : num (Some ?d) ?c ?ix ?r |- context [matvec _ ?x _] =>
    pose proof (HA x c _ ix r eq_refl Hn) as H; inv_num Hn
  end;
  repeat match goal with Hl : _ :: _ = _ :: _ |- _ => injection Hl; clear Hl; intros; subst end;
  repeat (split; [apply tri_def; lia|]); rewrite H; cbn [b2 map zsum fold_right fst snd]; lia.

(** ** outer: curl and divergence on triangles *)
Lemma act_tri_k0_outer px py : exists E, E_tri_k0_outer px py = Some E /\
  m_rows E = (px*py + px*(py+1))%nat /\ m_cols E = (px*(py+1)+1)%nat /\
  (forall x i j r, num (ln_m2n2k1_outer_tri px py) 0 [i; j] r ->
    tri_node px py (i+1) j /\ tri_node px py (i+1) (j+1) /\
    matvec E x r = tri_coef px py x (i+1) (j+1) - tri_coef px py x (i+1) j) /\
  (forall x i j r, num (ln_m2n2k1_outer_tri px py) 1 [i; j] r ->
    tri_node px py i j /\ tri_node px py (i+1) j /\
    matvec E x r = - (tri_coef px py x (i+1) j - tri_coef px py x i j)).
Proof.
  unfold E_tri_k0_outer. rw_tri. tri_fill.
  - apply (tri_neq_j px py) in Hq; lia.
  - apply (tri_neq_i px py) in Hq; lia.
  - split; tri_act HA.
Qed.

Lemma act_tri_k0_inner px py : (px <= py)%nat -> exists E, E_tri_k0_inner px py = Some E /\
  m_rows E = ((px+1)*py + px*py)%nat /\ m_cols E = (px*(py+1)+1)%nat /\
  (forall x i j r, num (ln_m2n2k1_inner_tri px py) 0 [i; j] r ->
    tri_node px py i j /\ tri_node px py (i+1) j /\
    matvec E x r = tri_coef px py x (i+1) j - tri_coef px py x i j) /\
  (forall x i j r, num (ln_m2n2k1_inner_tri px py) 1 [i; j] r ->
    tri_node px py (i+1) j /\ tri_node px py (i+1) (j+1) /\
    matvec E x r = tri_coef px py x (i+1) (j+1) - tri_coef px py x (i+1) j).
Proof.
  intros Hle. unfold E_tri_k0_inner. rw_tri. tri_fill.
  - apply (tri_neq_i px py) in Hq; lia.
  - apply (tri_neq_j px py) in Hq; lia.
  - split; tri_act HA.
Qed.

(** the x- edge of the first column of cells is collapsed: no contribution *)
Definition edge_left (x : nat -> Z) ln c i j : Z :=
  match i with O => 0 | S i' => coef x ln c [i'; j] end.

Lemma act_tri_k1_outer px py : exists E, E_tri_k1_outer px py = Some E /\
  m_rows E = (px*py)%nat /\ m_cols E = (px*py + px*(py+1))%nat /\
  forall x i j r, num (ln_m2n2k2 px py) 0 [i; j] r ->
    let ln := ln_m2n2k1_outer_tri px py in
    let v := coef x ln 1 in
    (forall i', i = S i' -> exists_dof ln 0 [i'; j]) /\ exists_dof ln 0 [i; j] /\
    exists_dof ln 1 [i; j] /\ exists_dof ln 1 [i; (j+1)%nat] /\
    matvec E x r = (coef x ln 0 [i; j] - edge_left x ln 0 i j) + (v [i; (j+1)%nat] - v [i; j]).
Proof.
  unfold E_tri_k1_outer, exists_dof. rw_tri. cbv zeta.
  match goal with |- exists E, fill_arr ?nr ?nc (Some ?d) (Some ?s) ?bs = Some E /\ _ =>
    destruct (fill_arr_spec nr nc d s bs) as (E & HE & Hr & Hc & HA) end;
    [ consec_tac | consec_tac | unfold total, asize; simpl; lia | unfold total, asize; simpl; lia | | ].
  - intros c b ix r Hb Hn. destruct c as [|[|c]]; simpl in Hb; try discriminate Hb.
    injection Hb as <-. inv_num Hn. subst ix. destruct x as [|i]; simpl; (split;
     [repeat constructor; simpl; exd|nodup]).
  - exists E. split; [exact HE|]. split; [exact Hr|]. split; [exact Hc|].
    intros. pose proof (HA x 0%nat _ [i; j] r eq_refl H) as HB. inv_num H.
    injection H as <- <-.
    split; [intros i' ->; exd|]. do 3 (split; [exd|]). rewrite HB.
    destruct i; cbn [b2 app map zsum fold_right fst snd edge_left]; lia.
Qed.

Lemma act_tri_k1_inner px py : (px <= py)%nat -> exists E, E_tri_k1_inner px py = Some E /\
  m_rows E = (px*py)%nat /\ m_cols E = ((px+1)*py + px*py)%nat /\
  forall x i j r, num (ln_m2n2k2 px py) 0 [i; j] r ->
    let ln := ln_m2n2k1_inner_tri px py in
    let u := coef x ln 0 in
    (forall i', i = S i' -> exists_dof ln 1 [i'; j]) /\ exists_dof ln 1 [i; j] /\
    exists_dof ln 0 [i; j] /\ exists_dof ln 0 [i; (j+1)%nat] /\
    matvec E x r = (coef x ln 1 [i; j] - edge_left x ln 1 i j) - (u [i; (j+1)%nat] - u [i; j]).
Proof.
  intros Hle. unfold E_tri_k1_inner, exists_dof. rw_tri. cbv zeta.
  match goal with |- exists E, fill_arr ?nr ?nc (Some ?d) (Some ?s) ?bs = Some E /\ _ =>
    destruct (fill_arr_spec nr nc d s bs) as (E & HE & Hr & Hc & HA) end;
    [ consec_tac | consec_tac | unfold total, asize; simpl; nia | unfold total, asize; simpl; nia | | ].
  - intros c b ix r Hb Hn. destruct c as [|[|c]]; simpl in Hb; try discriminate Hb.
    injection Hb as <-. inv_num Hn. subst ix. destruct x as [|i]; simpl; (split;
     [repeat constructor; simpl; exd|nodup]).
  - exists E. split; [exact HE|]. split; [exact Hr|]. split; [exact Hc|].
    intros. pose proof (HA x 0%nat _ [i; j] r eq_refl H) as HB. inv_num H.
    injection H as <- <-.
    split; [intros i' ->; exd|]. do 3 (split; [exd|]). rewrite HB.
    destruct i; cbn [b2 app map zsum fold_right fst snd edge_left]; lia.
Qed.

(** all nodes on the collapsed side are one node *)
Lemma tri_coef_O px py x j j' : (j <= py)%nat -> (j' <= py)%nat ->
  tri_coef px py x 0 j = tri_coef px py x 0 j'.
Proof.
  intros H H'. unfold tri_coef. simpl.
  destruct (Nat.ltb_spec j (py+1)); [|lia]. destruct (Nat.ltb_spec j' (py+1)); [|lia]. reflexivity.
Qed.

Lemma dd_tri_outer px py E0 E1 :
  E_tri_k0_outer px py = Some E0 -> E_tri_k1_outer px py = Some E1 -> annihilates E1 E0.
Proof.
  intros H0 H1.
  destruct (act_tri_k0_outer px py) as (E0' & H0' & Hr0 & Hc0 & Hu & Hv). rewrite H0 in H0'.
  injection H0' as <-.
  destruct (act_tri_k1_outer px py) as (E1' & H1' & Hr1 & Hc1 & Hw). rewrite H1 in H1'.
  injection H1' as <-.
  apply annih_intro; [congruence|]. intros x r Hr. rewrite Hr1 in Hr.
  destruct (bij_m2n2k2 px py) as (_ & _ & Hs). destruct (Hs r Hr) as (c & ix & Hn).
  assert (exists i j, c = 0%nat /\ ix = [i; j] /\ (i < px)%nat /\ (j < py)%nat) as (i & j & -> & -> & Hi & Hj).
  { clear - Hn. rw_tri. destruct c as [|c]; [inv_num Hn; eauto 8|].
    destruct Hn as (? & ? & [= <-] & Hn & _). destruct c; discriminate Hn. }
  destruct (Hw (matvec E0 x) i j r Hn) as (Hl & [b Hb] & [d Hd] & [e He] & ->).
  rewrite (coef_num _ _ _ _ _ Hb), (coef_num _ _ _ _ _ Hd), (coef_num _ _ _ _ _ He).
  destruct (Hu x _ _ _ Hb) as (_ & _ & ->).
  destruct (Hv x _ _ _ Hd) as (_ & _ & ->). destruct (Hv x _ _ _ He) as (_ & _ & ->).
  destruct i as [|i]; cbn [edge_left].
  - rewrite (tri_coef_O px py x (j+1) j) by lia. lia.
  - destruct (Hl i eq_refl) as [a Ha]. rewrite (coef_num _ _ _ _ _ Ha).
    destruct (Hu x _ _ _ Ha) as (_ & _ & ->). rewrite (Nat.add_1_r i). lia.
Qed.

Lemma dd_tri_inner px py E0 E1 : (px <= py)%nat ->
  E_tri_k0_inner px py = Some E0 -> E_tri_k1_inner px py = Some E1 -> annihilates E1 E0.
Proof.
  intros Hle H0 H1.
  destruct (act_tri_k0_inner px py Hle) as (E0' & H0' & Hr0 & Hc0 & Hu & Hv). rewrite H0 in H0'.
  injection H0' as <-.
  destruct (act_tri_k1_inner px py Hle) as (E1' & H1' & Hr1 & Hc1 & Hw). rewrite H1 in H1'.
  injection H1' as <-.
  apply annih_intro; [congruence|]. intros x r Hr. rewrite Hr1 in Hr.
  destruct (bij_m2n2k2 px py) as (_ & _ & Hs). destruct (Hs r Hr) as (c & ix & Hn).
  assert (exists i j, c = 0%nat /\ ix = [i; j] /\ (i < px)%nat /\ (j < py)%nat) as (i & j & -> & -> & Hi & Hj).
  { clear - Hn. rw_tri. destruct c as [|c]; [inv_num Hn; eauto 8|].
    destruct Hn as (? & ? & [= <-] & Hn & _). destruct c; discriminate Hn. }
  destruct (Hw (matvec E0 x) i j r Hn) as (Hl & [b Hb] & [d Hd] & [e He] & ->).
  rewrite (coef_num _ _ _ _ _ Hb), (coef_num _ _ _ _ _ Hd), (coef_num _ _ _ _ _ He).
  destruct (Hv x _ _ _ Hb) as (_ & _ & ->).
  destruct (Hu x _ _ _ Hd) as (_ & _ & ->). destruct (Hu x _ _ _ He) as (_ & _ & ->).
  destruct i as [|i]; cbn [edge_left].
  - rewrite (tri_coef_O px py x (j+1) j) by lia. lia.
  - destruct (Hl i eq_refl) as [a Ha]. rewrite (coef_num _ _ _ _ _ Ha).
    destruct (Hv x _ _ _ Ha) as (_ & _ & ->). rewrite (Nat.add_1_r i). lia.
Qed.

(** the inner triangle matrices cannot be built when px > py *)
Lemma mapM_none {A B} (f : A -> option B) l a : In a l -> f a = None -> mapM f l = None.
Proof.
  induction l as [|b l IH]; simpl; [tauto|]. intros [->|H] Hf.
  - now rewrite Hf.
  - rewrite (IH H Hf). destruct (f b); auto.
Qed.

Lemma fill_fails nr nc dn sn bs c sh look b ix t :
  nth_error dn c = Some (sh, look) -> nth_error bs c = Some b -> In ix (indices sh) ->
  In t (b ix) -> (forall r, look ix = Some r -> do_term nr nc sn r t = None) ->
  fill nr nc dn sn bs = None.
Proof.
  intros Hc Hb Hix Ht Hf. unfold fill.
  enough (mapM (do_comp nr nc sn) (combine dn bs) = None) as H
    by (unfold comp, body in *; now rewrite H).
  apply (mapM_none _ _ ((sh, look), b)).
  - clear - Hc Hb. revert dn bs Hc Hb. induction c as [|c IH]; intros [|d dn] [|b' bs]; simpl; try discriminate.
    + intros [= ->] [= ->]. auto.
    + intros. right. eauto.
  - unfold do_comp. rewrite (mapM_none _ _ ix); auto.
    unfold do_cell. destruct (look ix) as [r|]; auto. apply (mapM_none _ _ t); auto.
Qed.

Lemma do_term_row nr nc sn r t : (nr <= r)%nat -> do_term nr nc sn r t = None.
Proof.
  intros H. unfold do_term. destruct t as [[c ix] v]. destruct (nth_error sn c) as [[sh look]|]; auto.
  destruct (look ix); auto. apply Nat.ltb_ge in H. now rewrite H.
Qed.

Lemma tri_k0_inner_fails px py : (py < px)%nat -> E_tri_k0_inner px py = None.
Proof.
  intros H. unfold E_tri_k0_inner. rw_tri.
  destruct py as [|py].
  - apply (fill_fails _ _ _ _ _ 0 [px; (0+1)%nat] (aget (mk_arr 0 [px; (0+1)%nat])) (b2 (fun i j : nat => [(0%nat, [i; j], -1); (0%nat, [(i + 1)%nat; j], 1)]))
       [0; 0]%nat (0%nat, [0; 0]%nat, -1)); auto.
    + apply in_indices_ravel. simpl. destruct (Nat.ltb_spec 0 px); [eauto|lia].
    + simpl; auto.
    + intros r _. apply do_term_row. lia.
  - apply (fill_fails _ _ _ _ _ 1 [px; S py] (aget (mk_arr (px*(S py+1)) [px; S py])) (b2 (fun i j : nat => [(0%nat, [(i+1)%nat; j], -1); (0%nat, [(i + 1)%nat; (j+1)%nat], 1)]))
       [px-1; py]%nat (0%nat, [px-1+1; py]%nat, -1)); auto.
    + apply in_indices_ravel. cbn [ravelF].
      replace (px - 1 <? px)%nat with true by (symmetry; apply Nat.ltb_lt; lia).
      replace (py <? S py)%nat with true by (symmetry; apply Nat.ltb_lt; lia). eauto.
    + simpl; auto.
    + intros r Hr. apply do_term_row. revert Hr. unfold aget. cbn [ravelF a_shape a_base].
      replace (px - 1 <? px)%nat with true by (symmetry; apply Nat.ltb_lt; lia).
      replace (py <? S py)%nat with true by (symmetry; apply Nat.ltb_lt; lia).
      intros [= <-]. nia.
Qed.

(** for px < py the matrix has rows that belong to no basis function *)
Lemma tri_k0_inner_extra_rows px py E : (px < py)%nat -> E_tri_k0_inner px py = Some E ->
  exists r, (r < m_rows E)%nat /\ forall c ix, ~ num (ln_m2n2k1_inner_tri px py) c ix r.
Proof.
  intros Hlt HE. destruct (act_tri_k0_inner px py) as (E' & HE' & Hr & _); [lia|].
  rewrite HE in HE'. injection HE' as <-.
  exists (px*(py+1) + px*py)%nat. split; [rewrite Hr; nia|].
  intros c ix Hn. destruct (bij_inner_tri px py) as (Hb & _). apply Hb in Hn. lia.
Qed.

(** * reversed faces *)
Lemma reverse_rows_val fs E r c :
  reverse_rows fs E r c = (if reversed fs r then -1 else 1) * E r c.
Proof.
  unfold reverse_rows, reversed.
  assert (forall acc b, acc = (if b : bool then -1 else 1) * E r c ->
    fold_left (fun acc f => if inb r f then -1 * E r c else acc) fs acc =
    (if b || existsb (inb r) fs then -1 else 1) * E r c) as H.
  { induction fs as [|f fs IH]; intros acc b Hb; cbn [fold_left existsb].
    - rewrite orb_false_r. exact Hb.
    - destruct (inb r f); cbn [orb].
      + rewrite (IH _ true) by reflexivity. rewrite orb_true_r. reflexivity.
      + rewrite (IH _ b) by exact Hb. reflexivity. }
  rewrite (H (E r c) false) by lia. reflexivity.
Qed.
Lemma reverse_cols_val fs E r c :
  reverse_cols fs E r c = (if reversed fs c then -1 else 1) * E r c.
Proof.
  unfold reverse_cols, reversed.
  assert (forall acc b, acc = (if b : bool then -1 else 1) * E r c ->
    fold_left (fun acc f => if inb c f then -1 * E r c else acc) fs acc =
    (if b || existsb (inb c) fs then -1 else 1) * E r c) as H.
  { induction fs as [|f fs IH]; intros acc b Hb; cbn [fold_left existsb].
    - rewrite orb_false_r. exact Hb.
    - destruct (inb c f); cbn [orb].
      + rewrite (IH _ true) by reflexivity. rewrite orb_true_r. reflexivity.
      + rewrite (IH _ b) by exact Hb. reflexivity. }
  rewrite (H (E r c) false) by lia. reflexivity.
Qed.

Lemma reverse_product n fs E1 E0 r c :
  fmatmul n (reverse_cols fs E1) (reverse_rows fs E0) r c = fmatmul n E1 E0 r c.
Proof.
  unfold fmatmul. apply sumn_ext. intros m _.
  rewrite reverse_rows_val, reverse_cols_val. destruct (reversed fs m); lia.
Qed.

Lemma reverse_annihilates fs E1 E0 r c : annihilates E1 E0 ->
  (r < m_rows E1)%nat -> (c < m_cols E0)%nat ->
  fmatmul (m_cols E1) (reverse_cols fs (entry E1)) (reverse_rows fs (entry E0)) r c = 0.
Proof. intros [_ H] Hr Hc. rewrite reverse_product. apply H; auto. Qed.
