From Coq Require Import List Arith Lia Bool.
From Verif Require Import NdArray IncidenceModel IncidenceSpec IncidenceProofs MeshModel MeshSpec.
Import ListNotations.

(** * numbering *)
Lemma gen_numbering_spec diss cur :
  exists arrs, gen_numbering cur diss = Some (arrs, cur + total arrs, map a_base arrs) /\
    map a_shape arrs = diss /\ consec cur arrs.
Proof.
  revert cur; induction diss as [|dis diss IH]; intros cur; simpl.
  - exists []. simpl. rewrite Nat.add_0_r. auto.
  - destruct (IH (cur + prodl dis)) as (arrs & E & Hs & Hc).
    rewrite arange_reshape_ok by reflexivity. rewrite E.
    exists (mk_arr cur dis :: arrs). simpl. split; [|split; [now rewrite Hs|split; auto]].
    unfold asize; simpl. now rewrite Nat.add_assoc.
Qed.

Lemma map_asize arrs : map asize arrs = map prodl (map a_shape arrs).
Proof. rewrite map_map. reflexivity. Qed.

Lemma total_sum arrs : total arrs = fold_right Nat.add 0 (map prodl (map a_shape arrs)).
Proof. induction arrs; simpl; auto. Qed.

Lemma num_element_number arrs R I e : consec 0 arrs ->
  (num (Some arrs) R I e <-> element_number (map a_shape arrs) R I e).
Proof.
  intros Hc. unfold num, element_number. split.
  - intros (l & a & [= <-] & Ha & Hg). exists (a_shape a).
    unfold aget in Hg. destruct (ravelF (a_shape a) I) as [r|] eqn:E; [|discriminate].
    injection Hg as <-. exists r. rewrite nth_error_map, Ha. repeat split; auto.
    rewrite (consec_block _ _ _ _ Hc Ha), map_asize. reflexivity.
  - intros (dis & r & Hd & Hr & ->). rewrite nth_error_map in Hd.
    destruct (nth_error arrs R) as [a|] eqn:Ha; [|discriminate]. injection Hd as <-.
    exists arrs, a. repeat split; auto. unfold aget. rewrite Hr.
    rewrite (consec_block _ _ _ _ Hc Ha), map_asize. reflexivity.
Qed.

Lemma element_number_bij diss :
  (forall R I e, element_number diss R I e -> e < num_elements diss) /\
  (forall R I R' I' e, element_number diss R I e -> element_number diss R' I' e -> R = R' /\ I = I') /\
  (forall e, e < num_elements diss -> exists R I, element_number diss R I e).
Proof.
  destruct (gen_numbering_spec diss 0) as (arrs & _ & <- & Hc).
  pose proof (consec_bijective arrs _ Hc eq_refl) as (H1 & H2 & H3).
  unfold num_elements. rewrite <- total_sum. repeat split.
  - intros R I e H. apply num_element_number in H; eauto.
  - apply num_element_number in H, H0; auto. eapply H2; eauto.
  - apply num_element_number in H, H0; auto. eapply H2; eauto.
  - intros e He. destruct (H3 e He) as (R & I & H). exists R, I. now apply num_element_number.
Qed.

(** * find_element *)
Lemma ravelF_app s t I J r q :
  ravelF s I = Some r -> ravelF t J = Some q -> ravelF (s ++ t) (I ++ J) = Some (r + prodl s * q).
Proof.
  revert I r; induction s as [|n s IH]; intros [|i I] r; simpl; try discriminate.
  - intros [= <-] H. rewrite H. f_equal; lia.
  - destruct (i <? n); [|discriminate]. destruct (ravelF s I) as [r'|] eqn:E; [|discriminate].
    intros [= <-] H. rewrite (IH _ _ E H). f_equal. lia.
Qed.

Lemma prodl_app s t : prodl (s ++ t) = prodl s * prodl t.
Proof. induction s; simpl; [lia|]. rewrite IHs. lia. Qed.

Lemma firstn_snoc {A} (l : list A) n d : nth_error l n = Some d -> firstn (S n) l = firstn n l ++ [d].
Proof.
  revert n; induction l as [|a l IH]; intros [|n]; try discriminate.
  - now intros [= ->].
  - intros H. change (firstn (S (S n)) (a :: l)) with (a :: firstn (S n) l). now rewrite (IH _ H).
Qed.

Lemma idx_loop_spec dis n : n < length dis -> forall ln tl, ln < prodl (firstn (S n) dis) ->
  exists I, idx_loop dis n ln tl = I ++ tl /\ ravelF (firstn (S n) dis) I = Some ln.
Proof.
  induction n as [|n IH]; intros Hn ln tl Hl.
  - destruct dis as [|d dis]; [simpl in Hn; lia|]. simpl in *. exists [ln]. split; auto. simpl.
    destruct (Nat.ltb_spec ln d); [f_equal; lia|lia].
  - cbn [idx_loop]. set (layer := prodl (firstn (S n) dis)) in *.
    destruct (nth_error dis (S n)) as [d|] eqn:Ed; [|apply nth_error_None in Ed; lia].
    rewrite (firstn_snoc _ _ _ Ed), prodl_app in *. fold layer in Hl. simpl in Hl.
    assert (layer <> 0) as Hnz by nia.
    destruct (IH ltac:(lia) (ln mod layer) (ln / layer :: tl)) as (I & HI & Hr).
    { fold layer. now apply Nat.mod_upper_bound. }
    exists (I ++ [ln / layer]). rewrite HI, <- app_assoc. split; auto.
    assert (ln / layer < d) as Hd by (apply Nat.div_lt_upper_bound; nia).
    apply Nat.ltb_lt in Hd.
    rewrite (ravelF_app _ _ _ _ (ln mod layer) (ln / layer)); auto.
    + fold layer. f_equal. pose proof (Nat.div_mod ln layer Hnz). lia.
    + simpl. rewrite Hd. f_equal; lia.
Qed.

Lemma find_region_spec arrs cur j i :
  consec cur arrs -> arrs <> [] -> cur <= i < cur + total arrs ->
  exists k a, find_region j (j + length arrs) (map a_base arrs) i = Some (j + k) /\
    nth_error arrs k = Some a /\ a_base a <= i < a_base a + asize a.
Proof.
  revert cur j; induction arrs as [|a arrs IH]; intros cur j; [congruence|].
  intros [Hb Hc] _ Hi. cbn [map find_region length].
  destruct arrs as [|a' arrs].
  - rewrite Nat.add_1_r, Nat.eqb_refl. exists 0, a. rewrite Nat.add_0_r.
    simpl in *. repeat split; auto; lia.
  - replace (S j =? j + S (length (a' :: arrs))) with false by (symmetry; apply Nat.eqb_neq; simpl; lia).
    cbn [map]. pose proof Hc as Hc'. simpl in Hc'. destruct Hc' as [Ha' _].
    destruct (Nat.leb_spec (a_base a) i) as [_|H]; [|lia].
    destruct (Nat.ltb_spec i (a_base a')) as [H|H]; cbn [andb].
    + exists 0, a. rewrite Nat.add_0_r. split; auto. split; auto. split; [lia|]. change (a_base a' = cur + asize a) in Ha'. lia.
    + destruct (IH (cur + asize a) (S j) Hc) as (k & b & Hk & Hb' & Hr); [congruence| |].
      * simpl in *. lia.
      * exists (S k), b. replace (j + S (length (a' :: arrs))) with (S j + length (a' :: arrs)) by lia.
        replace (j + S k) with (S j + k) by lia. split; [exact Hk|]. split; auto.
Qed.

Lemma find_element_spec diss i R I : Forall (fun dis => dis <> []) diss ->
  (find_element diss i = Some (R, I) <-> element_number diss R I i).
Proof.
  intros Hne. pose proof (element_number_bij diss) as (B1 & B2 & B3).
  assert (forall e, e < num_elements diss -> exists R I, find_element diss e = Some (R, I) /\ element_number diss R I e) as Hf.
  { intros e He. unfold find_element.
    destruct (gen_numbering_spec diss 0) as (arrs & E & Hs & Hc). rewrite E. simpl.
    assert (total arrs = num_elements diss) as Ht by (unfold num_elements; rewrite <- Hs; apply total_sum).
    rewrite Ht. apply Nat.ltb_lt in He as He'. rewrite He'.
    destruct (find_region_spec arrs 0 0 e Hc) as (k & a & Hk & Ha & Hr).
    { intros ->. simpl in Ht. lia. } { simpl. lia. }
    simpl in Hk. replace (length diss) with (length arrs) by (rewrite <- Hs; now rewrite map_length).
    rewrite Hk, nth_error_map, Ha. simpl.
    assert (nth_error diss k = Some (a_shape a)) as Hd by (rewrite <- Hs, nth_error_map, Ha; auto).
    rewrite Hd.
    assert (a_shape a <> []) as Hna.
    { rewrite Forall_forall in Hne. apply Hne. eapply nth_error_In; eauto. }
    destruct (idx_loop_spec (a_shape a) (length (a_shape a) - 1)) with (ln := e - a_base a) (tl := @nil nat) as (I' & HI & HrI).
    { destruct (a_shape a); simpl; [congruence|lia]. }
    { replace (S (length (a_shape a) - 1)) with (length (a_shape a)) by (destruct (a_shape a); simpl; [congruence|lia]).
      rewrite firstn_all. unfold asize in Hr. lia. }
    replace (S (length (a_shape a) - 1)) with (length (a_shape a)) in HrI by (destruct (a_shape a); simpl; [congruence|lia]).
    rewrite firstn_all in HrI. rewrite app_nil_r in HI. exists k, I'. split; [now rewrite HI|].
    rewrite <- Hs. apply num_element_number; auto. exists arrs, a. repeat split; auto.
    unfold aget. rewrite HrI. f_equal. lia. }
  split.
  - intros H. assert (i < num_elements diss) as Hi.
    { unfold find_element in H. destruct (gen_numbering_spec diss 0) as (arrs & E & Hs & Hc). rewrite E in H.
      simpl in H. destruct (Nat.ltb_spec i (total arrs)); [|discriminate].
      unfold num_elements. rewrite <- Hs, <- total_sum. auto. }
    destruct (Hf i Hi) as (R' & I' & H' & Hn). rewrite H in H'. now injection H' as <- <-.
  - intros H. destruct (Hf i (B1 _ _ _ H)) as (R' & I' & H' & Hn).
    destruct (B2 _ _ _ _ _ H Hn) as [<- <-]. auto.
Qed.

Lemma find_element_out diss i : num_elements diss <= i -> find_element diss i = None.
Proof.
  intros H. unfold find_element. destruct (gen_numbering_spec diss 0) as (arrs & E & Hs & Hc). rewrite E. simpl.
  unfold num_elements in H. rewrite <- Hs, <- total_sum in H. apply Nat.ltb_ge in H. now rewrite H.
Qed.

(** * slices *)
Lemma mapM_in {A B} (f : A -> option B) l s b :
  mapM f l = Some s -> (In b s <-> exists a, In a l /\ f a = Some b).
Proof.
  intros H. apply mapM_some in H. induction H as [|a b' l s H1 H2 IH]; simpl.
  - split; [tauto|intros (a & [] & _)].
  - rewrite IH. split.
    + intros [->|(a' & H & H')]; eauto.
    + intros (a' & [->|H] & H'); [left; congruence|right; eauto].
Qed.

Lemma mapM_each {A B} (f : A -> option B) l s a : mapM f l = Some s -> In a l -> exists b, f a = Some b.
Proof.
  intros H. apply mapM_some in H. induction H; simpl; [tauto|]. intros [->|?]; eauto.
Qed.

Lemma insert_ravel sh ax l ix n :
  nth_error sh ax = Some n -> l < n -> In ix (indices (remove_at ax sh)) ->
  exists r, ravelF sh (insert_at ax l ix) = Some r.
Proof.
  rewrite in_indices_ravel. revert ax ix; induction sh as [|m sh IH]; intros [|ax] ix; simpl; try discriminate.
  - intros [= ->] Hl [r Hr]. apply Nat.ltb_lt in Hl. rewrite Hl, Hr. eauto.
  - intros Hn Hl. destruct ix as [|i ix]; [intros [r Hr]; discriminate|].
    destruct (i <? m) eqn:E; [|intros [r Hr]; discriminate]. intros [r Hr].
    destruct (ravelF (remove_at ax sh) ix) as [q|] eqn:Q; [|discriminate].
    destruct (IH ax ix Hn Hl) as [q' Hq']; [eauto|]. simpl. rewrite ?E, Hq'. eauto.
Qed.

Lemma ravel_split sh ax I r n :
  ravelF sh I = Some r -> nth_error sh ax = Some n ->
  exists l ix, I = insert_at ax l ix /\ l < n /\ In ix (indices (remove_at ax sh)) /\ nth_error I ax = Some l
    /\ forall v, set_at ax v I = insert_at ax v ix.
Proof.
  revert ax I r; induction sh as [|m sh IH]; intros [|ax] [|i I] r; simpl; try discriminate.
  - destruct (Nat.ltb_spec i m); [|discriminate]. destruct (ravelF sh I) as [q|] eqn:Q; [|discriminate].
    intros _ [= <-]. exists i, I. repeat split; auto. apply in_indices_ravel; eauto.
  - destruct (Nat.ltb_spec i m) as [Hi|]; [|discriminate]. destruct (ravelF sh I) as [q|] eqn:Q; [|discriminate].
    intros _ Hn. destruct (IH ax I q Q Hn) as (l & ix & -> & Hl & Hix & Hnth & Hset).
    exists l, (i :: ix). simpl. repeat split; auto.
    + apply in_indices_ravel in Hix as [q' Hq']. change (In (i :: ix) (indices (m :: remove_at ax sh))). apply in_indices_ravel. simpl.
      apply Nat.ltb_lt in Hi. rewrite Hi, Hq'. eauto.
    + intros v. now rewrite Hset.
Qed.

Lemma insert_at_inj ax l l' (ix ix' : list nat) :
  length ix = length ix' -> insert_at ax l ix = insert_at ax l' ix' -> l = l' /\ ix = ix'.
Proof.
  revert ix ix'; induction ax as [|ax IH]; intros [|i ix] [|i' ix']; simpl; try discriminate.
  - intros _ H. now injection H as ->.
  - intros _ H. now injection H as -> -> ->.
  - intros _ H. now injection H as ->.
  - intros Hl H. injection H as -> H. destruct (IH ix ix' ltac:(lia) H) as [-> ->]. auto.
Qed.

Lemma indices_length sh ix : In ix (indices sh) -> length ix = length sh.
Proof.
  rewrite in_indices_ravel. revert ix; induction sh as [|m sh IH]; intros [|i ix] [r Hr]; simpl in *; try discriminate; auto.
  destruct (i <? m); [|discriminate]. destruct (ravelF sh ix) eqn:E; [|discriminate]. f_equal; eauto.
Qed.

Lemma take_some a ax l t :
  take a ax l = Some t <-> exists n, nth_error (a_shape a) ax = Some n /\ l < n /\
     t = (remove_at ax (a_shape a), fun ix => aget a (insert_at ax l ix)).
Proof.
  unfold take. destruct (nth_error (a_shape a) ax) as [n|]; [|split; [discriminate|intros (n & [=] & _)]].
  destruct (Nat.ltb_spec l n).
  - split; [intros [= <-]; eauto|]. intros (n' & [= <-] & _ & ->). reflexivity.
  - split; [discriminate|intros (n' & [= <-] & ? & _); lia].
Qed.

Lemma take_last_some a ax t :
  take_last a ax = Some t <-> exists n, nth_error (a_shape a) ax = Some (S n) /\
     t = (remove_at ax (a_shape a), fun ix => aget a (insert_at ax n ix)).
Proof.
  unfold take_last. destruct (nth_error (a_shape a) ax) as [[|n]|] eqn:E.
  - split; [discriminate|intros (n & [=] & _)].
  - rewrite take_some. split.
    + intros (n' & H & _ & ->). rewrite E in H. injection H as <-. eauto.
    + intros (n' & [= <-] & ->). exists (S n). repeat split; auto.
  - split; [discriminate|intros (n & [=] & _)].
Qed.

Lemma bcast_compat s t ix ix' : bcast s t ix = Some ix' -> Forall2 (fun a b => a = b \/ a = 1) s t.
Proof.
  revert t ix ix'; induction s as [|a s IH]; intros [|b t] [|i ix] ix'; simpl; try discriminate.
  - constructor.
  - destruct (bcast s t ix) eqn:E; [|discriminate]. intros H. constructor; eauto.
    destruct (Nat.eqb_spec a b); auto. destruct (Nat.eqb_spec a 1); auto. discriminate.
Qed.
Lemma bcast_refl s ix : length ix = length s -> bcast s s ix = Some ix.
Proof.
  revert ix; induction s as [|a s IH]; intros [|i ix]; simpl; try discriminate; auto.
  intros [= H]. rewrite (IH _ H), Nat.eqb_refl. reflexivity.
Qed.
Lemma compat_antisym s t : Forall2 (fun a b => a = b \/ a = 1) s t ->
  Forall2 (fun a b => a = b \/ a = 1) t s -> s = t.
Proof.
  induction 1 as [|a b s t H1 H2 IH]; intros H; inversion H; subst; auto.
  f_equal; [lia|auto].
Qed.

Lemma assign_in tgt src col ws e c v :
  assign_col tgt src col = Some ws ->
  (In (e, c, v) ws <-> c = col /\ exists ix ix', In ix (indices (fst tgt)) /\ snd tgt ix = Some e /\
      bcast (fst src) (fst tgt) ix = Some ix' /\ snd src ix' = Some v).
Proof.
  intros H. unfold assign_col in H. rewrite (mapM_in _ _ _ _ H). split.
  - intros (ix & Hix & E). destruct (snd tgt ix) as [e'|] eqn:E1; [|discriminate].
    destruct (bcast _ _ _) as [ix'|] eqn:E2; [|discriminate].
    destruct (snd src ix') as [v'|] eqn:E3; [|discriminate]. injection E as <- <- <-. eauto 8.
  - intros (-> & ix & ix' & Hix & E1 & E2 & E3). exists ix. split; auto. now rewrite E1, E2, E3.
Qed.

Lemma assign_compat tgt src col ws : assign_col tgt src col = Some ws ->
  indices (fst tgt) <> [] -> Forall2 (fun a b => a = b \/ a = 1) (fst src) (fst tgt).
Proof.
  intros H Hne. destruct (indices (fst tgt)) as [|ix l] eqn:E; [congruence|].
  assert (In ix (indices (fst tgt))) as Hin by (rewrite E; simpl; auto).
  destruct (mapM_each _ _ _ ix H Hin) as [w Hw].
  destruct (snd tgt ix); [|discriminate]. destruct (bcast _ _ _) eqn:E2; [|discriminate].
  eapply bcast_compat; eauto.
Qed.

Lemma in_combine_seq {A} (l : list A) i a s :
  In (i, a) (combine (seq s (length l)) l) <-> s <= i /\ nth_error l (i - s) = Some a.
Proof.
  revert s; induction l as [|b l IH]; intros s; simpl.
  - split; [tauto|]. intros [_ H]. destruct (i - s); discriminate.
  - rewrite IH. split.
    + intros [[= <- <-]|[H1 H2]].
      * rewrite Nat.sub_diag. simpl. auto.
      * split; [lia|]. replace (i - s) with (S (i - S s)) by lia. auto.
    + intros [H1 H2]. destruct (Nat.eq_dec s i) as [->|Hne].
      * rewrite Nat.sub_diag in H2. simpl in H2. left. congruence.
      * right. split; [lia|]. replace (i - s) with (S (i - S s)) in H2 by lia. auto.
Qed.

Lemma in_layers ndim arrs i ax l :
  In (i, ax, l) (layers ndim arrs) <-> exists a, nth_error arrs i = Some a /\ ax < ndim /\ l < nth ax (a_shape a) 0.
Proof.
  unfold layers. rewrite in_flat_map. split.
  - intros ([i' a] & H1 & H2). apply in_combine_seq in H1 as [_ H1]. rewrite Nat.sub_0_r in H1.
    apply in_flat_map in H2 as (ax' & H2 & H3). apply in_map_iff in H3 as (l' & [= <- <- <-] & H3).
    apply in_seq in H2, H3. exists a. simpl in *. repeat split; auto; lia.
  - intros (a & Ha & Hax & Hl). exists (i, a). split.
    + apply in_combine_seq. rewrite Nat.sub_0_r. split; [lia|auto].
    + apply in_flat_map. exists ax. split; [apply in_seq; lia|]. apply in_map_iff. exists l. split; auto.
      apply in_seq. simpl. lia.
Qed.

Lemma do_layer_some arrs M i ax l w :
  do_layer arrs M i ax l = Some w -> exists a tgt m p wm wp,
    nth_error arrs i = Some a /\ take a ax l = Some tgt /\
    side_slice arrs M i ax l 0 a = Some m /\ side_slice arrs M i ax l 1 a = Some p /\
    assign_opt tgt m (2 * ax) = Some wm /\ assign_opt tgt p (2 * ax + 1) = Some wp /\ w = wm ++ wp.
Proof.
  unfold do_layer. destruct (nth_error arrs i) as [a|] eqn:E0; [|discriminate].
  destruct (take a ax l) as [tgt|] eqn:E3; [|discriminate].
  destruct (side_slice arrs M i ax l 0 a) as [m|] eqn:E4; [|discriminate].
  destruct (side_slice arrs M i ax l 1 a) as [p|] eqn:E5; [|discriminate].
  destruct (assign_opt tgt m _) as [wm|] eqn:E1; [|discriminate].
  destruct (assign_opt tgt p _) as [wp|] eqn:E2; [|discriminate].
  intros [= <-]. exists a, tgt, m, p, wm, wp. auto 12.
Qed.

(** the hypotheses shared by the statements on the generated map *)
Record generated ndim diss (M : rmap) arrs ws : Prop := {
  g_pos : Forall (Forall (fun n => 0 < n)) diss;
  g_check : check_map M = true;
  g_shape : map a_shape arrs = diss;
  g_consec : consec 0 arrs;
  g_dim : Forall (fun dis => length dis = ndim) diss;
  g_each : forall i ax l a, nth_error arrs i = Some a -> ax < ndim -> l < nth ax (a_shape a) 0 ->
     exists w, do_layer arrs M i ax l = Some w;
  g_in : forall t, In t ws <-> exists i ax l a w, nth_error arrs i = Some a /\ ax < ndim /\
     l < nth ax (a_shape a) 0 /\ do_layer arrs M i ax l = Some w /\ In t w }.

Lemma gen_map_generated ndim diss M ws :
  Forall (Forall (fun n => 0 < n)) diss -> check_map M = true -> gen_map ndim diss M = Some ws ->
  exists arrs, generated ndim diss M arrs ws.
Proof.
  intros Hpos Hch H. unfold gen_map in H.
  destruct (gen_numbering_spec diss 0) as (arrs & E & Hs & Hc). rewrite E in H.
  destruct (forallb _ diss) eqn:Hd; [|discriminate].
  destruct (mapM _ _) as [wl|] eqn:Hm; [|discriminate]. injection H as <-.
  exists arrs. split; auto.
  - rewrite forallb_forall in Hd. apply Forall_forall. intros d Hin. apply Nat.eqb_eq. auto.
  - intros i ax l a Ha Hax Hl.
    destruct (mapM_each _ _ _ (i, ax, l) Hm) as [w Hw]; [apply in_layers; eauto|eauto].
  - intros t. rewrite in_concat. split.
    + intros (w & Hw & Ht). apply (mapM_in _ _ _ _ Hm) in Hw as ([[i ax] l] & Hl & Hd').
      apply in_layers in Hl as (a & Ha & Hax & Hl). exists i, ax, l, a, w. auto.
    + intros (i & ax & l & a & w & Ha & Hax & Hl & Hd' & Ht). exists w. split; auto.
      apply (mapM_in _ _ _ _ Hm). exists (i, ax, l). split; auto. apply in_layers; eauto.
Qed.

Section Generated.
  Context {ndim : nat} {diss : list (list nat)} {M : rmap} {arrs : list arr} {ws : list (nat * nat * nat)}.
  Context (G : generated ndim diss M arrs ws).

  Lemma g_arr i a : nth_error arrs i = Some a ->
    nth_error diss i = Some (a_shape a) /\ length (a_shape a) = ndim /\ Forall (fun n => 0 < n) (a_shape a).
  Proof.
    intros H. assert (nth_error diss i = Some (a_shape a)) as E.
    { rewrite <- (g_shape _ _ _ _ _ G), nth_error_map, H. reflexivity. }
    split; auto. apply nth_error_In in E. pose proof (g_dim _ _ _ _ _ G) as Hd.
    pose proof (g_pos _ _ _ _ _ G) as Hp. rewrite Forall_forall in Hd, Hp. auto.
  Qed.

  Lemma g_axis i a ax : nth_error arrs i = Some a -> ax < ndim ->
    exists n, nth_error (a_shape a) ax = Some n /\ nth ax (a_shape a) 0 = n /\ 0 < n.
  Proof.
    intros H Hax. destruct (g_arr _ _ H) as (_ & Hl & Hp).
    destruct (nth_error (a_shape a) ax) as [n|] eqn:E; [|apply nth_error_None in E; lia].
    exists n. split; auto. split; [now apply nth_error_nth|].
    rewrite Forall_forall in Hp. apply Hp. eapply nth_error_In; eauto.
  Qed.

  Lemma aget_unique i a I i' a' I' e :
    nth_error arrs i = Some a -> aget a I = Some e -> nth_error arrs i' = Some a' -> aget a' I' = Some e ->
    i = i' /\ I = I'.
  Proof. intros. eapply (consec_inj 0 arrs); eauto. apply (g_consec _ _ _ _ _ G). Qed.

  Lemma col_write i a ax n l ix e s v :
    nth_error arrs i = Some a -> ax < ndim -> nth_error (a_shape a) ax = Some n -> l < n -> s < 2 ->
    In ix (indices (remove_at ax (a_shape a))) -> aget a (insert_at ax l ix) = Some e ->
    (In (e, 2 * ax + s, v) ws <-> exists src ix', side_slice arrs M i ax l s a = Some (Some src) /\
       bcast (fst src) (remove_at ax (a_shape a)) ix = Some ix' /\ snd src ix' = Some v).
  Proof.
    intros Ha Hax Hn Hl Hs Hix He.
    assert (nth ax (a_shape a) 0 = n) as Hnth by now apply nth_error_nth.
    rewrite (g_in _ _ _ _ _ G). split.
    - intros (i' & ax' & l' & a' & w & Ha' & Hax' & Hl' & Hd & Hin).
      apply do_layer_some in Hd as (a0 & tgt & m & p & wm & wp & E0 & Ht & Hm & Hp & Hwm & Hwp & ->).
      rewrite Ha' in E0. injection E0 as <-.
      apply take_some in Ht as (n' & Hn' & Hl'' & ->).
      assert (forall src, side_slice arrs M i' ax' l' s a' = Some src ->
              forall w', assign_opt (remove_at ax' (a_shape a'), fun ix0 => aget a' (insert_at ax' l' ix0)) src (2 * ax' + s) = Some w' ->
              2 * ax' + s = 2 * ax + s -> In (e, 2 * ax + s, v) w' ->
              exists src ix', side_slice arrs M i ax l s a = Some (Some src) /\
       bcast (fst src) (remove_at ax (a_shape a)) ix = Some ix' /\ snd src ix' = Some v) as K.
      { intros src Hsrc w' Hw' Hcol Hin'. assert (ax' = ax) by lia; subst ax'. clear Hcol.
        destruct src as [src|]; [|injection Hw' as <-; destruct Hin'].
        unfold assign_opt in Hw'. apply (assign_in _ _ _ _ _ _ _ Hw') in Hin' as (_ & jx & jx' & Hjx & Hej & Hb & Hv).
        cbn [fst snd] in *. destruct (aget_unique _ _ _ _ _ _ _ Ha He Ha' Hej) as [<- E].
        rewrite Ha in Ha'. injection Ha' as <-.
        apply insert_at_inj in E as [<- <-]; [eauto|].
        rewrite (indices_length _ _ Hix), (indices_length _ _ Hjx). reflexivity. }
      assert (ax' = ax) as Eax.
      { apply in_app_or in Hin as [Hin|Hin].
        - destruct m as [m|]; [|injection Hwm as <-; destruct Hin].
          apply (assign_in _ _ _ _ _ _ _ Hwm) in Hin as (E & _). lia.
        - destruct p as [p|]; [|injection Hwp as <-; destruct Hin].
          apply (assign_in _ _ _ _ _ _ _ Hwp) in Hin as (E & _). lia. }
      subst ax'.
      apply in_app_or in Hin as [Hin|Hin].
      + assert (s = 0) as ->.
        { destruct m as [m|]; [|injection Hwm as <-; destruct Hin].
          apply (assign_in _ _ _ _ _ _ _ Hwm) in Hin as (E & _). lia. }
        rewrite <- (Nat.add_0_r (2 * ax)) in Hwm. eapply K; eauto.
      + assert (s = 1) as ->.
        { destruct p as [p|]; [|injection Hwp as <-; destruct Hin].
          apply (assign_in _ _ _ _ _ _ _ Hwp) in Hin as (E & _). lia. }
        eapply K; eauto.
    - intros (src & ix' & Hsrc & Hb & Hv).
      destruct (g_each _ _ _ _ _ G i ax l a Ha Hax) as [w Hw]; [lia|].
      exists i, ax, l, a, w. repeat (split; [auto; lia|]).
      apply do_layer_some in Hw as (a0 & tgt & m & p & wm & wp & E0 & Ht & Hm & Hp & Hwm & Hwp & ->).
      rewrite Ha in E0. injection E0 as <-.
      apply take_some in Ht as (n' & Hn' & Hl'' & ->).
      apply in_or_app. destruct s as [|[|s]]; [left|right|lia].
      + rewrite Hsrc in Hm. injection Hm as <-. apply (assign_in _ _ _ _ _ _ _ Hwm).
        split; [lia|]. exists ix, ix'. auto.
      + rewrite Hsrc in Hp. injection Hp as <-. apply (assign_in _ _ _ _ _ _ _ Hwp).
        split; [lia|]. exists ix, ix'. auto.
  Qed.

  Lemma check_on i ax s r : ax < ndim -> s < 2 ->
    find_region_on M i ax s = Some (Some r) -> find_region_on M r ax (1 - s) = Some (Some i).
  Proof.
    intros Hax Hs. unfold find_region_on. destruct (nth_error M i) as [row|] eqn:E; [|discriminate]. intros Hr.
    pose proof (g_check _ _ _ _ _ G) as Hc. unfold check_map in Hc. rewrite forallb_forall in Hc.
    specialize (Hc i). rewrite E in Hc.
    assert (i < length M) as Hi by (apply nth_error_Some; congruence).
    assert (forallb (fun jt : nat * option nat => check_entry M i (fst jt) (snd jt)) (combine (seq 0 (length row)) row) = true) as Hf
     by (apply Hc; apply in_seq; lia).
    rewrite forallb_forall in Hf. specialize (Hf (2 * ax + s, Some r)).
    assert (check_entry M i (2 * ax + s) (Some r) = true) as He.
    { apply Hf. apply in_combine_seq. rewrite Nat.sub_0_r. split; [lia|auto]. }
    unfold check_entry in He. destruct (nth_error M r) as [row'|]; [|discriminate].
    assert (opp (2 * ax + s) = 2 * ax + (1 - s)) as Ho.
    { unfold opp. assert ((2 * ax + s) / 2 = ax) as -> by (symmetry; apply (Nat.div_unique _ 2 ax s); lia).
      assert ((2 * ax + s) mod 2 = s) as -> by (symmetry; apply (Nat.mod_unique _ 2 ax s); lia).
      destruct s as [|[|s]]; simpl; lia. }
    rewrite Ho in He. destruct (nth_error row' _) as [[i'|]|]; try discriminate.
    apply Nat.eqb_eq in He. now subst.
  Qed.

  Lemma slice_nonempty i a ax : nth_error arrs i = Some a -> indices (remove_at ax (a_shape a)) <> [].
  Proof.
    intros H. destruct (g_arr _ _ H) as (_ & _ & Hp).
    assert (Forall (fun n => 0 < n) (remove_at ax (a_shape a))) as Hp'.
    { clear H. generalize (a_shape a) Hp. intros sh. revert ax. induction sh as [|m sh IH]; intros [|ax] Hq; simpl; auto.
      - now inversion Hq.
      - inversion Hq; subst. constructor; auto. }
    assert (0 < prodl (remove_at ax (a_shape a))) as Hpr.
    { induction Hp'; simpl; [lia|]. nia. }
    destruct (ravelF_surj _ _ Hpr) as [ix Hix].
    assert (In ix (indices (remove_at ax (a_shape a)))) as Hin by (apply in_indices_ravel; eauto).
    intros E. rewrite E in Hin. destruct Hin.
  Qed.

  (** a region that is the plus neighbour of another has the same cross section *)
  Lemma cross_compat i a r b ax :
    nth_error arrs i = Some a -> nth_error arrs r = Some b -> ax < ndim ->
    find_region_on M i ax 1 = Some (Some r) ->
    remove_at ax (a_shape a) = remove_at ax (a_shape b).
  Proof.
    intros Ha Hb Hax Hr. pose proof (check_on _ _ _ _ Hax Nat.lt_1_2 Hr) as Hr'. simpl in Hr'.
    destruct (g_axis _ _ _ Ha Hax) as (n & Hn & Hn' & Hp). destruct (g_axis _ _ _ Hb Hax) as (m & Hm & Hm' & Hq).
    apply compat_antisym.
    - (* layer 0 of r, minus side: the last layer of i *)
      destruct (g_each _ _ _ _ _ G r ax 0 b Hb Hax) as [w Hw]; [lia|].
      apply do_layer_some in Hw as (b' & tgt & ms & p & wm & wp & E & Ht & Hms & Hps & Hwm & Hwp & _).
      rewrite Hb in E. injection E as <-.
      unfold side_slice in Hms. cbn [Nat.eqb] in Hms. rewrite Hr', Ha in Hms.
      destruct (take_last a ax) as [src|] eqn:Es; [|discriminate]. injection Hms as <-.
      apply take_last_some in Es as (k & Hk & ->). apply take_some in Ht as (k' & Hk' & _ & ->).
      apply assign_compat in Hwm; [exact Hwm|]. apply (slice_nonempty r). auto.
    - destruct (g_each _ _ _ _ _ G i ax (n - 1) a Ha Hax) as [w Hw]; [lia|].
      apply do_layer_some in Hw as (b' & tgt & ms & p & wm & wp & E & Ht & Hms & Hps & Hwm & Hwp & _).
      rewrite Ha in E. injection E as <-.
      unfold side_slice in Hps. cbn [Nat.eqb] in Hps. rewrite Hn' in Hps.
      destruct (Nat.leb_spec n (S (n - 1))); [|lia]. rewrite Hr, Hb in Hps.
      destruct (take b ax 0) as [src|] eqn:Es; [|discriminate]. injection Hps as <-.
      apply take_some in Es as (k & Hk & _ & ->). apply take_some in Ht as (k' & Hk' & _ & ->).
      apply assign_compat in Hwp; [exact Hwp|]. apply (slice_nonempty i). auto.
  Qed.

  Definition goes_plus i a ax l ix R' I' : Prop :=
    exists n, nth_error (a_shape a) ax = Some n /\
     ((S l < n /\ R' = i /\ I' = insert_at ax (S l) ix) \/
      (S l = n /\ find_region_on M i ax 1 = Some (Some R') /\ I' = insert_at ax 0 ix)).

  Lemma plus_write i a ax n l ix e v :
    nth_error arrs i = Some a -> ax < ndim -> nth_error (a_shape a) ax = Some n -> l < n ->
    In ix (indices (remove_at ax (a_shape a))) -> aget a (insert_at ax l ix) = Some e ->
    (In (e, 2 * ax + 1, v) ws <-> exists R' I', num (Some arrs) R' I' v /\ goes_plus i a ax l ix R' I').
  Proof.
    intros Ha Hax Hn Hl Hix He.
    assert (nth ax (a_shape a) 0 = n) as Hnth by now apply nth_error_nth.
    rewrite (col_write i a ax n l ix e 1 v) by auto.
    unfold side_slice, goes_plus. cbn [Nat.eqb]. rewrite Hnth.
    destruct (Nat.leb_spec n (S l)) as [Hle|Hlt].
    - destruct (find_region_on M i ax 1) as [[r|]|] eqn:Er.
      + destruct (nth_error arrs r) as [b|] eqn:Eb.
        * pose proof (cross_compat _ _ _ _ _ Ha Eb Hax Er) as Hsh. split.
          -- intros (src & ix' & Hsrc & Hb & Hv).
             destruct (take b ax 0) as [t|] eqn:Et; [|discriminate]. injection Hsrc as <-.
             apply take_some in Et as (k & Hk & _ & ->). cbn [fst snd] in *.
             rewrite <- Hsh, bcast_refl in Hb by (now apply indices_length). injection Hb as <-.
             exists r, (insert_at ax 0 ix). split; [exists arrs, b; auto|].
             exists n. split; auto. right. split; [lia|]. auto.
          -- intros (R' & I' & Hnum & n' & Hn' & Hc). rewrite Hn in Hn'. injection Hn' as <-.
             destruct Hc as [(? & _)|(_ & [= <-] & ->)]; [lia|].
             destruct Hnum as (? & b' & [= <-] & Hb' & Hg). rewrite Eb in Hb'. injection Hb' as <-.
             destruct (g_axis _ _ _ Eb Hax) as (m & Hm & _ & Hq).
             assert (take b ax 0 = Some (remove_at ax (a_shape b), fun ix0 => aget b (insert_at ax 0 ix0))) as Et
               by (apply take_some; eauto).
             rewrite Et. eexists; exists ix. split; [reflexivity|]. cbn [fst snd].
             rewrite <- Hsh, bcast_refl by (now apply indices_length). auto.
        * split; [intros (? & ? & ? & _); discriminate|].
          intros (R' & I' & Hnum & n' & Hn' & Hc). rewrite Hn in Hn'. injection Hn' as <-.
          destruct Hc as [(? & _)|(_ & [= <-] & ->)]; [lia|].
          destruct Hnum as (? & b' & [= <-] & Hb' & Hg). congruence.
      + split; [intros (? & ? & ? & _); discriminate|].
        intros (R' & I' & _ & n' & Hn' & Hc). rewrite Hn in Hn'. injection Hn' as <-.
        destruct Hc as [(? & _)|(_ & ? & ->)]; [lia|discriminate].
      + split; [intros (? & ? & ? & _); discriminate|].
        intros (R' & I' & _ & n' & Hn' & Hc). rewrite Hn in Hn'. injection Hn' as <-.
        destruct Hc as [(? & _)|(_ & ? & ->)]; [lia|discriminate].
    - assert (take a ax (S l) = Some (remove_at ax (a_shape a), fun ix0 => aget a (insert_at ax (S l) ix0))) as Et
        by (apply take_some; eauto).
      rewrite Et. split.
      + intros (src & ix' & [= <-] & Hb & Hv). cbn [fst snd] in *.
        rewrite bcast_refl in Hb by (now apply indices_length). injection Hb as <-.
        exists i, (insert_at ax (S l) ix). split; [exists arrs, a; auto|]. exists n. split; auto.
      + intros (R' & I' & Hnum & n' & Hn' & Hc). rewrite Hn in Hn'. injection Hn' as <-.
        destruct Hc as [(_ & -> & ->)|(? & _)]; [|lia].
        destruct Hnum as (? & b' & [= <-] & Hb' & Hg). rewrite Ha in Hb'. injection Hb' as <-.
        eexists; exists ix. split; [reflexivity|]. cbn [fst snd].
        rewrite bcast_refl by (now apply indices_length). auto.
  Qed.

  Lemma minus_write i a ax n l ix e v :
    nth_error arrs i = Some a -> ax < ndim -> nth_error (a_shape a) ax = Some n -> l < n ->
    In ix (indices (remove_at ax (a_shape a))) -> aget a (insert_at ax l ix) = Some e ->
    (In (e, 2 * ax, v) ws <-> exists r b l', nth_error arrs r = Some b /\
        aget b (insert_at ax l' ix) = Some v /\ remove_at ax (a_shape b) = remove_at ax (a_shape a) /\
        goes_plus r b ax l' ix i (insert_at ax l ix)).
  Proof.
    intros Ha Hax Hn Hl Hix He.
    rewrite <- (Nat.add_0_r (2 * ax)).
    rewrite (col_write i a ax n l ix e 0 v) by (auto; lia).
    unfold side_slice, goes_plus. cbn [Nat.eqb]. destruct l as [|l].
    - destruct (find_region_on M i ax 0) as [[r|]|] eqn:Er.
      + pose proof (check_on _ _ _ _ Hax Nat.lt_0_2 Er) as Er'. simpl in Er'.
        split.
        * intros (src & ix' & Hsrc & Hb & Hv). destruct (nth_error arrs r) as [b|] eqn:Eb; [|discriminate].
          pose proof (cross_compat _ _ _ _ _ Eb Ha Hax Er') as Hsh.
          destruct (take_last b ax) as [t|] eqn:Et; [|discriminate]. injection Hsrc as <-.
          apply take_last_some in Et as (k & Hk & ->). cbn [fst snd] in *.
          rewrite Hsh, bcast_refl in Hb by (now apply indices_length). injection Hb as <-.
          exists r, b, k. repeat split; auto. exists (S k). split; auto.
        * intros (r' & b & l' & Hb & Hv & Hsh & m & Hm & Hc).
          destruct Hc as [(_ & -> & E)|(<- & Er2 & _)].
          { apply insert_at_inj in E; [lia|auto]. }
          pose proof (check_on _ _ _ _ Hax Nat.lt_1_2 Er2) as Er3. simpl in Er3.
          rewrite Er in Er3. injection Er3 as <-. rewrite Hb.
          assert (take_last b ax = Some (remove_at ax (a_shape b), fun ix0 => aget b (insert_at ax l' ix0))) as Et
            by (apply take_last_some; eauto).
          rewrite Et. eexists; exists ix. split; [reflexivity|]. cbn [fst snd].
          rewrite Hsh, bcast_refl by (now apply indices_length). auto.
      + split; [intros (? & ? & ? & _); discriminate|].
        intros (r' & b & l' & Hb & Hv & Hsh & m & Hm & Hc).
        destruct Hc as [(_ & -> & E)|(<- & Er2 & _)].
        { apply insert_at_inj in E; [lia|auto]. }
        pose proof (check_on _ _ _ _ Hax Nat.lt_1_2 Er2) as Er3. simpl in Er3. congruence.
      + split; [intros (? & ? & ? & _); discriminate|].
        intros (r' & b & l' & Hb & Hv & Hsh & m & Hm & Hc).
        destruct Hc as [(_ & -> & E)|(<- & Er2 & _)].
        { apply insert_at_inj in E; [lia|auto]. }
        pose proof (check_on _ _ _ _ Hax Nat.lt_1_2 Er2) as Er3. simpl in Er3. congruence.
    - assert (take a ax l = Some (remove_at ax (a_shape a), fun ix0 => aget a (insert_at ax l ix0))) as Et
        by (apply take_some; exists n; repeat split; auto; lia).
      rewrite Et. split.
      + intros (src & ix' & [= <-] & Hb & Hv). cbn [fst snd] in *.
        rewrite bcast_refl in Hb by (now apply indices_length). injection Hb as <-.
        exists i, a, l. repeat split; auto. exists n. split; auto.
      + intros (r' & b & l' & Hb & Hv & Hsh & m & Hm & Hc).
        destruct Hc as [(_ & <- & E)|(_ & _ & E)].
        * apply insert_at_inj in E as [E _]; [|auto]. injection E as <-.
          rewrite Ha in Hb. injection Hb as <-. eexists; exists ix. split; [reflexivity|]. cbn [fst snd].
          rewrite bcast_refl by (now apply indices_length). auto.
        * apply insert_at_inj in E as [E _]; [lia|auto].
  Qed.
End Generated.
