From Coq Require Import List Arith Lia Bool.
From Verif Require Import NdArray IncidenceModel IncidenceSpec IncidenceProofs MeshModel MeshSpec MeshProofs.
Import ListNotations.

Lemma emap_get_acc ws e c acc :
  (forall v, ~ In (e, c, v) ws) -> emap_get ws e c acc = acc.
Proof.
  revert acc; induction ws as [|[[e' c'] v] ws IH]; intros acc H; simpl; auto.
  destruct (Nat.eqb_spec e e') as [->|]; destruct (Nat.eqb_spec c c') as [->|]; simpl;
    try (apply IH; intros v0 Hv; apply (H v0); simpl; auto).
  exfalso. apply (H v). simpl; auto.
Qed.
Lemma emap_get_in ws e c acc v :
  emap_get ws e c acc = Some v -> In (e, c, v) ws \/ acc = Some v.
Proof.
  revert acc; induction ws as [|[[e' c'] v'] ws IH]; intros acc H; simpl in *; auto.
  apply IH in H as [H|H]; auto.
  destruct (Nat.eqb_spec e e') as [->|]; destruct (Nat.eqb_spec c c') as [->|]; simpl in H; auto.
  injection H as ->. auto.
Qed.
Lemma emap_get_some ws e c acc v : In (e, c, v) ws -> exists v', emap_get ws e c acc = Some v'.
Proof.
  revert acc; induction ws as [|[[e' c'] v'] ws IH]; intros acc H; [destruct H|].
  simpl. assert ({In (e, c, v) ws} + {~ In (e, c, v) ws}) as [Hin|Hn].
  { apply in_dec. repeat decide equality. }
  - auto.
  - destruct H as [E|H]; [|contradiction]. injection E as -> -> ->.
    rewrite !Nat.eqb_refl. simpl.
    assert (forall acc v0, acc = Some v0 -> exists v1, emap_get ws e c acc = Some v1) as K.
    { clear. induction ws as [|[[e' c'] v'] ws IH]; intros acc v0 ->; simpl; eauto.
      destruct ((e =? e') && (c =? c')); eauto. }
    eauto.
Qed.
Lemma neighbour_in ws e c :
  (forall v v', In (e, c, v) ws -> In (e, c, v') ws -> v = v') ->
  forall v, neighbour ws e c = Some v <-> In (e, c, v) ws.
Proof.
  intros Hf v. unfold neighbour. split.
  - intros H. apply emap_get_in in H as [H|H]; [auto|discriminate].
  - intros H. destruct (emap_get_some _ _ _ None _ H) as [v' Hv']. rewrite Hv'. f_equal.
    apply Hf; auto. apply emap_get_in in Hv' as [Hv'|Hv']; [auto|discriminate].
Qed.

Lemma region_on_step M R a R' :
  find_region_on M R a 1 = Some (Some R') <->
  exists row, nth_error M R = Some row /\ nth_error row (2 * a + 1) = Some (Some R').
Proof.
  unfold find_region_on. destruct (nth_error M R) as [row|].
  - split; [eauto|]. now intros (? & [= <-] & H).
  - split; [discriminate|]. now intros (? & [=] & _).
Qed.

Section Maps.
  Context {ndim : nat} {diss : list (list nat)} {M : rmap} {ws : list (nat * nat * nat)}.
  Context (Hpos : Forall (Forall (fun n => 0 < n)) diss) (Hcheck : check_map M = true)
          (Hgen : gen_map ndim diss M = Some ws).

  Lemma neighbour_plus_iff ax R I e e' : ax < ndim -> element_number diss R I e ->
    (neighbour ws e (2 * ax + 1) = Some e' <->
     exists R' I', element_number diss R' I' e' /\ step_plus diss M ax R I R' I').
  Proof.
    intros Hax Hn. destruct (gen_map_generated _ _ _ _ Hpos Hcheck Hgen) as [arrs G].
    pose proof (g_shape _ _ _ _ _ G) as Hsh. pose proof (g_consec _ _ _ _ _ G) as Hc.
    rewrite <- Hsh in Hn. apply num_element_number in Hn; auto.
    destruct Hn as (? & a & [= <-] & Ha & Hg).
    destruct (g_axis G _ _ _ Ha Hax) as (n & Hn & Hn' & Hp).
    assert (exists r, ravelF (a_shape a) I = Some r) as [r Hr].
    { unfold aget in Hg. destruct (ravelF _ I); [eauto|discriminate]. }
    destruct (ravel_split _ _ _ _ _ Hr Hn) as (l & ix & -> & Hl & Hix & Hnth & Hset).
    assert (forall R' I', goes_plus (M := M) R a ax l ix R' I' <-> step_plus diss M ax R (insert_at ax l ix) R' I') as Hgs.
    { intros R' I'. destruct (g_arr G _ _ Ha) as (Hd & _). unfold goes_plus, step_plus. split.
      - intros (n0 & E0 & H). exists (a_shape a), n0, l. rewrite !Hset. repeat split; auto.
        destruct H as [(? & -> & ->)|(? & Hon & ->)]; [left; auto|right].
        repeat split; auto. now apply region_on_step.
      - intros (dis & n0 & i & E1 & E2 & E3 & H). rewrite Hd in E1. injection E1 as <-.
        rewrite Hnth in E3. injection E3 as <-. exists n0. split; auto. rewrite !Hset in H.
        destruct H as [(? & -> & ->)|(? & -> & Hon)]; [left; auto|right].
        repeat split; auto. now apply region_on_step. }
    assert (forall v, In (e, 2 * ax + 1, v) ws <->
      exists R' I', element_number diss R' I' v /\ step_plus diss M ax R (insert_at ax l ix) R' I') as Hw.
    { intros v. rewrite (plus_write G R a ax n l ix e v Ha Hax Hn Hl Hix Hg).
      split; intros (R' & I' & H1 & H2); exists R', I'; (split; [|now apply Hgs]).
      - rewrite <- Hsh. now apply num_element_number.
      - apply num_element_number; auto. now rewrite Hsh. }
    rewrite neighbour_in; [apply Hw|].
    intros v v' H H'. apply Hw in H as (R1 & I1 & H1 & S1). apply Hw in H' as (R2 & I2 & H2 & S2).
    assert (R1 = R2 /\ I1 = I2) as [<- <-].
    { destruct S1 as (d1 & n1 & i1 & A1 & B1 & C1 & D1). destruct S2 as (d2 & n2 & i2 & A2 & B2 & C2 & D2).
      rewrite A1 in A2; injection A2 as <-. rewrite B1 in B2; injection B2 as <-. rewrite C1 in C2; injection C2 as <-.
      destruct D1 as [(? & -> & ->)|(? & -> & row & Q1 & Q2)]; destruct D2 as [(? & -> & ->)|(? & -> & row' & Q1' & Q2')]; try lia; auto.
      rewrite Q1 in Q1'. injection Q1' as <-. rewrite Q2 in Q2'. injection Q2' as <-. auto. }
    destruct H1 as (x1 & y1 & A1 & B1 & ->). destruct H2 as (x2 & y2 & A2 & B2 & ->).
    rewrite A1 in A2. injection A2 as <-. rewrite B1 in B2. injection B2 as <-. reflexivity.
  Qed.

  Lemma neighbour_minus_iff ax R I e e' : ax < ndim -> element_number diss R I e ->
    (neighbour ws e (2 * ax) = Some e' <->
     exists R' I', element_number diss R' I' e' /\ step_plus diss M ax R' I' R I).
  Proof.
    intros Hax Hn. destruct (gen_map_generated _ _ _ _ Hpos Hcheck Hgen) as [arrs G].
    pose proof (g_shape _ _ _ _ _ G) as Hsh. pose proof (g_consec _ _ _ _ _ G) as Hc.
    rewrite <- Hsh in Hn. apply num_element_number in Hn; auto.
    destruct Hn as (? & a & [= <-] & Ha & Hg).
    destruct (g_axis G _ _ _ Ha Hax) as (n & Hn & Hn' & Hp).
    assert (exists r, ravelF (a_shape a) I = Some r) as [r Hr].
    { unfold aget in Hg. destruct (ravelF _ I); [eauto|discriminate]. }
    destruct (ravel_split _ _ _ _ _ Hr Hn) as (l & ix & -> & Hl & Hix & Hnth & Hset).
    assert (forall v, In (e, 2 * ax, v) ws <->
      exists R' I', element_number diss R' I' v /\ step_plus diss M ax R' I' R (insert_at ax l ix)) as Hw.
    { intros v. rewrite (minus_write G R a ax n l ix e v Ha Hax Hn Hl Hix Hg). split.
      - intros (R' & b & l' & Hb & Hv & Hshb & m & Hm & Hgo).
        exists R', (insert_at ax l' ix). split.
        { rewrite <- Hsh. apply num_element_number; auto. exists arrs, b. auto. }
        destruct (g_arr G _ _ Hb) as (Hdb & _).
        assert (exists q, ravelF (a_shape b) (insert_at ax l' ix) = Some q) as [q Hq].
        { unfold aget in Hv. destruct (ravelF _ (insert_at ax l' ix)); [eauto|discriminate]. }
        destruct (ravel_split _ _ _ _ _ Hq Hm) as (l2 & ix2 & E & Hl2 & Hix2 & Hnth2 & Hset2).
        apply insert_at_inj in E as [<- <-].
        2:{ rewrite (indices_length _ _ Hix), (indices_length _ _ Hix2), Hshb. auto. }
        exists (a_shape b), m, l'. repeat split; auto. rewrite !Hset2.
        destruct Hgo as [(? & -> & ->)|(? & Hon & ->)]; [left; auto|right].
        repeat split; auto. now apply region_on_step.
      - intros (R' & I' & Hel & dis & m & l' & Hd & Hm & Hi & Hgo).
        rewrite <- Hsh in Hel. apply num_element_number in Hel; auto.
        destruct Hel as (? & b & [= <-] & Hb & Hv). destruct (g_arr G _ _ Hb) as (Hdb & _).
        rewrite Hd in Hdb. injection Hdb as ->.
        assert (exists q, ravelF (a_shape b) I' = Some q) as [q Hq].
        { unfold aget in Hv. destruct (ravelF _ I'); [eauto|discriminate]. }
        destruct (ravel_split _ _ _ _ _ Hq Hm) as (l2 & ix2 & -> & Hl2 & Hix2 & Hnth2 & Hset2).
        rewrite Hi in Hnth2. injection Hnth2 as <-. rewrite !Hset2 in Hgo.
        assert (R' = R \/ find_region_on M R' ax 1 = Some (Some R)) as Hcase.
        { destruct Hgo as [(_ & -> & _)|(_ & _ & Hon)]; [auto|]. right. now apply region_on_step. }
        assert (remove_at ax (a_shape b) = remove_at ax (a_shape a)) as Hshb.
        { destruct Hcase as [->|Hon].
          - rewrite Ha in Hb. now injection Hb as ->.
          - eapply cross_compat; eauto. }
        assert (ix2 = ix) as ->.
        { assert (length ix = length ix2) as Hlen
            by now rewrite (indices_length _ _ Hix), (indices_length _ _ Hix2), Hshb.
          destruct Hgo as [(_ & _ & E)|(_ & E & _)]; apply insert_at_inj in E as [_ E]; auto. }
        exists R', b, l'. repeat split; auto. exists m. split; auto.
        destruct Hgo as [(? & -> & ?)|(? & ? & Hon)]; [left; auto|right].
        repeat split; auto. now apply region_on_step. }
    rewrite neighbour_in; [apply Hw|].
    intros v v' H H'.
    apply (minus_write G R a ax n l ix e _ Ha Hax Hn Hl Hix Hg) in H as (R1 & b1 & l1 & Hb1 & Hv1 & _ & m1 & Hm1 & Hg1).
    apply (minus_write G R a ax n l ix e _ Ha Hax Hn Hl Hix Hg) in H' as (R2 & b2 & l2 & Hb2 & Hv2 & _ & m2 & Hm2 & Hg2).
    assert (R1 = R2) as <-.
    { destruct Hg1 as [(? & E1 & E1')|(? & Hon1 & E1')]; destruct Hg2 as [(? & E2 & E2')|(? & Hon2 & E2')].
      - congruence.
      - apply insert_at_inj in E1' as [E1' _]; auto. apply insert_at_inj in E2' as [E2' _]; auto. lia.
      - apply insert_at_inj in E1' as [E1' _]; auto. apply insert_at_inj in E2' as [E2' _]; auto. lia.
      - apply (check_on G) in Hon1, Hon2; try lia. congruence. }
    rewrite Hb1 in Hb2. injection Hb2 as <-. rewrite Hm1 in Hm2. injection Hm2 as <-.
    assert (l1 = l2) as <-.
    { destruct Hg1 as [(? & E1 & E1')|(? & Hon1 & E1')]; destruct Hg2 as [(? & E2 & E2')|(? & Hon2 & E2')];
      apply insert_at_inj in E1' as [E1' _]; auto; apply insert_at_inj in E2' as [E2' _]; auto; lia. }
    congruence.
  Qed.

  Lemma neighbour_symmetric ax e e' : ax < ndim -> e < num_elements diss -> e' < num_elements diss ->
    (neighbour ws e (2 * ax + 1) = Some e' <-> neighbour ws e' (2 * ax) = Some e).
  Proof.
    intros Hax He He'. pose proof (element_number_bij diss) as (_ & B2 & B3).
    destruct (B3 _ He) as (R & I & Hn). destruct (B3 _ He') as (R' & I' & Hn').
    rewrite (neighbour_plus_iff _ _ _ _ _ Hax Hn), (neighbour_minus_iff _ _ _ _ _ Hax Hn').
    split; intros (R1 & I1 & H1 & H2).
    - destruct (B2 _ _ _ _ _ Hn' H1) as [<- <-]. eauto.
    - destruct (B2 _ _ _ _ _ Hn H1) as [<- <-]. eauto.
  Qed.

  Lemma neighbour_range ax e e' side : ax < ndim -> side < 2 -> e < num_elements diss ->
    neighbour ws e (2 * ax + side) = Some e' -> e' < num_elements diss.
  Proof.
    intros Hax Hs He H. pose proof (element_number_bij diss) as (B1 & B2 & B3).
    destruct (B3 _ He) as (R & I & Hn). destruct side as [|[|side]]; [| |lia].
    - rewrite Nat.add_0_r in H. apply (neighbour_minus_iff _ _ _ _ _ Hax Hn) in H as (R' & I' & H & _). eauto.
    - apply (neighbour_plus_iff _ _ _ _ _ Hax Hn) in H as (R' & I' & H & _). eauto.
  Qed.
End Maps.

(** ** a 2-D map is generated whenever the checks pass *)
Lemma assign_total tgt src col :
  fst src = fst tgt ->
  (forall ix, In ix (indices (fst tgt)) -> snd tgt ix <> None) ->
  (forall ix, In ix (indices (fst tgt)) -> snd src ix <> None) ->
  exists ws, assign_col tgt src col = Some ws.
Proof.
  intros Hs Ht Hv. apply mapM_ok. intros ix Hix.
  specialize (Ht ix Hix). specialize (Hv ix Hix).
  destruct (snd tgt ix); [|congruence]. rewrite Hs, bcast_refl by (now apply indices_length).
  destruct (snd src ix); [eauto|congruence].
Qed.

Lemma take_ok a ax l n : nth_error (a_shape a) ax = Some n -> l < n ->
  exists t, take a ax l = Some t /\ fst t = remove_at ax (a_shape a) /\
    forall ix, In ix (indices (remove_at ax (a_shape a))) -> snd t ix <> None.
Proof.
  intros Hn Hl. eexists. split; [apply take_some; eauto|]. split; auto.
  intros ix Hix. cbn [snd]. destruct (insert_ravel _ _ _ _ _ Hn Hl Hix) as [r Hr].
  unfold aget. rewrite Hr. discriminate.
Qed.

Lemma gen_map_2d_total diss M :
  Forall (Forall (fun n => 0 < n)) diss -> Forall (fun dis => length dis = 2) diss ->
  length M = length diss -> Forall (fun row => length row = 4) M ->
  check_map M = true -> check_layouts2 diss M = true ->
  exists ws, gen_map 2 diss M = Some ws.
Proof.
  intros Hpos Hdim HM Hrow Hcm Hcl. unfold gen_map.
  destruct (gen_numbering_spec diss 0) as (arrs & E & Hs & Hc). rewrite E.
  assert (forallb (fun dis => length dis =? 2) diss = true) as ->.
  { apply forallb_forall. intros d Hd. rewrite Forall_forall in Hdim. apply Nat.eqb_eq. auto. }
  enough (exists wl, mapM (fun t => let '(i, axis, layer) := t in do_layer arrs M i axis layer) (layers 2 arrs) = Some wl) as [wl ->]
    by (simpl; eauto).
  apply mapM_ok. intros [[i ax] l] Hin. apply in_layers in Hin as (a & Ha & Hax & Hl).
  assert (forall j b, nth_error arrs j = Some b -> nth_error diss j = Some (a_shape b)) as Hd.
  { intros j b Hb. rewrite <- Hs, nth_error_map, Hb. reflexivity. }
  assert (forall j b, nth_error arrs j = Some b -> exists x y, a_shape b = [x; y] /\ 0 < x /\ 0 < y) as Hxy.
  { intros j b Hb. pose proof (Hd _ _ Hb) as H. apply nth_error_In in H.
    rewrite Forall_forall in Hdim, Hpos. specialize (Hdim _ H). specialize (Hpos _ H).
    destruct (a_shape b) as [|x [|y [|]]]; try discriminate. exists x, y.
    inversion Hpos as [|? ? P1 P2]; subst. inversion P2; subst. auto. }
  destruct (nth_error M i) as [row|] eqn:Erow.
  2:{ apply nth_error_None in Erow. assert (i < length diss); [|lia].
      apply nth_error_Some. rewrite (Hd _ _ Ha). discriminate. }
  assert (length row = 4) as Hrl.
  { rewrite Forall_forall in Hrow. apply Hrow. eapply nth_error_In; eauto. }
  assert (forall s, s < 2 -> exists t, find_region_on M i ax s = Some t /\
     forall r, t = Some r -> exists b, nth_error arrs r = Some b /\ remove_at ax (a_shape b) = remove_at ax (a_shape a)) as Hon.
  { intros s Hsl. unfold find_region_on. rewrite Erow.
    destruct (nth_error row (2 * ax + s)) as [t|] eqn:Et; [|apply nth_error_None in Et; lia].
    exists t. split; auto. intros r ->.
    assert (i < length M) as Hi by (apply nth_error_Some; congruence).
    unfold check_layouts2 in Hcl. rewrite forallb_forall in Hcl. specialize (Hcl i).
    rewrite Erow, (Hd _ _ Ha) in Hcl.
    assert (In i (seq 0 (length M))) as Hiin by (apply in_seq; lia). specialize (Hcl Hiin).
    rewrite forallb_forall in Hcl. specialize (Hcl (2 * ax + s, Some r)).
    assert (In (2 * ax + s, Some r) (combine (seq 0 (length row)) row)) as Hjin.
    { apply in_combine_seq. rewrite Nat.sub_0_r. split; [lia|auto]. }
    specialize (Hcl Hjin). cbn [fst snd] in Hcl.
    assert ((2 * ax + s) / 2 = ax) as Ediv by (symmetry; apply (Nat.div_unique _ 2 ax s); lia).
    rewrite Ediv in Hcl.
    destruct (nth_error diss r) as [dt|] eqn:Edt; [|discriminate].
    rewrite <- Hs, nth_error_map in Edt. destruct (nth_error arrs r) as [b|] eqn:Eb; [|discriminate].
    injection Edt as <-. exists b. split; auto.
    destruct (Hxy _ _ Eb) as (bx & by_ & Ebs & _). destruct (Hxy _ _ Ha) as (x & y & Eas & _).
    rewrite Ebs, Eas in *.
    destruct ax as [|[|ax]]; [| |lia]; simpl in Hcl |- *; apply Nat.eqb_eq in Hcl; now subst. }
  destruct (Hxy _ _ Ha) as (x & y & Esh & Hx & Hy).
  assert (exists n, nth_error (a_shape a) ax = Some n /\ nth ax (a_shape a) 0 = n /\ 0 < n) as (n & Hn & Hn' & Hnp).
  { rewrite Esh. destruct ax as [|[|ax]]; [| |lia]; simpl; eauto. }
  rewrite Hn' in Hl. unfold do_layer. rewrite Ha.
  destruct (take_ok a ax l n Hn Hl) as (tgt & -> & Ht1 & Ht2).
  assert (forall s, s < 2 -> exists p, side_slice arrs M i ax l s a = Some p /\
     forall src, p = Some src -> fst src = fst tgt /\ forall ix, In ix (indices (fst tgt)) -> snd src ix <> None) as Hside.
  { assert (forall b m k, nth_error (a_shape b) ax = Some m -> k < m -> remove_at ax (a_shape b) = remove_at ax (a_shape a) ->
      exists p, take b ax k = Some p /\ fst p = fst tgt /\ forall ix, In ix (indices (fst tgt)) -> snd p ix <> None) as Htake.
    { intros b m k Hm Hk Hrm. destruct (take_ok b ax k m Hm Hk) as (t & E1 & E2 & E3).
      exists t. split; auto. split; [congruence|]. intros ix Hix. apply E3. rewrite Hrm, <- Ht1. exact Hix. }
    intros s Hsl. destruct (Hon s Hsl) as (t & Et & Hrt). unfold side_slice. rewrite Hn'.
    destruct s as [|[|s]]; [| |lia]; cbn [Nat.eqb].
    - destruct l as [|l].
      + rewrite Et. destruct t as [r|]; [|exists None; split; [auto|discriminate]].
        destruct (Hrt r eq_refl) as (b & Hb & Hrm). rewrite Hb.
        assert (exists m, nth_error (a_shape b) ax = Some (S m)) as [m Hm].
        { destruct (Hxy _ _ Hb) as (bx & by_ & -> & H1 & H2).
          destruct ax as [|[|ax]]; [| |lia]; simpl; [exists (bx - 1)|exists (by_ - 1)]; f_equal; lia. }
        unfold take_last. rewrite Hm. destruct (Htake b (S m) m Hm ltac:(lia) Hrm) as (p & -> & H1 & H2).
        exists (Some p). split; auto. intros src [= <-]. auto.
      + destruct (Htake a n l Hn ltac:(lia) eq_refl) as (p & -> & H1 & H2).
        exists (Some p). split; auto. intros src [= <-]. auto.
    - destruct (Nat.leb_spec n (S l)).
      + rewrite Et. destruct t as [r|]; [|exists None; split; [auto|discriminate]].
        destruct (Hrt r eq_refl) as (b & Hb & Hrm). rewrite Hb.
        assert (exists m, nth_error (a_shape b) ax = Some (S m)) as [m Hm].
        { destruct (Hxy _ _ Hb) as (bx & by_ & -> & H1 & H2).
          destruct ax as [|[|ax]]; [| |lia]; simpl; [exists (bx - 1)|exists (by_ - 1)]; f_equal; lia. }
        destruct (Htake b (S m) 0 Hm ltac:(lia) Hrm) as (p & -> & H1 & H2).
        exists (Some p). split; auto. intros src [= <-]. auto.
      + destruct (Htake a n (S l) Hn ltac:(lia) eq_refl) as (p & -> & H1 & H2).
        exists (Some p). split; auto. intros src [= <-]. auto. }
  destruct (Hside 0) as (p0 & -> & Hp0); [lia|]. destruct (Hside 1) as (p1 & -> & Hp1); [lia|].
  assert (forall p col, (forall src, p = Some src -> fst src = fst tgt /\ forall ix, In ix (indices (fst tgt)) -> snd src ix <> None) ->
     exists w, assign_opt tgt p col = Some w) as Has.
  { intros [src|] col H; simpl; [|eauto]. destruct (H src eq_refl) as [H1 H2].
    apply assign_total; auto. intros ix Hix. apply Ht2. now rewrite <- Ht1. }
  destruct (Has p0 (2 * ax) Hp0) as [w0 ->]. destruct (Has p1 (2 * ax + 1) Hp1) as [w1 ->]. eauto.
Qed.

(** the arrays generated for the regions hold the element numbers *)
Lemma gen_numbering_is diss : exists arrs acc, gen_numbering 0 diss = Some (arrs, num_elements diss, acc) /\
  forall R I e, element_number diss R I e <-> exists a, nth_error arrs R = Some a /\ aget a I = Some e.
Proof.
  destruct (gen_numbering_spec diss 0) as (arrs & E & Hs & Hc). exists arrs, (map a_base arrs). split.
  - rewrite E. unfold num_elements. rewrite <- Hs, <- total_sum. reflexivity.
  - intros R I e. rewrite <- Hs, <- (num_element_number arrs R I e Hc). unfold num. split.
    + intros (l & a & [= <-] & H). eauto.
    + intros (a & H). exists arrs, a. tauto.
Qed.
