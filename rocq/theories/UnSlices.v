(** Slices of arrays, local numberings, and a checkable form of [elem_ok]. *)
From Coq Require Import Arith List Bool Lia.
From Verif Require Import NdArray LocalNumberingModel Dict GmModel GmProofs UnModel UnSpec UnProofs UnMesh.
Import ListNotations.

(** index ix of a slice, as an index of the array *)
Fixpoint embed (sh : list nat) (axs : list axis) (ix : list nat) : list nat :=
  match sh, axs with
  | n :: sh', a :: axs' =>
      match a, ix with
      | First, _ => 0 :: embed sh' axs' ix
      | Last, _ => n - 1 :: embed sh' axs' ix
      | Inn, i :: ix' => S i :: embed sh' axs' ix'
      | _, i :: ix' => i :: embed sh' axs' ix'
      | _, [] => []
      end
  | _, _ => []
  end.
Lemma flat_map_map {A B C} (f : A -> B) (g : B -> list C) l : flat_map g (map f l) = flat_map (fun a => g (f a)) l.
Proof. induction l; simpl; f_equal; auto. Qed.
Lemma map_flat_map {A B C} (f : B -> C) (g : A -> list B) l : map f (flat_map g l) = flat_map (fun a => map f (g a)) l.
Proof. induction l; simpl; auto. rewrite map_app. f_equal. auto. Qed.
Lemma flat_map_single {A B} (f : A -> B) l : flat_map (fun a => [f a]) l = map f l.
Proof. induction l; simpl; f_equal; auto. Qed.
Lemma sl_slots c sh axs : length sh = length axs ->
  s_slots (sl c sh axs) = map (fun ix => c :: embed sh axs ix) (indices (s_dims (sl c sh axs))).
Proof.
  intros Hl. unfold sl. cbn [s_slots s_dims].
  rewrite <- (map_map (embed sh axs) (cons c)). f_equal.
  revert axs Hl. induction sh as [|n sh IH]; intros [|a axs] Hl; try discriminate; auto.
  injection Hl as Hl. cbn [combine map flat_map fst snd cart]. rewrite (IH _ Hl). clear IH.
  set (D := flat_map (fun na => ax_dim (fst na) (snd na)) (combine sh axs)).
  rewrite flat_map_map. destruct a; cbn [ax_list ax_dim app].
  - cbn [map embed]. rewrite flat_map_single. reflexivity.
  - cbn [map embed]. rewrite flat_map_single. reflexivity.
  - cbn [indices]. rewrite map_flat_map, seq_length. apply flat_map_ext. intros ix. now rewrite map_map.
  - cbn [indices]. rewrite map_flat_map, seq_length. apply flat_map_ext. intros ix. rewrite map_map, <- seq_shift, map_map. reflexivity.
  - cbn [indices]. rewrite map_flat_map, seq_length. apply flat_map_ext. intros ix. now rewrite map_map.
Qed.
Lemma sl_length c sh axs : length sh = length axs -> length (s_slots (sl c sh axs)) = prodl (s_dims (sl c sh axs)).
Proof. intros H. rewrite (sl_slots _ _ _ H), map_length. apply indices_length. Qed.

(** membership in a slice *)
Definition in_ax (i n : nat) (a : axis) : Prop :=
  match a with First => i = 0 | Last => i = n - 1 | All => i < n | Inn => 1 <= i < n - 1 | But => i < n - 1 end.
Lemma in_ax_list i n a : In i (ax_list n a) <-> in_ax i n a.
Proof. destruct a; simpl; try rewrite in_seq; lia. Qed.
Lemma in_cart axs ix : In ix (cart axs) <-> Forall2 (fun i ax => In i ax) ix axs.
Proof.
  revert ix. induction axs as [|ax axs IH]; intros ix; cbn [cart].
  - split; [intros [<-|[]]; constructor|]. intros H. inversion H. simpl. auto.
  - rewrite in_flat_map. split.
    + intros (jx & Hj & Hi). apply in_map_iff in Hi as (i & <- & Hs). constructor; auto. now apply IH.
    + intros H. inversion H as [|i ? jx ? Hi Hj]; subst. exists jx. split; [now apply IH|]. apply in_map_iff. eauto.
Qed.
Lemma cart_NoDup axs : Forall (fun ax : list nat => NoDup ax) axs -> NoDup (cart axs).
Proof.
  induction 1 as [|ax axs Hx Hxs IH]; cbn [cart]; [repeat constructor; auto|].
  apply NoDup_flat_map; auto.
  - intros ix _. apply NoDup_map_inj; auto. congruence.
  - intros a b x _ _ Ha Hb. apply in_map_iff in Ha as (? & <- & _). apply in_map_iff in Hb as (? & H & _). congruence.
Qed.
Lemma ax_NoDup n a : NoDup (ax_list n a).
Proof. destruct a; simpl; try apply seq_NoDup; repeat constructor; auto. Qed.
Lemma sl_NoDup c sh axs : NoDup (s_slots (sl c sh axs)).
Proof.
  unfold sl. cbn [s_slots]. apply NoDup_map_inj; [congruence|]. apply cart_NoDup. apply Forall_forall. intros l Hl.
  apply in_map_iff in Hl as ([n a] & <- & _). apply ax_NoDup.
Qed.
Lemma in_sl2 c n1 n2 a1 a2 s : In s (s_slots (sl c [n1; n2] [a1; a2])) <->
  exists i j, s = [c; i; j] /\ in_ax i n1 a1 /\ in_ax j n2 a2.
Proof.
  unfold sl. cbn [s_slots combine map fst snd]. rewrite in_map_iff. split.
  - intros (ix & <- & H). apply in_cart in H. inversion H as [|i ? ? ? Hi H2]; subst. inversion H2 as [|j ? ? ? Hj H3]; subst. inversion H3; subst.
    apply in_ax_list in Hi, Hj. eauto.
  - intros (i & j & -> & Hi & Hj). exists [i; j]. split; auto. apply in_cart. repeat constructor; now apply in_ax_list.
Qed.
Lemma in_sl3 c n1 n2 n3 a1 a2 a3 s : In s (s_slots (sl c [n1; n2; n3] [a1; a2; a3])) <->
  exists i j k, s = [c; i; j; k] /\ in_ax i n1 a1 /\ in_ax j n2 a2 /\ in_ax k n3 a3.
Proof.
  unfold sl. cbn [s_slots combine map fst snd]. rewrite in_map_iff. split.
  - intros (ix & <- & H). apply in_cart in H. inversion H as [|i ? ? ? Hi H2]; subst. inversion H2 as [|j ? ? ? Hj H3]; subst.
    inversion H3 as [|k ? ? ? Hk H4]; subst. inversion H4; subst. apply in_ax_list in Hi, Hj, Hk. exists i, j, k. auto.
  - intros (i & j & k & -> & Hi & Hj & Hk). exists [i; j; k]. split; auto. apply in_cart. repeat constructor; now apply in_ax_list.
Qed.
Lemma whole2 c n1 n2 s : In s (whole c [n1; n2]) <-> exists i j, s = [c; i; j] /\ i < n1 /\ j < n2.
Proof. unfold whole. cbn [length repeat]. rewrite in_sl2. reflexivity. Qed.
Lemma whole3 c n1 n2 n3 s : In s (whole c [n1; n2; n3]) <-> exists i j k, s = [c; i; j; k] /\ i < n1 /\ j < n2 /\ k < n3.
Proof. unfold whole. cbn [length repeat]. rewrite in_sl3. reflexivity. Qed.
Lemma in_indices1 n ix : In ix (indices [n]) <-> exists i, ix = [i] /\ i < n.
Proof.
  rewrite in_indices_ravel. split.
  - intros [r H]. destruct ix as [|i [|]]; simpl in H; try discriminate; destruct (i <? n) eqn:E; try discriminate. apply Nat.ltb_lt in E. eauto.
  - intros (i & -> & Hi). simpl. rewrite (proj2 (Nat.ltb_lt i n) Hi). eauto.
Qed.
Lemma in_indices2 n1 n2 ix : In ix (indices [n1; n2]) <-> exists i j, ix = [i; j] /\ i < n1 /\ j < n2.
Proof.
  rewrite in_indices_ravel. split.
  - intros [r H]. destruct ix as [|i [|j [|]]]; cbn [ravelF] in H; try discriminate; destruct (i <? n1) eqn:E; try discriminate;
      destruct (j <? n2) eqn:E2; try discriminate. apply Nat.ltb_lt in E, E2. eauto.
  - intros (i & j & -> & Hi & Hj). simpl. rewrite (proj2 (Nat.ltb_lt i n1) Hi), (proj2 (Nat.ltb_lt j n2) Hj). eauto.
Qed.

(** ** local numberings *)
Lemma ravelF_nth sh ix r : ravelF sh ix = Some r <-> nth_error (indices sh) r = Some ix.
Proof.
  assert (forall r ix, nth_error (indices sh) r = Some ix -> ravelF sh ix = Some r) as H.
  { intros r0 ix0 Hn. pose proof (f_equal (fun l => nth_error l r0) (ravelF_indices_seq sh)) as H. cbv beta in H.
    rewrite !nth_error_map, Hn in H. simpl in H.
    assert (r0 < prodl sh) as Hr by (rewrite <- indices_length; apply nth_error_Some; congruence).
    rewrite (nth_error_nth' _ 0) in H by (rewrite seq_length; lia). rewrite seq_nth in H by lia. simpl in H. congruence. }
  split; auto. intros Hr. pose proof (ravelF_lt _ _ _ Hr) as Hlt. rewrite <- indices_length in Hlt.
  apply nth_error_Some in Hlt. destruct (nth_error (indices sh) r) as [iy|] eqn:E; [|contradiction].
  f_equal. symmetry. eapply ravelF_inj; eauto.
Qed.
Lemma whole_indices c sh : whole c sh = map (cons c) (indices sh).
Proof.
  unfold whole. rewrite sl_slots by now rewrite repeat_length.
  assert (forall sh, s_dims (sl c sh (repeat All (length sh))) = sh) as Hd.
  { induction sh0 as [|n sh0 IH]; auto. cbn in *. rewrite seq_length. f_equal. exact IH. }
  rewrite Hd. apply map_ext_in. intros ix Hix. f_equal. apply in_indices_ravel in Hix as [r Hr]. clear Hd.
  revert ix r Hr. induction sh as [|n sh IH]; intros [|i ix] r; cbn [ravelF]; try discriminate; auto.
  destruct (i <? n); [|discriminate]. destruct (ravelF sh ix) as [q|] eqn:Q; [|discriminate]. intros _. cbn [length repeat embed]. f_equal. eauto.
Qed.
Fixpoint arrs (b : nat) (shs : list (list nat)) : list arr :=
  match shs with [] => [] | sh :: r => mk_arr b sh :: arrs (b + prodl sh) r end.
Fixpoint outs (c : nat) (shs : list (list nat)) : list slot :=
  match shs with [] => [] | sh :: r => whole c sh ++ outs (S c) r end.
Lemma outs_nth shs : forall b c0 c ix d,
  (exists a, nth_error (arrs b shs) c = Some a /\ aget a ix = Some d) <-> (b <= d /\ nth_error (outs c0 shs) (d - b) = Some ((c0 + c) :: ix)).
Proof.
  induction shs as [|sh shs IH]; intros b c0 c ix d; cbn [arrs outs].
  - split; [intros (a & H & _); destruct c; discriminate|intros [_ H]; destruct (d - b); discriminate].
  - assert (length (whole c0 sh) = prodl sh) as Hw by (rewrite whole_indices, map_length; apply indices_length).
    destruct c as [|c]; cbn [nth_error].
    + split.
      * intros (a & [= <-] & H). unfold aget in H. cbn [a_base a_shape] in H. destruct (ravelF sh ix) as [r|] eqn:E; [|discriminate].
        injection H as <-. split; [lia|]. replace (b + r - b) with r by lia. pose proof (ravelF_lt _ _ _ E) as Hlt.
        rewrite nth_error_app1 by lia. rewrite whole_indices, nth_error_map. apply ravelF_nth in E. rewrite E. cbn [option_map]. now rewrite Nat.add_0_r.
      * intros [Hb H]. exists (mk_arr b sh). split; auto. unfold aget. cbn [a_base a_shape].
        destruct (Nat.lt_ge_cases (d - b) (prodl sh)) as [Hlt|Hge].
        -- rewrite nth_error_app1 in H by lia. rewrite whole_indices, nth_error_map in H.
           destruct (nth_error (indices sh) (d - b)) as [iy|] eqn:E; [|discriminate]. simpl in H. injection H as _ <-.
           apply ravelF_nth in E. rewrite E. f_equal. lia.
        -- rewrite nth_error_app2 in H by lia. exfalso. apply nth_error_In in H. clear -H.
           assert (forall shs c, In ((c0 + 0) :: ix) (outs c shs) -> c <= c0) as Hc.
           { induction shs0 as [|sh' shs0 IH']; intros c; cbn [outs]; [intros []|]. intros Hin. apply in_app_iff in Hin as [Hin|Hin].
             - rewrite whole_indices in Hin. apply in_map_iff in Hin as (q & Hq & _). injection Hq as Hq _. lia.
             - apply IH' in Hin. lia. }
           apply Hc in H. lia.
    + rewrite (IH (b + prodl sh) (S c0) c ix d). split.
      * intros [Hb H]. split; [lia|]. rewrite nth_error_app2 by lia. rewrite Hw. replace (d - b - prodl sh) with (d - (b + prodl sh)) by lia.
        rewrite H. f_equal. f_equal. lia.
      * intros [Hb H]. destruct (Nat.lt_ge_cases (d - b) (prodl sh)) as [Hlt|Hge].
        -- exfalso. rewrite nth_error_app1 in H by lia. rewrite whole_indices, nth_error_map in H.
           destruct (nth_error (indices sh) (d - b)); [|discriminate]. simpl in H. injection H as H _. lia.
        -- split; [lia|]. rewrite nth_error_app2 in H by lia. rewrite Hw in H. replace (d - b - prodl sh) with (d - (b + prodl sh)) in H by lia.
           rewrite H. f_equal. f_equal. lia.
Qed.
Lemma in_arrays_outs shs s d : in_arrays (Some (arrs 0 shs)) s = Some d <-> nth_error (outs 0 shs) d = Some s.
Proof.
  destruct s as [|c ix]; simpl.
  - split; [discriminate|]. intros H. apply nth_error_In in H. exfalso. clear -H.
    assert (forall shs c, ~ In [] (outs c shs)) as Hc; [|now apply Hc in H].
    induction shs0 as [|sh' shs0 IH']; intros c; cbn [outs]; [intros []|]. intros Hin. apply in_app_iff in Hin as [Hin|Hin].
    + rewrite whole_indices in Hin. apply in_map_iff in Hin as (q & [=] & _).
    + now apply IH' in Hin.
  - pose proof (outs_nth shs 0 0 c ix d) as H. rewrite Nat.sub_0_r in H. simpl in H.
    split.
    + intros E. apply H. destruct (nth_error (arrs 0 shs) c) as [a|]; [eauto|discriminate].
    + intros E. assert (exists a, nth_error (arrs 0 shs) c = Some a /\ aget a ix = Some d) as (a & -> & Ha); auto. apply H. split; [lia|auto].
Qed.

(** ** [elem_ok] from the slots *)
Definition vslots (x : visit) : list slot :=
  match x with
  | VNode _ s | VEdge _ _ _ _ s | VFace _ _ s | VIn _ s => s_slots s
  | VPair _ _ _ s1 s2 => s_slots s1 ++ s_slots s2
  end.
Lemma in_combine_len {A B} (l : list A) (m : list B) a : length l = length m -> In a l -> exists b, In (a, b) (combine l m).
Proof.
  revert m. induction l as [|x l IH]; intros [|y m] Hl; simpl in *; try discriminate; try tauto.
  intros [->|H]; [eauto|]. destruct (IH m ltac:(lia) H) as [b Hb]. eauto.
Qed.
Lemma vplaces_cover turn e m x s : vok turn m x -> In s (vslots x) -> exists p, In (s, p) (vplaces e m x).
Proof.
  destruct x as [a sl0|t a b n sl0|f sh sl0|f sh1 sh2 sl1 sl2|sh sl0]; simpl.
  - intros ([c ->] & _) H. exists (PVertex c). apply in_map_iff. eauto.
  - intros (_ & [c ->] & [d ->] & _ & Hl & _) H. apply in_combine_len; auto. unfold lab_edge. rewrite map_length, seq_length. simpl in Hl. lia.
  - intros ([k ->] & _ & _ & Hl & _) H. apply in_combine_len; auto. now rewrite map_length, indices_length.
  - intros ([k ->] & _ & (_ & Hl1 & _) & (_ & Hl2 & _)) H. apply in_app_iff in H as [H|H].
    + destruct (in_combine_len (s_slots sl1) (map (fun ix => PFace k (0 :: ix)) (indices sh1)) s) as [p Hp]; auto.
      { now rewrite map_length, indices_length. } exists p. apply in_app_iff. auto.
    + destruct (in_combine_len (s_slots sl2) (map (fun ix => PFace k (1 :: ix)) (indices sh2)) s) as [p Hp]; auto.
      { now rewrite map_length, indices_length. } exists p. apply in_app_iff. auto.
  - intros _ H. exists (PIn e s). apply in_map_iff. eauto.
Qed.
Lemma in_combine_map {A B C} (f : A -> B) (g : A -> C) l b c : In (b, c) (combine (map f l) (map g l)) -> exists a, In a l /\ b = f a /\ c = g a.
Proof. induction l as [|a l IH]; simpl; [tauto|]. intros [[= <- <-]|H]; [eauto|]. destruct (IH H) as (a' & H1 & H2). eauto. Qed.
Lemma lab_edge_indices a b n : lab_edge a b n = map (fun ix => PEdge a b (hd 0 ix) (n - 1 - hd 0 ix)) (indices [n]).
Proof. unfold lab_edge. cbn [indices flat_map]. rewrite app_nil_r, map_map. reflexivity. Qed.
(** the places of a visit, index by index of its slice *)
Lemma vplaces_edge e m t a b n c sh axs s p ca cb : nth_error m a = Some ca -> nth_error m b = Some cb ->
  length sh = length axs -> s_dims (sl c sh axs) = [n] ->
  In (s, p) (vplaces e m (VEdge t a b n (sl c sh axs))) ->
  exists r, r < n /\ s = c :: embed sh axs [r] /\ p = PEdge ca cb r (n - 1 - r).
Proof.
  intros Ha Hb Hl Hd. cbn [vplaces]. rewrite Ha, Hb, (sl_slots _ _ _ Hl), Hd, lab_edge_indices. intros H.
  apply in_combine_map in H as (ix & Hix & -> & ->). apply in_indices1 in Hix as (r & -> & Hr). eauto.
Qed.
Lemma vplaces_face e m f k n1 n2 c sh axs s p : corners m f = Some k -> length sh = length axs -> s_dims (sl c sh axs) = [n1; n2] ->
  In (s, p) (vplaces e m (VFace f [n1; n2] (sl c sh axs))) ->
  exists i j, i < n1 /\ j < n2 /\ s = c :: embed sh axs [i; j] /\ p = PFace k [i; j].
Proof.
  intros Hk Hl Hd. cbn [vplaces]. rewrite Hk, (sl_slots _ _ _ Hl), Hd. intros H.
  apply in_combine_map in H as (ix & Hix & -> & ->). apply in_indices2 in Hix as (i & j & -> & Hi & Hj). exists i, j. auto.
Qed.
Lemma vplaces_pair e m f k n1 n2 m1 m2 c sh axs c' sh' axs' s p : corners m f = Some k ->
  length sh = length axs -> s_dims (sl c sh axs) = [n1; n2] ->
  length sh' = length axs' -> s_dims (sl c' sh' axs') = [m1; m2] ->
  In (s, p) (vplaces e m (VPair f [n1; n2] [m1; m2] (sl c sh axs) (sl c' sh' axs'))) ->
  (exists i j, i < n1 /\ j < n2 /\ s = c :: embed sh axs [i; j] /\ p = PFace k [0; i; j]) \/
  (exists i j, i < m1 /\ j < m2 /\ s = c' :: embed sh' axs' [i; j] /\ p = PFace k [1; i; j]).
Proof.
  intros Hk Hl Hd Hl' Hd'. cbn [vplaces]. rewrite Hk, (sl_slots _ _ _ Hl), Hd, (sl_slots _ _ _ Hl'), Hd'. intros H.
  apply in_app_iff in H as [H|H]; apply in_combine_map in H as (ix & Hix & -> & ->); apply in_indices2 in Hix as (i & j & -> & Hi & Hj);
    [left|right]; exists i, j; auto.
Qed.
Lemma side_lo n : side_of 0 n = Lo.
Proof. reflexivity. Qed.
Lemma side_hi n : 1 <= n -> side_of n n = Hi.
Proof. intros H. unfold side_of. rewrite Nat.eqb_refl. destruct (n =? 0) eqn:E; auto. apply Nat.eqb_eq in E. lia. Qed.
Lemma side_mid i n : 1 <= i < n -> side_of i n = Mid.
Proof.
  intros H. unfold side_of. destruct (i =? 0) eqn:E; [apply Nat.eqb_eq in E; lia|]. destruct (i =? n) eqn:E2; auto. apply Nat.eqb_eq in E2. lia.
Qed.
