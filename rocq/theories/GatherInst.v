(** The numbering loops of (n-1)-forms are instances of the generic loop. *)
From Coq Require Import Arith List ZArith Bool Lia Relations FinFun.
From Verif Require Import NdArray LocalNumberingModel IncidenceModel IncidenceSpec MeshSpec GatherCore GatherModel GatherProofs GatherSpec.
From Verif Require MeshProofs.
From Verif Require Import IncidenceProofs IncidenceThms GatherThms.
Import ListNotations.

Lemma in_map_seq {A} (f : nat -> A) n x : In x (map f (seq 0 n)) <-> exists i, i < n /\ x = f i.
Proof.
  rewrite in_map_iff. split.
  - intros (i & <- & Hi). apply in_seq in Hi. exists i. split; auto; lia.
  - intros (i & Hi & ->). exists i. split; auto. apply in_seq; lia.
Qed.
Lemma in_indices2 I J ix : In ix (indices [I; J]) <-> exists i j, i < I /\ j < J /\ ix = [i; j].
Proof.
  split.
  - intros H. pose proof (MeshProofs.indices_length _ _ H) as Hl. destruct ix as [|i [|j [|]]]; try discriminate.
    apply in_indices_ravel in H as [r H]. simpl in H. destruct (Nat.ltb_spec i I); [|discriminate].
    destruct (Nat.ltb_spec j J); [|discriminate]. eauto.
  - intros (i & j & Hi & Hj & ->). apply in_indices_ravel. simpl. apply Nat.ltb_lt in Hi, Hj. rewrite Hi, Hj. eauto.
Qed.
Lemma in_indices3 I J K ix : In ix (indices [I; J; K]) <-> exists i j k, i < I /\ j < J /\ k < K /\ ix = [i; j; k].
Proof.
  split.
  - intros H. pose proof (MeshProofs.indices_length _ _ H) as Hl. destruct ix as [|i [|j [|k [|]]]]; try discriminate.
    apply in_indices_ravel in H as [r H]. simpl in H. destruct (Nat.ltb_spec i I); [|discriminate].
    destruct (Nat.ltb_spec j J); [|discriminate]. destruct (Nat.ltb_spec k K); [|discriminate]. eauto 8.
  - intros (i & j & k & Hi & Hj & Hk & ->). apply in_indices_ravel. simpl. apply Nat.ltb_lt in Hi, Hj, Hk. rewrite Hi, Hj, Hk. eauto.
Qed.
Lemma in_plane f I J x : In x (map (ap2 f) (indices [I; J])) <-> exists i j, i < I /\ j < J /\ x = f i j.
Proof.
  rewrite in_map_iff. split.
  - intros (ix & <- & H). apply in_indices2 in H as (i & j & Hi & Hj & ->). eauto.
  - intros (i & j & Hi & Hj & ->). exists [i; j]. split; auto. apply in_indices2. eauto.
Qed.
Lemma in_box f I J K x : In x (map (ap3 f) (indices [I; J; K])) <-> exists i j k, i < I /\ j < J /\ k < K /\ x = f i j k.
Proof.
  rewrite in_map_iff. split.
  - intros (ix & <- & H). apply in_indices3 in H as (i & j & k & Hi & Hj & Hk & ->). eauto 8.
  - intros (i & j & k & Hi & Hj & Hk & ->). exists [i; j; k]. split; auto. apply in_indices3. eauto 8.
Qed.
Lemma nodup_map_in {A B} (f : A -> B) l : NoDup l -> (forall a b, In a l -> In b l -> f a = f b -> a = b) -> NoDup (map f l).
Proof.
  induction l as [|a l IH]; simpl; intros Hn Hf; [constructor|]. inversion Hn; subst. constructor; auto.
  intros Hin. apply in_map_iff in Hin as (b & E & Hb). assert (a = b) by (apply Hf; auto). congruence.
Qed.
Lemma nodup_map_seq {A} (f : nat -> A) n : (forall i j, f i = f j -> i = j) -> NoDup (map f (seq 0 n)).
Proof. intros H. apply nodup_map_in; [apply seq_NoDup|auto]. Qed.
Lemma nodup_plane f I J : (forall i j i' j', f i j = f i' j' -> i = i' /\ j = j') -> NoDup (map (ap2 f) (indices [I; J])).
Proof.
  intros H. apply nodup_map_in; [apply indices_NoDup|]. intros a b Ha Hb E.
  apply in_indices2 in Ha as (i & j & _ & _ & ->). apply in_indices2 in Hb as (i' & j' & _ & _ & ->).
  apply H in E as [-> ->]. auto.
Qed.
Lemma nodup_box f I J K : (forall i j k i' j' k', f i j k = f i' j' k' -> i = i' /\ j = j' /\ k = k') -> NoDup (map (ap3 f) (indices [I; J; K])).
Proof.
  intros H. apply nodup_map_in; [apply indices_NoDup|]. intros a b Ha Hb E.
  apply in_indices3 in Ha as (i & j & k & _ & _ & _ & ->). apply in_indices3 in Hb as (i' & j' & k' & _ & _ & _ & ->).
  apply H in E as (-> & -> & ->). auto.
Qed.
Lemma nodup_flat_cons {A B} (f : A -> list B) t ts : NoDup (f t) -> NoDup (flat_map f ts) ->
  (forall x, In x (f t) -> ~ In x (flat_map f ts)) -> NoDup (flat_map f (t :: ts)).
Proof.
  simpl. intros H1 H2 H3. induction (f t) as [|a l IH]; simpl in *; auto. inversion H1; subst. constructor; auto.
  intros H. apply in_app_or in H as [H|H]; [auto|]. apply (H3 a); auto.
Qed.

Ltac slots_in H :=
  first [ apply in_map_seq in H; destruct H as (? & ? & ?)
        | apply in_plane in H; destruct H as (? & ? & ? & ? & ?)
        | apply in_box in H; destruct H as (? & ? & ? & ? & ? & ? & ?)
        | apply in_app_or in H; destruct H as [H|H]
        | match type of H with In _ (_ :: _) => apply in_inv in H | In _ [] => destruct H | _ \/ _ => destruct H as [H|H] | False => destruct H end ].
Ltac inj := repeat match goal with H : _ :: _ = _ :: _ |- _ => injection H; clear H; intros; subst | H : [] = _ :: _ |- _ => discriminate H | H : _ :: _ = [] |- _ => discriminate H end.
Ltac unf_sl := cbn [In flat_map slots_of app sl_m1n1k0 sl_m2n2k1 in_dx in_dy sl_m2n2k0 corner_m2n2k0 in_m2n2k0 sl_m3n3k2 in_m3n3k2 no_groups] in *.
(** disjoint slices *)
Ltac disj := let x := fresh "x" in let Hx := fresh "Hx" in let Hy := fresh "Hy" in
  intros x Hx Hy; unf_sl;   repeat slots_in Hx; repeat slots_in Hy; subst; inj; try lia.
Ltac nodup_part := unf_sl; first
  [ apply nodup_map_seq; intros; inj; lia
  | apply nodup_plane; intros; inj; lia
  | apply nodup_box; intros; inj; lia
  | repeat constructor; simpl; tauto ].
Ltac nodup_parts := repeat (apply nodup_flat_cons; [ nodup_part | | disj ]); try constructor.

Lemma rule_id_ok N nd (mp : emap) : forall e s, e < N -> s < nd ->
      match mp e s with
      | None => rule_id e None = New
      | Some m => (m < e -> rule_id e (Some m) = From m) /\ (e < m -> rule_id e (Some m) = New)
      end.
Proof.
  intros e s _ _. destruct (mp e s) as [m|]; auto. simpl. split; intros H; destruct (Nat.ltb_spec e m); auto; lia.
Qed.

Ltac split_axis a Ha := repeat (destruct a as [|a]; [simpl in Ha; injection Ha as <-|]); try (simpl in Ha; destruct a; discriminate Ha).
(** enumerate components in a [num] hypothesis *)
Lemma num_comp l c ix i : num (Some l) c ix i -> c < length l.
Proof. intros (l' & a & [= <-] & H & _). apply nth_error_Some. congruence. Qed.

Ltac side_list :=
  let s := fresh "s" in let H := fresh "H" in intros s; simpl; split;
  [ intros H; repeat match type of H with _ \/ _ => destruct H as [H|H] end;
    first [discriminate H | injection H as <-; lia | destruct H]
  | intros H; do 6 (destruct s as [|s]; [try lia; solve [auto 20]|]); lia ].
Ltac sides_intro N d mp rule sl ts arrs degs :=
  let gm := fresh "gm" in let E := fresh "E" in let H := fresh "H" in
  destruct (@sides_numbers N d mp rule sl no_groups no_attach ts arrs degs) as (gm & E & H);
  [ assumption | assumption | repeat split; auto; simpl; unfold asize; simpl; lia
  | (* NoDup *) | side_list
  | let g := fresh "g" in let Hg := fresh in intros g Hg; simpl in Hg; intuition discriminate
  | | | | | | exists gm; split; [exact E|] ].

(** explicit number of components *)
Ltac comps Hn c := let Hl := fresh in pose proof (num_comp _ _ _ _ Hn) as Hl; simpl in Hl;
  do 3 (try (destruct c as [|c]; [|])); try lia; clear Hl.
(** membership in the slices, one after another *)
Ltac ex_slot :=
  first [ apply in_map_seq; eexists; split; [ | reflexivity]; lia
        | apply in_plane; eexists; eexists; split; [ | split; [ | reflexivity]]; lia
        | apply in_box; eexists; eexists; eexists; split; [ | split; [ | split; [ | reflexivity]]]; lia
        | apply in_eq ].
Ltac find_slot := first [ solve [ex_slot] | match goal with |- In _ (_ :: _) => apply in_cons; find_slot | |- _ \/ _ => first [left; reflexivity | right; find_slot] end | apply in_or_app; left; solve [ex_slot] | apply in_or_app; right; find_slot ].
(** case distinction first / last / between *)
Ltac layer i p := destruct i as [|i]; [|destruct (Nat.eq_dec (S i) p) as [<-|]].
Ltac cover_to := intros H; unf_sl; repeat slots_in H; inj; try discriminate; exd.
Ltac fin H := match goal with |- numbers _ _ ?nd _ => match type of H with numbers _ _ ?n _ =>
  let Hx := fresh in assert (n = nd) as Hx; [unfold total, asize, nd_m2n2k1, nd_m3n3k2, nd_m2n2k0; cbn [fold_right a_shape prodl]; lia|rewrite Hx in H; exact H] end end.
Ltac pair_tac c ix := exists c, ix; cbn [set_at nth_error]; repeat split; auto; exd.

Lemma gather_m1n1k0 N mp p : 1 <= p -> consistent 1 N mp -> no_self 1 N mp ->
  exists gm, gm_m1n1k0 N mp p = Some gm /\ numbers gm N (p + 1) (shared (ln_m1n1k0 p) [p] N mp).
Proof.
  intros Hp Hc Hs. rewrite ln_m1n1k0_eq. unfold gm_m1n1k0.
  sides_intro N (-1)%Z mp rule_id (sl_m1n1k0 p) (ts_m1n1k0 p) [mk_arr 0 [p + 1]] [p].
  - unfold ts_m1n1k0. nodup_parts.
  - apply rule_id_ok.
  - intros a q Ha. split_axis a Ha. cbn. constructor; [|constructor]. pair_tac 0 [p].
  - intros a q c ix i Ha Hn Hi. split_axis a Ha. comps Hn c. inv_num Hn. subst. simpl in Hi. injection Hi as ->. simpl. auto.
  - intros H. unfold ts_m1n1k0 in H. unf_sl. repeat slots_in H; discriminate.
  - intros c ix. unfold ts_m1n1k0. split.
    + cover_to.
    + intros (i & Hn). comps Hn c. inv_num Hn. subst. unf_sl. layer x p; find_slot.
  - fin H.
Qed.

Lemma gather_m2n2k1_inner N mp px py : 1 <= px -> 1 <= py -> consistent 2 N mp -> no_self 2 N mp ->
  exists gm, gm_m2n2k1_inner N mp px py = Some gm /\
    numbers gm N (nd_m2n2k1 px py) (shared (ln_m2n2k1_inner px py) [px; py] N mp).
Proof.
  intros Hpx Hpy Hc Hs. rewrite ln_m2n2k1_inner_eq. unfold gm_m2n2k1_inner.
  set (ts := [Side 2; Inner (in_dx 0 px py); Side 3; Side 0; Inner (in_dy 1 px py); Side 1]).
  sides_intro N (-1)%Z mp rule_id (sl_m2n2k1 0 1 px py) ts [mk_arr 0 [px; py + 1]; mk_arr (px * (py + 1)) [px + 1; py]] [px; py].
  - unfold ts. nodup_parts.
  - apply rule_id_ok.
  - intros a q Ha. split_axis a Ha; unf_sl; apply Forall2_map_same; intros t Ht; apply in_seq in Ht.
    + pair_tac 1 [px; t].
    + pair_tac 0 [t; py].
  - intros a q c ix i Ha Hn Hi. split_axis a Ha; comps Hn c; inv_num Hn; subst; simpl in Hi; injection Hi as ->; unf_sl; try lia; find_slot.
  - intros H. unfold ts in H. unf_sl. repeat slots_in H; discriminate.
  - intros c ix. unfold ts. split.
    + cover_to.
    + intros (i & Hn). comps Hn c; inv_num Hn; subst; unf_sl.
      * layer x0 py; find_slot.
      * layer x px; find_slot.
  - fin H.
Qed.

Lemma gather_m2n2k1_outer N mp px py : 1 <= px -> 1 <= py -> consistent 2 N mp -> no_self 2 N mp ->
  exists gm, gm_m2n2k1_outer N mp px py = Some gm /\
    numbers gm N (nd_m2n2k1 px py) (shared (ln_m2n2k1_outer px py) [px; py] N mp).
Proof.
  intros Hpx Hpy Hc Hs. rewrite ln_m2n2k1_outer_eq. unfold gm_m2n2k1_outer.
  set (ts := [Side 0; Inner (in_dy 0 px py); Side 1; Side 2; Inner (in_dx 1 px py); Side 3]).
  sides_intro N (-1)%Z mp rule_id (sl_m2n2k1 1 0 px py) ts [mk_arr 0 [px + 1; py]; mk_arr ((px + 1) * py) [px; py + 1]] [px; py].
  - unfold ts. nodup_parts.
  - apply rule_id_ok.
  - intros a q Ha. split_axis a Ha; unf_sl; apply Forall2_map_same; intros t Ht; apply in_seq in Ht.
    + pair_tac 0 [px; t].
    + pair_tac 1 [t; py].
  - intros a q c ix i Ha Hn Hi. split_axis a Ha; comps Hn c; inv_num Hn; subst; simpl in Hi; injection Hi as ->; unf_sl; try lia; find_slot.
  - intros H. unfold ts in H. unf_sl. repeat slots_in H; discriminate.
  - intros c ix. unfold ts. split.
    + cover_to.
    + intros (i & Hn). comps Hn c; inv_num Hn; subst; unf_sl.
      * layer x px; find_slot.
      * layer x0 py; find_slot.
  - fin H.
Qed.

(** 3-D 2-forms on meshes without boundary *)
Definition no_boundary (ndim N : nat) (mp : emap) : Prop :=
  forall e s, e < N -> s < 2 * ndim -> mp e s <> None.
Lemma gather_m3n3k2 N mp px py pz : 1 <= px -> 1 <= py -> 1 <= pz -> consistent 3 N mp -> no_self 3 N mp -> no_boundary 3 N mp ->
  exists gm, gm_m3n3k2 N mp px py pz = Some gm /\
    numbers gm N (nd_m3n3k2 px py pz) (shared (ln_m3n3k2 px py pz) [px; py; pz] N mp).
Proof.
  intros Hpx Hpy Hpz Hc Hs Hb. rewrite ln_m3n3k2_eq. unfold gm_m3n3k2.
  sides_intro N 0%Z mp (rule_m3n3k2 N) (sl_m3n3k2 px py pz) (ts_m3n3k2 px py pz)
    [mk_arr 0 [px + 1; py; pz]; mk_arr ((px + 1) * py * pz) [px; py + 1; pz];
     mk_arr ((px + 1) * py * pz + px * (py + 1) * pz) [px; py; pz + 1]] [px; py; pz].
  - unfold ts_m3n3k2. nodup_parts.
  - intros e s He Hsd. pose proof (Hb e s He Hsd) as H. destruct (mp e s) as [m|]; [|congruence]. simpl. split; intros H'.
    + apply Nat.ltb_lt in H'. now rewrite H'.
    + destruct (Nat.ltb_spec m e); [lia|]. apply Nat.ltb_lt in H'. now rewrite H'.
  - intros a q Ha. split_axis a Ha; unf_sl; apply Forall2_map_same; intros t Ht; apply in_indices2 in Ht as (i & j & Hi & Hj & ->); simpl ap2.
    + pair_tac 0 [px; i; j].
    + pair_tac 1 [i; py; j].
    + pair_tac 2 [i; j; pz].
  - intros a q c ix i Ha Hn Hi. split_axis a Ha; comps Hn c; inv_num Hn; subst; simpl in Hi; injection Hi as ->; unf_sl; try lia; find_slot.
  - intros H. unfold ts_m3n3k2 in H. unf_sl. repeat slots_in H; discriminate.
  - intros c ix. unfold ts_m3n3k2. split.
    + cover_to.
    + intros (i & Hn). comps Hn c; inv_num Hn; subst; unf_sl.
      * layer x px; find_slot.
      * layer x0 py; find_slot.
      * layer x1 pz; find_slot.
  - fin H.
Qed.
