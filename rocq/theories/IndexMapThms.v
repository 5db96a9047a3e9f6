From Coq Require Import List Arith Lia Bool Permutation.
From Verif Require Import NdArray IncidenceModel IncidenceSpec IncidenceProofs MeshModel MeshSpec MeshProofs.
Import ListNotations.

(** * assignments *)
Lemma update_spec {A} (l : list A) i v : i < length l ->
  exists l', update l i v = Some l' /\ length l' = length l /\ nth_error l' i = Some v /\
    forall j, j <> i -> nth_error l' j = nth_error l j.
Proof.
  revert i; induction l as [|a l IH]; intros i Hi; [simpl in Hi; lia|].
  destruct i as [|i]; simpl.
  - exists (v :: l). repeat split; auto. intros [|j]; [congruence|reflexivity].
  - destruct (IH i) as (l' & E & Hl & Hn & Ho); [simpl in Hi; lia|]. rewrite E. exists (a :: l'). simpl.
    repeat split; auto. intros [|j] Hj; simpl; auto.
Qed.

Lemma update_all_spec {A} (ivs : list (nat * A)) : forall l,
  NoDup (map fst ivs) -> Forall (fun iv => fst iv < length l) ivs ->
  exists l', update_all l ivs = Some l' /\ length l' = length l /\
    (forall i v, In (i, v) ivs -> nth_error l' i = Some v) /\
    (forall i, ~ In i (map fst ivs) -> nth_error l' i = nth_error l i).
Proof.
  induction ivs as [|[i v] ivs IH]; intros l Hnd Hf; simpl.
  - exists l. repeat split; auto. intros i v [].
  - inversion Hnd as [|? ? Hni Hnd']; subst. inversion Hf as [|? ? Hi Hf']; subst. simpl in *.
    destruct (update_spec l i v Hi) as (l1 & -> & Hl1 & Hn1 & Ho1).
    destruct (IH l1 Hnd') as (l' & E & Hl & Hin & Hout).
    { rewrite Hl1. exact Hf'. }
    rewrite E. exists l'. split; auto. split; [congruence|]. split.
    + intros j w [[= <- <-]|H]; [|auto]. rewrite Hout by auto. auto.
    + intros j Hj. rewrite Hout by tauto. apply Ho1. intros ->. tauto.
Qed.

Lemma nth_error_ext {A} (l l' : list A) : (forall i, nth_error l i = nth_error l' i) -> l = l'.
Proof.
  revert l'; induction l as [|a l IH]; intros [|b l'] H; auto.
  - specialize (H 0); discriminate.
  - specialize (H 0); discriminate.
  - f_equal; [specialize (H 0); simpl in H; congruence|]. apply IH. intros i. apply (H (S i)).
Qed.

(** * e2c *)
Lemma labels_in {A} (c2e : list (list nat)) (f : nat -> A) s e c :
  In (e, c) (flat_map (fun ce => map (fun e => (e, f (fst ce))) (snd ce)) (combine (seq s (length c2e)) c2e)) <->
  exists k g, nth_error c2e k = Some g /\ In e g /\ c = f (s + k).
Proof.
  rewrite in_flat_map. split.
  - intros ([k g] & H1 & H2). apply in_combine_seq in H1 as [H1 H1'].
    apply in_map_iff in H2 as (e' & [= <- <-] & H2). exists (k - s), g. repeat split; auto.
    simpl. f_equal. lia.
  - intros (k & g & H1 & H2 & ->). exists (s + k, g). split.
    + apply in_combine_seq. split; [lia|]. replace (s + k - s) with k by lia. auto.
    + apply in_map_iff. exists e. auto.
Qed.

Lemma labels_fst (c2e : list (list nat)) s :
  map fst (flat_map (fun ce : nat * list nat => map (fun e => (e, fst ce)) (snd ce)) (combine (seq s (length c2e)) c2e)) = concat c2e.
Proof.
  revert s; induction c2e as [|g c2e IH]; intros s; simpl; auto.
  rewrite map_app, map_map, IH. simpl. now rewrite map_id.
Qed.

Lemma make_e2c_spec n c2e : partition n c2e ->
  exists e2c, make_e2c n c2e = Some e2c /\ length e2c = n /\
    forall e c, nth_error e2c e = Some c <-> exists g, nth_error c2e c = Some g /\ In e g.
Proof.
  intros [Hnd Hcov]. unfold make_e2c.
  destruct (update_all_spec (flat_map (fun ce : nat * list nat => map (fun e => (e, fst ce)) (snd ce)) (combine (seq 0 (length c2e)) c2e)) (repeat 0 n))
    as (l' & E & Hl & Hin & Hout).
  - now rewrite labels_fst.
  - rewrite repeat_length. apply Forall_forall. intros [e c] H. simpl. apply Hcov.
    rewrite <- (labels_fst c2e 0). apply in_map_iff. exists (e, c). auto.
  - rewrite repeat_length in Hl. exists l'. repeat split; auto.
    + intros H. assert (e < n) as He by (rewrite <- Hl; apply nth_error_Some; congruence).
      apply Hcov in He. rewrite <- (labels_fst c2e 0) in He. apply in_map_iff in He as ([e' c'] & <- & He).
      simpl in *. pose proof (Hin _ _ He) as H'. rewrite H in H'. injection H' as ->.
      apply (labels_in c2e (fun k => k) 0) in He as (k & g & ? & ? & ->). eauto.
    + intros (g & Hg & He). apply Hin. apply (labels_in c2e (fun k => k) 0). eauto.
Qed.

(** * split and merge *)
Lemma mapM_forall2 {A B} (f : A -> option B) l s : mapM f l = Some s <-> Forall2 (fun a b => f a = Some b) l s.
Proof.
  split; [apply mapM_some|]. induction 1 as [|a b l s H1 H2 IH]; simpl; auto. now rewrite H1, IH.
Qed.

Lemma split_total {A} n c2e (x : list A) : partition n c2e -> length x = n ->
  exists b, split c2e n x = Some b /\ Forall2 (Forall2 (fun e v => nth_error x e = Some v)) c2e b.
Proof.
  intros [_ Hcov] Hx. unfold split. rewrite Hx, Nat.eqb_refl.
  destruct (mapM_ok (fun es => mapM (fun e => nth_error x e) es) c2e) as [b Hb].
  - intros g Hg. apply mapM_ok. intros e He.
    assert (e < n) as Hlt by (apply Hcov; apply in_concat; eauto).
    rewrite <- Hx in Hlt. apply nth_error_Some in Hlt. destruct (nth_error x e); [eauto|congruence].
  - exists b. split; auto. apply mapM_forall2 in Hb. clear - Hb.
    induction Hb; constructor; auto. now apply mapM_forall2.
Qed.

Lemma Forall2_length {A B} (R : A -> B -> Prop) l s : Forall2 R l s -> length l = length s.
Proof. induction 1; simpl; auto. Qed.

Lemma merge_total {A} (zero : A) n c2e b : partition n c2e ->
  Forall2 (fun g c => length g = length c) c2e b ->
  exists x, merge zero c2e n b = Some x /\ length x = n /\
    Forall2 (Forall2 (fun e v => nth_error x e = Some v)) c2e b.
Proof.
  intros [Hnd Hcov] Hl. unfold merge.
  set (F := fun eb : list nat * list A => if length (fst eb) =? length (snd eb) then Some (combine (fst eb) (snd eb)) else None).
  assert (mapM F (combine c2e b) = Some (map (fun eb => combine (fst eb) (snd eb)) (combine c2e b))) as ->.
  { clear - Hl. induction Hl as [|g c c2e b H1 H2 IH]; simpl; auto. rewrite IH. unfold F; simpl. rewrite H1, Nat.eqb_refl. reflexivity. }
  assert (length c2e = length b) as Hlen by (eapply Forall2_length; eauto).
  destruct (Nat.leb_spec (length c2e) (length b)) as [_|?]; [|lia].
  set (ws := concat (map (fun eb => combine (fst eb) (snd eb)) (combine c2e b))).
  assert (map fst ws = concat c2e) as Hfst.
  { unfold ws. clear - Hl. induction Hl as [|g c c2e b H1 H2 IH]; simpl; auto.
    rewrite map_app, IH. f_equal. simpl. clear - H1. revert c H1; induction g as [|e g IHg]; intros [|v c]; simpl; try discriminate; auto.
    intros [= H]. f_equal; auto. }
  destruct (update_all_spec ws (repeat zero n)) as (x & E & Hxl & Hin & _).
  - now rewrite Hfst.
  - rewrite repeat_length. apply Forall_forall. intros [e v] H. simpl. apply Hcov. rewrite <- Hfst. apply in_map_iff. exists (e, v); auto.
  - rewrite repeat_length in Hxl. exists x. repeat split; auto.
    assert (forall e v, In (e, v) ws -> nth_error x e = Some v) as Hin' by auto. clear - Hin' Hl.
    unfold ws in Hin'. clear ws. revert Hin'. induction Hl as [|g c c2e b H1 H2 IH]; intros Hin; constructor.
    + simpl in Hin. assert (forall e v, In (e, v) (combine g c) -> nth_error x e = Some v) as Hc
        by (intros; apply Hin; apply in_or_app; auto).
      clear - Hc H1. revert c H1 Hc; induction g as [|e g IHg]; intros [|v c]; simpl; try discriminate; constructor; auto.
    + apply IH. intros e v H. apply Hin. simpl. apply in_or_app; auto.
Qed.

Lemma Forall2_functional {A B} (R : A -> B -> Prop) l s s' :
  (forall a b b', R a b -> R a b' -> b = b') -> Forall2 R l s -> Forall2 R l s' -> s = s'.
Proof.
  intros Hf H. revert s'. induction H; intros s' H'; inversion H'; subst; auto. f_equal; eauto.
Qed.
Lemma Forall2_len2 {A B} (R : A -> B -> Prop) l s : Forall2 (Forall2 R) l s -> Forall2 (fun g c => length g = length c) l s.
Proof. induction 1; constructor; auto. eapply Forall2_length; eauto. Qed.

Lemma merge_split {A} (zero : A) n c2e x : partition n c2e -> length x = n ->
  exists b, split c2e n x = Some b /\ merge zero c2e n b = Some x.
Proof.
  intros Hp Hx. destruct (split_total n c2e x Hp Hx) as (b & Hb & Hf). exists b. split; auto.
  destruct (merge_total zero n c2e b Hp (Forall2_len2 _ _ _ Hf)) as (x' & E & Hl & Hf').
  rewrite E. f_equal. apply nth_error_ext. intros e.
  destruct (Nat.lt_ge_cases e n) as [He|He].
  - apply Hp in He. apply in_concat in He as (g & Hg & He).
    clear - Hf Hf' Hg He. revert b Hf Hf'. induction c2e as [|g0 c2e IH]; intros b Hf Hf'; [destruct Hg|].
    inversion Hf as [|? c ? b' H1 H2]; subst. inversion Hf' as [|? c' ? b'' H1' H2']; subst.
    destruct Hg as [->|Hg]; [|eauto].
    clear - H1 H1' He. revert c H1 H1'; induction g as [|e0 g IH]; intros c H1 H1'; [destruct He|].
    inversion H1; subst. inversion H1'; subst. destruct He as [->|He]; [congruence|eauto].
  - rewrite (proj2 (nth_error_None x' e)), (proj2 (nth_error_None x e)) by lia. auto.
Qed.

Lemma split_merge {A} (zero : A) n c2e b : partition n c2e ->
  Forall2 (fun g c => length g = length c) c2e b ->
  exists x, merge zero c2e n b = Some x /\ split c2e n x = Some b.
Proof.
  intros Hp Hl. destruct (merge_total zero n c2e b Hp Hl) as (x & E & Hx & Hf). exists x. split; auto.
  destruct (split_total n c2e x Hp Hx) as (b' & Hb' & Hf'). rewrite Hb'. f_equal.
  eapply Forall2_functional; [|exact Hf'|exact Hf].
  intros g c c' H H'. eapply Forall2_functional; eauto. simpl. intros; congruence.
Qed.

(** * groups *)
Section Groups.
  Context {K : Type} (eqk : K -> K -> bool) (eqk_spec : forall a b, eqk a b = true <-> a = b).

  Definition dpairs (d : list (K * list nat)) : list (K * nat) :=
    flat_map (fun kv => map (pair (fst kv)) (snd kv)) d.

  Lemma dict_extend_pairs d k v : Permutation (dpairs (dict_extend eqk d k v)) (dpairs d ++ map (pair k) v).
  Proof.
    induction d as [|[k' v'] d IH]; simpl.
    - now rewrite app_nil_r.
    - destruct (eqk k k') eqn:E; simpl.
      + apply eqk_spec in E as <-. rewrite map_app, <- !app_assoc. apply Permutation_app_head. apply Permutation_app_comm.
      + rewrite IH, app_assoc. auto.
  Qed.
  Lemma dict_extend_keys d k v x : In x (map fst (dict_extend eqk d k v)) -> x = k \/ In x (map fst d).
  Proof.
    induction d as [|[k' v'] d IH]; simpl; [intros [H|[]]; auto|]. destruct (eqk k k') eqn:E; simpl; [tauto|].
    intros [H|H]; auto. destruct (IH H); auto.
  Qed.
  Lemma dict_extend_nodup d k v : NoDup (map fst d) -> NoDup (map fst (dict_extend eqk d k v)).
  Proof.
    induction d as [|[k' v'] d IH]; simpl; intros H.
    - repeat constructor; auto.
    - inversion H; subst. destruct (eqk k k') eqn:E; simpl; constructor; auto.
      intros Hin. apply dict_extend_keys in Hin as [->|Hin]; auto.
      assert (eqk k k = true) as E' by now apply eqk_spec. congruence.
  Qed.
  Lemma dict_extend_nonempty d k v : v <> [] -> Forall (fun kv => snd kv <> []) d ->
    Forall (fun kv => snd kv <> []) (dict_extend eqk d k v).
  Proof.
    intros Hv. induction 1 as [|[k' v'] d H1 H2 IH]; simpl; auto.
    destruct (eqk k k'); constructor; auto. simpl in *. destruct v'; simpl; congruence.
  Qed.

  Definition dict_ok (d : list (K * list nat)) : Prop :=
    NoDup (map fst d) /\ Forall (fun kv => snd kv <> []) d.

  Lemma distribute_spec a (key : list nat -> K) :
    exists d, distribute eqk a key = Some d /\ dict_ok d /\
      Permutation (dpairs d) (map (fun ix => (key ix, match aget a ix with Some e => e | None => 0 end)) (indices (a_shape a))).
  Proof.
    unfold distribute.
    assert (forall l d0, (forall ix, In ix l -> exists e, aget a ix = Some e) -> dict_ok d0 ->
      exists d, fold_left (fun od ix => match od, aget a ix with Some d, Some e => Some (dict_extend eqk d (key ix) [e]) | _, _ => None end) l (Some d0) = Some d
        /\ dict_ok d /\ Permutation (dpairs d) (dpairs d0 ++ map (fun ix => (key ix, match aget a ix with Some e => e | None => 0 end)) l)) as H.
    { induction l as [|ix l IH]; intros d0 Hl Hok; simpl.
      - exists d0. rewrite app_nil_r. auto.
      - destruct (Hl ix) as [e He]; [simpl; auto|]. rewrite He.
        destruct (IH (dict_extend eqk d0 (key ix) [e])) as (d & E & Hd & Hp).
        + intros; apply Hl; simpl; auto.
        + destruct Hok. split; [now apply dict_extend_nodup|apply dict_extend_nonempty; auto; discriminate].
        + exists d. split; auto. split; auto. rewrite Hp, dict_extend_pairs. simpl. rewrite <- app_assoc. reflexivity. }
    destruct (H (indices (a_shape a)) []) as (d & E & Hd & Hp).
    - intros ix Hix. apply in_indices_ravel in Hix as [r Hr]. unfold aget. rewrite Hr. eauto.
    - split; constructor.
    - exists d. auto.
  Qed.

  Lemma merge_dicts r d0 : dict_ok d0 -> Forall (fun kv => snd kv <> []) r ->
    dict_ok (fold_left (fun d kv => dict_extend eqk d (fst kv) (snd kv)) r d0) /\
    Permutation (dpairs (fold_left (fun d kv => dict_extend eqk d (fst kv) (snd kv)) r d0)) (dpairs d0 ++ dpairs r).
  Proof.
    revert d0; induction r as [|[k v] r IH]; intros d0 Hok Hr; simpl.
    - rewrite app_nil_r. auto.
    - inversion Hr; subst. destruct (IH (dict_extend eqk d0 k v)) as [H3 H4]; auto.
      { destruct Hok. split; [now apply dict_extend_nodup|apply dict_extend_nonempty; auto]. }
      split; auto. rewrite H4, dict_extend_pairs. rewrite <- app_assoc. reflexivity.
  Qed.

  Lemma insert_sorted_perm x l : Permutation (insert_sorted x l) (x :: l).
  Proof.
    induction l as [|y l IH]; simpl; auto. destruct (x <=? y); auto.
    rewrite IH. apply perm_swap.
  Qed.
  Lemma sort_perm l : Permutation (sort l) l.
  Proof. induction l; simpl; auto. rewrite insert_sorted_perm. auto. Qed.

  Definition all_pairs arrs (keys : list (list nat -> K)) : list (K * nat) :=
    flat_map (fun ak : arr * (list nat -> K) => map (fun ix => (snd ak ix, match aget (fst ak) ix with Some e => e | None => 0 end)) (indices (a_shape (fst ak)))) (combine arrs keys).

  Lemma gen_groups_spec arrs keys :
    exists gs, gen_groups eqk arrs keys = Some gs /\ dict_ok gs /\ Permutation (dpairs gs) (all_pairs arrs keys).
  Proof.
    unfold gen_groups, all_pairs.
    assert (forall l d0, dict_ok d0 ->
      exists d, fold_left (fun od (ak : arr * (list nat -> K)) => match od, distribute eqk (fst ak) (snd ak) with
          | Some d, Some r => Some (fold_left (fun d kv => dict_extend eqk d (fst kv) (snd kv)) r d) | _, _ => None end) l (Some d0) = Some d
       /\ dict_ok d /\ Permutation (dpairs d) (dpairs d0 ++ flat_map (fun ak => map (fun ix => (snd ak ix, match aget (fst ak) ix with Some e => e | None => 0 end)) (indices (a_shape (fst ak)))) l)) as H.
    { induction l as [|[a key] l IH]; intros d0 Hok; simpl.
      - exists d0. rewrite app_nil_r. auto.
      - destruct (distribute_spec a key) as (r & -> & [Hr1 Hr2] & Hrp).
        destruct (merge_dicts r d0 Hok Hr2) as [H1 H2].
        destruct (IH _ H1) as (d & E & Hd & Hp). exists d. split; auto. split; auto.
        rewrite Hp, H2, Hrp. rewrite <- app_assoc. reflexivity. }
    destruct (H (combine arrs keys) []) as (d & -> & [Hd1 Hd2] & Hp); [split; constructor|].
    eexists. split; [reflexivity|]. split; [split|].
    - rewrite map_map. simpl. exact Hd1.
    - apply Forall_map. eapply Forall_impl; [|exact Hd2]. intros [k v] Hv. simpl in *.
      intros E. apply Hv. apply Permutation_nil. rewrite <- E. apply sort_perm.
    - simpl in Hp. rewrite <- Hp. clear. induction d as [|[k v] d IH]; simpl; auto.
      apply Permutation_app; auto. apply Permutation_map. apply sort_perm.
  Qed.

  Lemma dpairs_snd d : map snd (dpairs d) = concat (map snd d).
  Proof.
    induction d as [|[k v] d IH]; simpl; auto. rewrite map_app, map_map, IH. simpl. now rewrite map_id.
  Qed.

  Lemma all_pairs_snd arrs keys base : length keys = length arrs -> consec base arrs ->
    map snd (all_pairs arrs keys) = seq base (total arrs).
  Proof.
    unfold all_pairs. revert keys base; induction arrs as [|a arrs IH]; intros [|k keys] base; simpl; try discriminate; auto.
    intros [= Hl] [Hb Hc]. rewrite map_app, map_map, (IH _ _ Hl Hc). simpl.
    rewrite seq_app. f_equal.
    pose proof (ravelF_indices_seq (a_shape a)) as H.
    transitivity (map (fun o => match o with Some r => a_base a + r | None => 0 end) (map (ravelF (a_shape a)) (indices (a_shape a)))).
    - rewrite map_map. apply map_ext. intros ix. unfold aget. destruct (ravelF _ ix); auto.
    - rewrite H, map_map, Hb. rewrite <- (seq_shift_by _ base 0). unfold asize. apply map_ext. intros; lia.
  Qed.

  Lemma all_pairs_in arrs keys k e : length keys = length arrs ->
    (In (k, e) (all_pairs arrs keys) <->
     exists R I key, nth_error keys R = Some key /\ num (Some arrs) R I e /\ key I = k).
  Proof.
    intros Hlen. unfold all_pairs. rewrite in_flat_map. split.
    - intros ([a key] & Hin & H). apply in_map_iff in H as (ix & E & Hix). simpl in *.
      apply in_indices_ravel in Hix as [r Hr].
      assert (exists R, nth_error arrs R = Some a /\ nth_error keys R = Some key) as (R & HR1 & HR2).
      { clear - Hin Hlen. revert keys Hin Hlen; induction arrs as [|b arrs IH]; intros [|k keys]; simpl; try contradiction; try discriminate.
        intros [E|Hin] [= Hl].
        - injection E as -> ->. exists 0. auto.
        - destruct (IH _ Hin Hl) as (R & ? & ?). exists (S R). auto. }
      unfold aget in E. rewrite Hr in E. injection E as <- <-.
      exists R, ix, key. repeat split; auto. exists arrs, a. repeat split; auto. unfold aget. now rewrite Hr.
    - intros (R & I & key & Hk & (? & a & [= <-] & Ha & Hg) & Hkey).
      exists (a, key). split.
      + clear - Ha Hk. revert arrs keys Ha Hk; induction R as [|R IH]; intros [|b arrs] [|k keys]; simpl; try discriminate.
        * intros [= ->] [= ->]. auto.
        * eauto.
      + apply in_map_iff. exists I. simpl. rewrite Hg, Hkey. split; auto. apply in_indices_ravel.
        unfold aget in Hg. destruct (ravelF _ I); [eauto|discriminate].
  Qed.

  Lemma groups_of_mesh diss keys : length keys = length diss ->
    exists arrs acc gs, gen_numbering 0 diss = Some (arrs, num_elements diss, acc) /\
      gen_groups eqk arrs keys = Some gs /\
      partition (num_elements diss) (map snd gs) /\ NoDup (map fst gs) /\ Forall (fun g => g <> []) (map snd gs) /\
      forall k g e, In (k, g) gs ->
        (In e g <-> exists R I key, nth_error keys R = Some key /\ element_number diss R I e /\ key I = k).
  Proof.
    intros Hl. destruct (gen_numbering_spec diss 0) as (arrs & E & Hs & Hc).
    destruct (gen_groups_spec arrs keys) as (gs & Hgs & [Hnd Hne] & Hp).
    assert (length keys = length arrs) as Hl' by (rewrite Hl, <- Hs; apply map_length).
    assert (total arrs = num_elements diss) as Ht by (unfold num_elements; rewrite <- Hs; apply total_sum).
    rewrite Ht in E. simpl in E.
    exists arrs, (map a_base arrs), gs. split; auto. split; auto.
    assert (Permutation (concat (map snd gs)) (seq 0 (num_elements diss))) as Hperm.
    { rewrite <- dpairs_snd, Hp, (all_pairs_snd arrs keys 0 Hl' Hc), Ht. reflexivity. }
    split; [split|split; [|split]]; auto.
    - eapply Permutation_NoDup; [symmetry; exact Hperm|apply seq_NoDup].
    - intros e. split.
      + intros H. apply (Permutation_in _ Hperm) in H. apply in_seq in H. lia.
      + intros H. apply (Permutation_in _ (Permutation_sym Hperm)). apply in_seq. lia.
    - now apply Forall_map.
    - intros k g e Hg. transitivity (In (k, e) (dpairs gs)).
      + unfold dpairs. rewrite in_flat_map. split.
        * intros He. exists (k, g). split; auto. simpl. now apply in_map.
        * intros ([k' g'] & Hin & H). simpl in H. apply in_map_iff in H as (e' & [= <- <-] & H).
          assert (g = g') as <-; [|auto].
          clear - Hnd Hg Hin. induction gs as [|[k1 g1] gs IH]; [destruct Hg|]. simpl in Hnd.
          inversion Hnd as [|? ? Hni Hnd']; subst.
          destruct Hg as [E|Hg], Hin as [E'|Hin].
          -- congruence.
          -- injection E as -> ->. exfalso. apply Hni. apply in_map_iff. exists (k', g'). auto.
          -- injection E' as -> ->. exfalso. apply Hni. apply in_map_iff. exists (k', g). auto.
          -- auto.
      + split.
        * intros H. apply (Permutation_in _ Hp) in H. apply all_pairs_in in H as (R & I & key & H1 & H2 & H3); auto.
          exists R, I, key. repeat split; auto. rewrite <- Hs. now apply num_element_number.
        * intros (R & I & key & H1 & H2 & H3). apply (Permutation_in _ (Permutation_sym Hp)). apply all_pairs_in; auto.
          exists R, I, key. repeat split; auto. apply num_element_number; auto. now rewrite Hs.
  Qed.
End Groups.

(** the data of an element is the data of the first element of its group *)
Lemma data_of_element_spec {A} (dd : nat -> option A) n c2e e2c g c r rest i :
  partition n c2e -> Forall (fun g => g <> []) c2e -> make_e2c n c2e = Some e2c ->
  nth_error c2e c = Some g -> g = r :: rest -> In i g -> data_of_element dd c2e e2c i = dd r.
Proof.
  intros Hp Hne He Hg -> Hi. unfold data_of_element.
  destruct (make_e2c_spec n c2e Hp) as (e2c' & E & _ & Hs). rewrite He in E. injection E as <-.
  rewrite (proj2 (Hs i c)) by eauto.
  destruct (mapM_ok (fun es : list nat => nth_error es 0) c2e) as [re Hre].
  { intros g0 Hg0. rewrite Forall_forall in Hne. specialize (Hne _ Hg0). destruct g0; [congruence|simpl; eauto]. }
  unfold ref_elements. rewrite Hre. apply mapM_forall2 in Hre.
  assert (nth_error re c = Some r) as ->; auto.
  clear - Hre Hg. revert c Hg; induction Hre as [|g0 r0 c2e re H1 H2 IH]; intros [|c]; simpl; try discriminate; eauto.
  intros [= ->]. simpl in H1. congruence.
Qed.
