(** Proofs for C66: stores. *)
From Coq Require Import List ZArith Reals Bool Arith Lia Permutation Lra Sorted.
From Verif Require Import MappingModel SignatureModel CochainModel CochainSpec.
Import ListNotations.

Section DictL.
Context {K V : Type} (keq : forall a b : K, {a = b} + {a <> b}).
Lemma get_put (d : list (K * V)) k v j : get keq (put keq d k v) j = if keq k j then Some v else get keq d j.
Proof.
  induction d as [| [k' v'] d IH]; cbn; [reflexivity |]. destruct (keq k' k) as [-> | N]; cbn.
  - destruct (keq k j); reflexivity.
  - rewrite IH. destruct (keq k' j) as [-> | M]; [| reflexivity]. destruct (keq k j); [subst; now contradiction N | reflexivity].
Qed.
Lemma keys_put (d : list (K * V)) k v : map fst (put keq d k v) = if in_dec keq k (map fst d) then map fst d else map fst d ++ [k].
Proof.
  induction d as [| [k' v'] d IH]; [reflexivity |]. cbn [put]. destruct (keq k' k) as [-> | N]; cbn [map fst].
  - destruct (in_dec keq k (k :: map fst d)) as [_ | F]; [reflexivity | contradiction F; now left].
  - rewrite IH. destruct (in_dec keq k (map fst d)) as [I | I], (in_dec keq k (k' :: map fst d)) as [J | J]; try reflexivity.
    + contradiction J. now right.
    + destruct J as [J | J]; contradiction.
Qed.
Lemma put_nodup (d : list (K * V)) k v : NoDup (map fst d) -> NoDup (map fst (put keq d k v)).
Proof.
  intros N. rewrite keys_put. destruct (in_dec keq k (map fst d)) as [I | I]; [exact N |].
  apply (Permutation_NoDup (Permutation_cons_append _ _)). now constructor.
Qed.
Lemma in_keys_put (d : list (K * V)) k v j : In j (map fst (put keq d k v)) <-> j = k \/ In j (map fst d).
Proof. rewrite keys_put. destruct (in_dec keq k (map fst d)) as [I | I]; [| rewrite in_app_iff; cbn]; intuition congruence. Qed.
Lemma get_in (d : list (K * V)) k v : get keq d k = Some v -> In (k, v) d.
Proof. induction d as [| [k' v'] d IH]; cbn; [discriminate |]. destruct (keq k' k) as [-> |]; [intros [= ->]; now left | auto]. Qed.
Lemma in_get (d : list (K * V)) k v : NoDup (map fst d) -> In (k, v) d -> get keq d k = Some v.
Proof.
  induction d as [| [k' v'] d IH]; cbn; [contradiction |]. intros N [E | I]; inversion N as [| x l N1 N2]; subst.
  - injection E as -> ->. destruct (keq k k); [reflexivity | contradiction].
  - destruct (keq k' k) as [-> | _]; [contradiction N1; apply in_map_iff; now exists (k, v) | now apply IH].
Qed.
Lemma get_none (d : list (K * V)) k : get keq d k = None <-> ~ In k (map fst d).
Proof.
  induction d as [| [k' v'] d IH]; cbn; [tauto |]. destruct (keq k' k) as [-> | N]; [split; [discriminate | intros F; contradiction F; now left] |]. rewrite IH. tauto.
Qed.
Lemma get_some (d : list (K * V)) k : In k (map fst d) -> exists v, get keq d k = Some v.
Proof. intros I. destruct (get keq d k) as [v |] eqn:E; [now exists v |]. apply get_none in E. contradiction. Qed.
Lemma get_del (d : list (K * V)) k j : get keq (del keq d k) j = if keq k j then None else get keq d j.
Proof.
  unfold del. induction d as [| [k' v'] d IH]; cbn; [now destruct (keq k j) |]. destruct (keq k' k) as [-> | N]; cbn.
  - rewrite IH. destruct (keq k j); reflexivity.
  - rewrite IH. destruct (keq k' j) as [-> |]; [| reflexivity]. destruct (keq k j); [subst; contradiction | reflexivity].
Qed.
Lemma in_keys_del (d : list (K * V)) k j : In j (map fst (del keq d k)) <-> j <> k /\ In j (map fst d).
Proof.
  unfold del. rewrite !in_map_iff. split.
  - intros ((a, b) & <- & I). apply filter_In in I. destruct I as [I F]. cbn in *. destruct (keq a k); [discriminate |]. split; [assumption |]. now exists (a, b).
  - intros (N & (a, b) & <- & I). exists (a, b). split; [reflexivity |]. apply filter_In. split; [exact I |]. cbn in *. now destruct (keq a k).
Qed.
Lemma del_nodup (d : list (K * V)) k : NoDup (map fst d) -> NoDup (map fst (del keq d k)).
Proof.
  unfold del. induction d as [| [a b] d IH]; [easy |]. cbn. intros N. inversion N as [| x l N1 N2]; subst. destruct (keq a k); cbn; [auto |]. constructor; [| auto].
  intros F. apply N1. apply in_map_iff in F. destruct F as ((a', b') & <- & F). apply filter_In in F. apply in_map_iff. now exists (a', b').
Qed.
End DictL.

Lemma filter_length_le {A} (f : A -> bool) l : (length (filter f l) <= length l)%nat.
Proof. induction l as [| x l IH]; cbn; [lia |]. destruct (f x); cbn; lia. Qed.
(** ** sorting *)
Lemma insert_perm x l : Permutation (insert x l) (x :: l).
Proof. induction l as [| y l IH]; cbn; [reflexivity |]. destruct (x <=? y)%Z; [reflexivity |]. rewrite IH. apply perm_swap. Qed.
Lemma sorted_perm l : Permutation (sorted_times l) l.
Proof. induction l as [| x l IH]; cbn; [reflexivity |]. rewrite insert_perm. now constructor. Qed.
Lemma insert_sorted x l : StronglySorted Z.le l -> StronglySorted Z.le (insert x l).
Proof.
  induction l as [| y l IH]; cbn; intros H; [repeat constructor |]. inversion H as [| a m H1 H2]; subst. destruct (x <=? y)%Z eqn:E.
  - apply Z.leb_le in E. constructor; [exact H |]. constructor; [exact E |]. eapply Forall_impl; [| exact H2]. cbn. lia.
  - apply Z.leb_gt in E. constructor; [now apply IH |]. rewrite (insert_perm x l). constructor; [lia | exact H2].
Qed.
Lemma sorted_sorted l : StronglySorted Z.le (sorted_times l).
Proof. induction l as [| x l IH]; cbn; [constructor | now apply insert_sorted]. Qed.
Lemma sorted_in l x : In x (sorted_times l) <-> In x l.
Proof. split; apply Permutation_in; [| symmetry]; apply sorted_perm. Qed.
Lemma sorted_length l : length (sorted_times l) = length l.
Proof. apply Permutation_length, sorted_perm. Qed.
Lemma sorted_nodup l : NoDup l -> NoDup (sorted_times l).
Proof. apply Permutation_NoDup. symmetry. apply sorted_perm. Qed.
Lemma strict l : StronglySorted Z.le l -> NoDup l -> StronglySorted Z.lt l.
Proof.
  induction 1 as [| x l H IH F]; intros N; [constructor |]. inversion N as [| y m N1 N2]; subst. constructor; [auto |].
  rewrite Forall_forall in *. intros y I. specialize (F y I). assert (y <> x) by (intros ->; contradiction). lia.
Qed.
Lemma insert_id x l : Forall (Z.lt x) l -> insert x l = x :: l.
Proof. destruct l as [| y l]; [reflexivity |]. intros H. inversion H; subst. cbn. now destruct (Z.leb_spec x y); [| lia]. Qed.
Lemma sorted_id l : StronglySorted Z.lt l -> sorted_times l = l.
Proof. induction 1 as [| x l H IH F]; [reflexivity |]. cbn. rewrite IH. now apply insert_id. Qed.
Lemma last_ones_in {A} k (l : list A) x : In x (last_ones k l) -> In x l.
Proof. intros H. unfold last_ones in H. rewrite <- (firstn_skipn (length l - k) l). apply in_or_app. now right. Qed.
Lemma last_ones_length {A} k (l : list A) : (k <= length l)%nat -> length (last_ones k l) = k.
Proof. intros H. unfold last_ones. rewrite skipn_length. lia. Qed.
Lemma sorted_app_lt (p q : list Z) x y : StronglySorted Z.lt (p ++ q) -> In x p -> In y q -> (x < y)%Z.
Proof.
  induction p as [| a p IH]; cbn; [contradiction |]. intros H [-> | I] J; inversion H as [| b m H1 H2]; subst; [| now apply IH].
  rewrite Forall_forall in H2. apply H2. apply in_or_app. now right.
Qed.
Lemma filter_length_perm {A} (f : A -> bool) l l' : Permutation l l' -> length (filter f l) = length (filter f l').
Proof. induction 1; cbn; try destruct (f x); try destruct (f y); cbn; congruence. Qed.
Lemma filter_all {A} (f : A -> bool) l : (forall x, In x l -> f x = true) -> filter f l = l.
Proof. induction l as [| x l IH]; [reflexivity |]. intros H. cbn. rewrite (H x (or_introl eq_refl)). f_equal. apply IH. intros y I. apply H. now right. Qed.
Lemma filter_none {A} (f : A -> bool) l : (forall x, In x l -> f x = false) -> filter f l = [].
Proof. induction l as [| x l IH]; [reflexivity |]. intros H. cbn. rewrite (H x (or_introl eq_refl)). apply IH. intros y I. apply H. now right. Qed.
Lemma sorted_app_r (p q : list Z) : StronglySorted Z.lt (p ++ q) -> StronglySorted Z.lt q.
Proof. induction p as [| a p IH]; cbn; [easy |]. intros H. inversion H; subst. auto. Qed.
(** the last k of the sorted list are the k largest *)
Lemma last_ones_largest k l u : NoDup l -> (In u (last_ones k (sorted_times l)) <-> among_largest k l u).
Proof.
  intros N. unfold among_largest. rewrite <- (filter_length_perm _ _ _ (sorted_perm l)). rewrite <- (sorted_in l u).
  pose proof (strict _ (sorted_sorted l) (sorted_nodup _ N)) as T. revert T. generalize (sorted_times l). clear l N. intros l T.
  assert (D : l = firstn (length l - k) l ++ last_ones k l) by (symmetry; apply firstn_skipn).
  assert (L : (length (last_ones k l) <= k)%nat) by (unfold last_ones; rewrite skipn_length; lia).
  assert (L2 : In u (firstn (length l - k) l) -> length (last_ones k l) = k).
  { intros I. unfold last_ones. rewrite skipn_length. assert (length (firstn (length l - k) l) <> 0)%nat by (destruct (firstn (length l - k) l); [contradiction | cbn; lia]). rewrite firstn_length in H. lia. }
  revert D L L2. generalize (firstn (length l - k) l) (last_ones k l). intros p q -> L L2. split.
  - intros I. split; [apply in_or_app; now right |]. rewrite filter_app, app_length, (filter_none _ p); [cbn | intros x J; pose proof (sorted_app_lt _ _ _ _ T J I); apply Z.ltb_ge; lia].
    apply sorted_app_r in T. clear - T I L. enough (length (filter (fun v => (u <? v)%Z) q) < length q)%nat by lia. clear L. induction T as [| x q T IH F]; [contradiction |]. cbn.
    destruct I as [-> | I]; [rewrite Z.ltb_irrefl; pose proof (filter_length_le (fun v => (u <? v)%Z) q); lia |]. specialize (IH I). destruct (u <? x)%Z; cbn; lia.
  - intros [I C]. apply in_app_or in I. destruct I as [I | I]; [exfalso | exact I]. specialize (L2 I).
    rewrite filter_app, app_length in C. rewrite (filter_all _ q) in C; [lia |]. intros x J. apply Z.ltb_lt. eapply sorted_app_lt; eassumption.
Qed.

Section StoreL.
Context {C : Type}.
Implicit Types s : store C.
Lemma pick_some (d : list (Z * C)) ks : (forall k, In k ks -> In k (map fst d)) -> exists e, pick d ks = Some e.
Proof.
  induction ks as [| k ks IH]; intros H; [now exists [] |]. destruct IH as (e & E); [intros j I; apply H; now right |].
  destruct (get_some Z.eq_dec d k) as (c & G); [apply H; now left |]. exists ((k, c) :: e). cbn. now rewrite G, E.
Qed.
Lemma pick_keys (d : list (Z * C)) ks e : pick d ks = Some e -> map fst e = ks.
Proof.
  revert e. induction ks as [| k ks IH]; cbn; intros e; [now intros [= <-] |]. destruct (get Z.eq_dec d k) as [c |]; [| discriminate]. destruct (pick d ks) as [e' |]; [| discriminate].
  intros [= <-]. cbn. f_equal. now apply IH.
Qed.
Lemma pick_get (d : list (Z * C)) ks e k : pick d ks = Some e -> get Z.eq_dec e k = if in_dec Z.eq_dec k ks then get Z.eq_dec d k else None.
Proof.
  revert e. induction ks as [| a ks IH]; cbn [pick]; intros e; [now intros [= <-] |]. destruct (get Z.eq_dec d a) as [c |] eqn:G; [| discriminate]. destruct (pick d ks) as [e' |]; [| discriminate].
  intros [= <-]. cbn [get]. destruct (Z.eq_dec a k) as [-> | N].
  - destruct (in_dec Z.eq_dec k (k :: ks)) as [_ | F]; [now rewrite G | contradiction F; now left].
  - rewrite (IH e' eq_refl). destruct (in_dec Z.eq_dec k ks) as [I | I], (in_dec Z.eq_dec k (a :: ks)) as [J | J]; try reflexivity; [contradiction J; now right | destruct J; contradiction].
Qed.
Lemma zmax_none l : zmax l = None -> l = [].
Proof. destruct l as [| x l]; [reflexivity |]. cbn. destruct (zmax l); discriminate. Qed.
Lemma zmax_some l t : zmax l = Some t -> In t l /\ forall u, In u l -> (u <= t)%Z.
Proof.
  revert t. induction l as [| x l IH]; cbn; [discriminate |]. intros t. destruct (zmax l) as [y |] eqn:E; intros [= <-].
  - destruct (IH y eq_refl) as [I M]. split; [destruct (Z.max_spec x y) as [[_ ->] | [_ ->]]; auto |]. intros u [-> | J]; [lia | specialize (M u J); lia].
  - apply zmax_none in E. subst l. split; [now left |]. intros u [-> | []]. lia.
Qed.
Lemma zmax_right (d : list (Z * C)) : newest_right (Store d (zmax (map fst d))).
Proof. unfold newest_right, times_of; cbn [newest tcd]. destruct (zmax (map fst d)) as [t |] eqn:E; [now apply zmax_some | now apply zmax_none]. Qed.

Definition ok s : Prop := NoDup (times_of s).
(** *** clean(-k) *)
Lemma clean_last_spec k s : (1 <= k)%nat -> ok s -> exists s', clean_last k s = Some s' /\ ok s' /\ newest_right s' /\
  length (tcd s') = Nat.min k (length (tcd s)) /\ forall u, (among_largest k (times_of s) u -> get_cochain (Some u) s' = get_cochain (Some u) s) /\ (~ among_largest k (times_of s) u -> get_cochain (Some u) s' = None).
Proof.
  intros K O. unfold clean_last. destruct k as [| k']; [lia |]. set (k := S k') in *. rewrite sorted_length. unfold times_of at 1; rewrite map_length.
  destruct (length (tcd s) <=? k)%nat eqn:E.
  - apply Nat.leb_le in E. exists (Store (tcd s) (zmax (map fst (tcd s)))). split; [reflexivity |]. split; [exact O |]. split; [apply zmax_right |]. split; [cbn [tcd]; lia |]. intros u. split; [reflexivity |].
    intros H. cbn. apply (get_none Z.eq_dec). intros I. apply H. split; [exact I |]. clear H.
    assert (Q : length (times_of s) = length (tcd s)) by (unfold times_of; apply map_length). enough (length (filter (fun v => (u <? v)%Z) (times_of s)) < length (times_of s))%nat by lia. clear Q.
    change (In u (times_of s)) in I. clear - I. induction (times_of s) as [| x q IH]; [contradiction |]. cbn.
    destruct I as [-> | I]; [rewrite Z.ltb_irrefl; pose proof (filter_length_le (fun v => (u <? v)%Z) q); lia |]. specialize (IH I). destruct (u <? x)%Z; cbn; lia.
  - apply Nat.leb_gt in E. destruct (pick_some (tcd s) (last_ones k (sorted_times (times_of s)))) as (e & P).
    { intros j I. apply last_ones_in in I. exact (proj1 (sorted_in _ _) I). }
    rewrite P. exists (Store e (zmax (map fst e))). split; [reflexivity |]. pose proof (pick_keys _ _ _ P) as Q. split.
    + unfold ok, times_of; cbn. rewrite Q. unfold last_ones. pose proof (sorted_nodup _ O) as N. rewrite <- (firstn_skipn (length (sorted_times (times_of s)) - k)) in N. revert N. generalize (firstn (length (sorted_times (times_of s)) - k) (sorted_times (times_of s))). intros p.
      induction p as [| a p IH]; cbn; [easy |]. intros N. inversion N; subst. auto.
    + split; [apply zmax_right |]. split; [cbn [tcd]; rewrite <- (map_length fst), Q, last_ones_length; [lia | rewrite sorted_length; unfold times_of; rewrite map_length; lia] |].
      intros u. cbn [get_cochain tcd]. rewrite (pick_get _ _ _ u P). destruct (in_dec Z.eq_dec u (last_ones k (sorted_times (times_of s)))) as [I | I]; rewrite (last_ones_largest k _ u O) in I; split; intros; try reflexivity; contradiction.
Qed.
Lemma add_time_ok t c s : ok s -> ok (add_time t c s).
Proof. unfold ok, times_of, add_time; cbn. apply put_nodup. Qed.
Lemma add_time_right t c s : newest_right s -> newest_right (add_time t c s).
Proof.
  unfold newest_right, times_of, add_time; cbn [newest tcd]. destruct (newest s) as [u |]; intros H.
  - destruct H as [I M]. rewrite in_keys_put. split; [destruct (Z.max_spec u t) as [[_ ->] | [_ ->]]; auto |]. intros v J. apply in_keys_put in J. destruct J as [-> | J]; [lia | specialize (M v J); lia].
  - rewrite in_keys_put. split; [now left |]. intros v J. apply in_keys_put in J. rewrite H in J. destruct J as [-> | []]. lia.
Qed.
Lemma put_length (d : list (Z * C)) k v : (length (put Z.eq_dec d k v) <= S (length d))%nat.
Proof. induction d as [| [k' v'] d IH]; cbn; [lia |]. destruct (Z.eq_dec k' k); cbn; lia. Qed.
Lemma get_add t c s u : get_cochain (Some u) (add_time t c s) = if Z.eq_dec t u then Some c else get_cochain (Some u) s.
Proof. cbn. apply get_put. Qed.
(** *** _set *)
Lemma set_spec l t c s : ok s -> accepted (Set_ l t c) -> exists s', set_cochain l t c s = Some s' /\ ok s' /\ (newest_right s -> newest_right s') /\
  get_cochain (Some t) s' = Some c /\
  (forall u, u <> t -> match l with
     | Some k => if (k <=? length (tcd s))%nat then (among_largest (k - 1) (times_of s) u -> get_cochain (Some u) s' = get_cochain (Some u) s) /\ (~ among_largest (k - 1) (times_of s) u -> get_cochain (Some u) s' = None)
                 else get_cochain (Some u) s' = get_cochain (Some u) s
     | None => get_cochain (Some u) s' = get_cochain (Some u) s end) /\
  match l with Some k => (length (tcd s') <= Nat.max k (length (tcd s)))%nat /\ (length (tcd s') <= k)%nat | None => True end.
Proof.
  intros O A. unfold set_cochain. destruct l as [k |].
  - cbn in A. destruct (2 <=? k)%nat eqn:E2; [| apply Nat.leb_gt in E2; lia]. destruct (k <=? length (tcd s))%nat eqn:E.
    + apply Nat.leb_le in E. destruct (clean_last_spec (k - 1) s ltac:(lia) O) as (s1 & -> & O1 & R1 & L1 & G1).
      replace (length (tcd s1) =? k - 1)%nat with true by (symmetry; apply Nat.eqb_eq; lia). exists (add_time t c s1). split; [reflexivity |].
      split; [now apply add_time_ok |]. split; [intros _; now apply add_time_right |]. split; [rewrite get_add; now destruct (Z.eq_dec t t) |]. split.
      * intros u N. rewrite get_add. destruct (Z.eq_dec t u) as [-> |]; [contradiction |]. apply G1.
      * pose proof (put_length (tcd s1) t c). cbn [add_time tcd]. lia.
    + apply Nat.leb_gt in E. exists (add_time t c s). split; [reflexivity |].
      split; [now apply add_time_ok |]. split; [apply add_time_right |]. split; [rewrite get_add; now destruct (Z.eq_dec t t) |]. split.
      * intros u N. rewrite get_add. now destruct (Z.eq_dec t u) as [-> |].
      * pose proof (put_length (tcd s) t c). cbn [add_time tcd]. lia.
  - exists (add_time t c s). split; [reflexivity |]. split; [now apply add_time_ok |]. split; [apply add_time_right |]. split; [rewrite get_add; now destruct (Z.eq_dec t t) |]. split; [| exact I].
    intros u N. rewrite get_add. now destruct (Z.eq_dec t u) as [-> |].
Qed.
Lemma set_accepted l t c s s' : set_cochain l t c s = Some s' -> accepted (Set_ l t c).
Proof. unfold set_cochain, accepted. destruct l as [k |]; [| easy]. destruct (2 <=? k)%nat eqn:E; [| discriminate]. intros _. now apply Nat.leb_le. Qed.
Lemma clean_newest_spec s s' : clean_newest s = Some s' -> ok s' /\ newest_right s' /\ (length (tcd s') <= 1)%nat /\ forall u c, get_cochain (Some u) s' = Some c -> get_cochain (Some u) s = Some c.
Proof.
  unfold clean_newest. destruct (newest s) as [t |]; [| intros [= <-]; repeat split; cbn; [constructor | lia | discriminate]].
  destruct (get Z.eq_dec (tcd s) t) as [c |] eqn:G; [| discriminate]. intros [= <-]. split; [unfold ok, times_of; cbn; repeat constructor; easy |]. split; [unfold newest_right, times_of; cbn; split; [now left | intros u [-> | []]; lia] |].
  split; [cbn; lia |]. intros u c'. cbn. destruct (Z.eq_dec t u) as [-> |]; [now rewrite G | discriminate].
Qed.
Lemma op_ok o s s' : ok s -> do_op o s = Some s' -> ok s'.
Proof.
  intros O H. destruct o as [l t c | | k | | t]; cbn in H.
  - destruct (set_spec l t c s O (set_accepted _ _ _ _ _ H)) as (s1 & E & O1 & _). rewrite E in H. injection H as <-. exact O1.
  - now apply clean_newest_spec in H.
  - destruct k as [| k]; [discriminate |]. destruct (clean_last_spec (S k) s ltac:(lia) O) as (s1 & E & O1 & _). rewrite E in H. injection H as <-. exact O1.
  - injection H as <-. constructor.
  - injection H as <-. unfold ok, times_of; cbn. now apply del_nodup.
Qed.
Lemma op_right o s s' : ok s -> newest_right s -> match o with CleanAt t => newest s <> Some t | _ => True end -> do_op o s = Some s' -> newest_right s'.
Proof.
  intros O R A H. destruct o as [l t c | | k | | t]; cbn in H.
  - destruct (set_spec l t c s O (set_accepted _ _ _ _ _ H)) as (s1 & E & _ & R1 & _). rewrite E in H. injection H as <-. auto.
  - now apply clean_newest_spec in H.
  - destruct k as [| k]; [discriminate |]. destruct (clean_last_spec (S k) s ltac:(lia) O) as (s1 & E & _ & R1 & _). rewrite E in H. injection H as <-. exact R1.
  - injection H as <-. reflexivity.
  - injection H as <-. unfold newest_right, times_of in *; cbn [newest tcd]. destruct (newest s) as [u |].
    + destruct R as [I M]. rewrite in_keys_del. split; [split; congruence |]. intros v J. apply in_keys_del in J. now apply M.
    + destruct (tcd s); [reflexivity | discriminate].
Qed.
Lemma run_right os : forall s s', ok s -> newest_right s -> careful os s -> run os s = Some s' -> ok s' /\ newest_right s'.
Proof.
  induction os as [| o os IH]; cbn [run careful]; intros s s' O R Ca H; [injection H as <-; auto |].
  destruct (do_op o s) as [s1 |] eqn:E; [| discriminate]. destruct Ca as [A Ca]. apply (IH s1 s'); [eapply op_ok; eassumption | eapply op_right; eassumption | exact Ca | exact H].
Qed.
Lemma store_newest os s : careful os empty_store -> run os empty_store = Some s -> newest_right s.
Proof. intros Ca H. apply (run_right os empty_store s); [constructor | reflexivity | exact Ca | exact H]. Qed.
Lemma clean_newest_right s : newest_right s -> exists s', clean_newest s = Some s'.
Proof.
  unfold newest_right, clean_newest. destruct (newest s) as [t |]; [| intros _; eexists; reflexivity]. intros [I _]. destruct (get_some Z.eq_dec (tcd s) t I) as (c & ->). eexists; reflexivity.
Qed.
Lemma run_total os : forall s, ok s -> newest_right s -> careful os s -> Forall accepted os -> exists s', run os s = Some s'.
Proof.
  induction os as [| o os IH]; cbn [run careful]; intros s O R Ca F; [now exists s |]. inversion F as [| x l F1 F2]; subst. destruct Ca as [A Ca].
  assert (E : exists s1, do_op o s = Some s1).
  { destruct o as [l t c | | k | | t]; cbn.
    - destruct (set_spec l t c s O F1) as (s1 & E & _). now exists s1.
    - now apply clean_newest_right.
    - destruct (clean_last_spec k s F1 O) as (s1 & E & _). now exists s1.
    - eexists; reflexivity.
    - eexists; reflexivity. }
  destruct E as (s1 & E). rewrite E in *. apply IH; [eapply op_ok; eassumption | eapply op_right; eassumption | exact Ca | exact F2].
Qed.
Lemma store_total os : careful os empty_store -> Forall accepted os -> exists s, run os empty_store = Some s.
Proof. apply run_total; [constructor | reflexivity]. Qed.
Lemma op_sound o s s' u c : ok s -> do_op o s = Some s' -> get_cochain (Some u) s' = Some c -> (exists l, o = Set_ l u c) \/ ((forall l c', o <> Set_ l u c') /\ get_cochain (Some u) s = Some c).
Proof.
  intros O H G. destruct o as [l t d | | k | | t]; cbn in H.
  - destruct (Z.eq_dec t u) as [-> | N].
    + left. destruct (set_spec l u d s O (set_accepted _ _ _ _ _ H)) as (s1 & E & _ & _ & G1 & _). rewrite E in H. injection H as <-. rewrite G1 in G. injection G as <-. now exists l.
    + right. split; [congruence |]. destruct (set_spec l t d s O (set_accepted _ _ _ _ _ H)) as (s1 & E & _ & _ & _ & G1 & _). rewrite E in H. injection H as <-. specialize (G1 u ltac:(congruence)).
      destruct l as [k |]; [| congruence]. destruct (k <=? length (tcd s))%nat; [| congruence].
      destruct (in_dec Z.eq_dec u (last_ones (k - 1) (sorted_times (times_of s)))) as [J | J]; rewrite (last_ones_largest _ _ u O) in J; destruct G1 as [G1 G2]; [now rewrite <- G1 | rewrite G2 in G by exact J; discriminate].
  - right. split; [congruence |]. apply clean_newest_spec in H. now apply (proj2 (proj2 (proj2 H))).
  - right. split; [congruence |]. destruct k as [| k]; [discriminate |]. destruct (clean_last_spec (S k) s ltac:(lia) O) as (s1 & E & _ & _ & _ & G1). rewrite E in H. injection H as <-. destruct (G1 u) as [G2 G3].
    destruct (in_dec Z.eq_dec u (last_ones (S k) (sorted_times (times_of s)))) as [J | J]; rewrite (last_ones_largest _ _ u O) in J; [now rewrite <- G2 | rewrite G3 in G by exact J; discriminate].
  - injection H as <-. discriminate.
  - injection H as <-. right. split; [congruence |]. cbn in *. rewrite get_del in G. destruct (Z.eq_dec t u); [discriminate | exact G].
Qed.
Lemma run_sound os : forall s s' u c, ok s -> run os s = Some s' -> get_cochain (Some u) s' = Some c -> last_set os u = Some c \/ (last_set os u = None /\ get_cochain (Some u) s = Some c).
Proof.
  induction os as [| o os IH]; cbn [run last_set]; intros s s' u c O H G; [injection H as <-; auto |].
  destruct (do_op o s) as [s1 |] eqn:E; [| discriminate]. destruct (IH s1 s' u c (op_ok _ _ _ O E) H G) as [L | [L G1]]; rewrite L; [now left |].
  destruct (op_sound o s s1 u c O E G1) as [[l ->] | [N G2]].
  - left. now destruct (Z.eq_dec u u).
  - right. split; [| exact G2]. destruct o as [l t d | | | |]; try reflexivity. destruct (Z.eq_dec t u) as [-> |]; [now contradiction (N l d) | reflexivity].
Qed.
Lemma store_sound os s t c : run os empty_store = Some s -> get_cochain (Some t) s = Some c -> last_set os t = Some c.
Proof. intros H G. destruct (run_sound os empty_store s t c ltac:(constructor) H G) as [L | [_ F]]; [exact L | discriminate F]. Qed.
Lemma run_bounded n os : (2 <= n)%nat -> forall s s', ok s -> (length (tcd s) <= n)%nat -> Forall (within n) os -> run os s = Some s' -> (length (tcd s') <= n)%nat.
Proof.
  intros N2. induction os as [| o os IH]; cbn [run]; intros s s' O L F H; [injection H as <-; auto |]. inversion F as [| x l F1 F2]; subst.
  destruct (do_op o s) as [s1 |] eqn:E; [| discriminate]. apply (IH s1 s'); [eapply op_ok; eassumption | | exact F2 | exact H]. clear H.
  destruct o as [l t c | | k | | t]; cbn in E.
  - destruct (set_spec l t c s O (set_accepted _ _ _ _ _ E)) as (s2 & E' & _ & _ & _ & _ & B). rewrite E' in E. injection E as <-. destruct l as [k |]; cbn in F1; [lia | contradiction].
  - apply clean_newest_spec in E. lia.
  - destruct k as [| k]; [discriminate |]. destruct (clean_last_spec (S k) s ltac:(lia) O) as (s2 & E' & _ & _ & B & _). rewrite E' in E. injection E as <-. lia.
  - injection E as <-. cbn. lia.
  - injection E as <-. cbn. unfold del. pose proof (filter_length_le (fun kv : Z * C => if Z.eq_dec (fst kv) t then false else true) (tcd s)). lia.
Qed.
Lemma store_bounded n os s : (2 <= n)%nat -> Forall (within n) os -> run os empty_store = Some s -> (length (tcd s) <= n)%nat.
Proof. intros N F. apply (run_bounded n os N empty_store s); [constructor | cbn; lia | exact F]. Qed.
(** *** increasing times *)
Lemma put_new (d : list (Z * C)) t c : ~ In t (map fst d) -> put Z.eq_dec d t c = d ++ [(t, c)].
Proof. induction d as [| [k v] d IH]; cbn; [reflexivity |]. intros H. destruct (Z.eq_dec k t); [contradiction H; now left |]. f_equal. apply IH. tauto. Qed.
Lemma pick_cons a (d : list (Z * C)) ks : ~ In (fst a) ks -> pick (a :: d) ks = pick d ks.
Proof.
  destruct a as [k c]. cbn [fst]. induction ks as [| x ks IH]; intros H; [reflexivity |]. cbn [pick get]. destruct (Z.eq_dec k x) as [-> |]; [contradiction H; now left |]. rewrite IH; [reflexivity |]. intros F. apply H. now right.
Qed.
Lemma pick_self (d : list (Z * C)) : NoDup (map fst d) -> pick d (map fst d) = Some d.
Proof.
  induction d as [| [k c] d IH]; cbn [map fst]; [reflexivity |]. intros N. inversion N as [| x l N1 N2]; subst. cbn [pick get]. destruct (Z.eq_dec k k) as [_ | F]; [| contradiction]. rewrite pick_cons by exact N1. now rewrite (IH N2).
Qed.
Lemma pick_tail n (d : list (Z * C)) : NoDup (map fst d) -> pick d (skipn n (map fst d)) = Some (skipn n d).
Proof.
  revert d. induction n as [| n IH]; intros d N; [cbn [skipn]; now apply pick_self |]. destruct d as [| a d]; [reflexivity |]. cbn [map skipn]. cbn [map] in N. inversion N as [| x l N1 N2]; subst.
  rewrite pick_cons; [now apply IH |]. intros F. apply N1. rewrite <- (firstn_skipn n (map fst d)). apply in_or_app. now right.
Qed.
Lemma sorted_nodup' l : StronglySorted Z.lt l -> NoDup l.
Proof. induction 1 as [| x l H IH F]; constructor; [| exact IH]. intros I. rewrite Forall_forall in F. specialize (F x I). lia. Qed.
Lemma skipn_add {A} a b (l : list A) : skipn a (skipn b l) = skipn (a + b) l.
Proof. revert l. induction b as [| b IH]; intros l; [now rewrite Nat.add_0_r |]. destruct l as [| x l]; [now rewrite !skipn_nil |]. rewrite Nat.add_succ_r. cbn [skipn]. apply IH. Qed.
Lemma sets_increasing k (l : list (Z * C)) : (2 <= k)%nat -> StronglySorted Z.lt (map fst l) ->
  exists s, run (map (fun tc => Set_ (Some k) (fst tc) (snd tc)) l) empty_store = Some s /\ tcd s = last_ones k l.
Proof.
  intros K. induction l as [| [t c] l IH] using rev_ind; intros H; [now exists empty_store |].
  rewrite map_app in H. cbn [map fst] in H.
  assert (H1 : StronglySorted Z.lt (map fst l)).
  { clear - H. induction (map fst l) as [| x m IH]; [constructor |]. cbn in H. inversion H as [| y n H1 H2]; subst. constructor; [auto |]. apply Forall_app in H2. tauto. }
  assert (H2 : forall u, In u (map fst l) -> (u < t)%Z) by (intros u I; eapply sorted_app_lt; [exact H | exact I | now left]).
  destruct (IH H1) as (s & R & T). rewrite map_app. cbn [map fst snd].
  assert (RA : forall os1 (s0 s1 : store C) o, run os1 s0 = Some s1 -> run (os1 ++ [o]) s0 = do_op o s1).
  { clear. induction os1 as [| o1 os1 IH]; cbn [run app]; intros s0 s1 o E; [injection E as <-; now destruct (do_op o s0) |]. destruct (do_op o1 s0); [now apply IH | discriminate]. }
  rewrite (RA _ _ _ _ R). clear RA R IH. cbn [do_op]. unfold set_cochain. replace (2 <=? k)%nat with true by (symmetry; now apply Nat.leb_le).
  assert (Len : length (tcd s) = Nat.min k (length l)) by (rewrite T; unfold last_ones; rewrite skipn_length; lia).
  assert (Ss : StronglySorted Z.lt (times_of s)).
  { unfold times_of. rewrite T. unfold last_ones. rewrite <- skipn_map. eapply sorted_app_r. rewrite firstn_skipn. exact H1. }
  assert (Nw : ~ In t (map fst (tcd s))).
  { intros I. rewrite T in I. apply in_map_iff in I. destruct I as (tc & <- & I). apply last_ones_in in I. assert (J : In (fst tc) (map fst l)) by now apply in_map. apply H2 in J. lia. }
  destruct (k <=? length (tcd s))%nat eqn:E.
  - apply Nat.leb_le in E. unfold clean_last. destruct (k - 1)%nat as [| k'] eqn:EK; [lia |]. rewrite (sorted_id _ Ss). unfold times_of at 1. rewrite map_length.
    replace (length (tcd s) <=? S k')%nat with false by (symmetry; apply Nat.leb_gt; lia). unfold last_ones, times_of. rewrite map_length. rewrite pick_tail by (apply sorted_nodup'; exact Ss).
    cbn [tcd]. rewrite skipn_length. replace (length (tcd s) - (length (tcd s) - S k') =? S k')%nat with true by (symmetry; apply Nat.eqb_eq; lia).
    eexists. split; [reflexivity |]. cbn [add_time tcd]. rewrite put_new.
    + rewrite T. unfold last_ones at 1 2. rewrite skipn_add. unfold last_ones. rewrite app_length, skipn_length; cbn [length]. rewrite skipn_app. replace (length l + 1 - k - length l)%nat with 0%nat by lia. cbn [skipn]. f_equal. f_equal. lia.
    + intros I. apply Nw. apply in_map_iff in I. destruct I as (tc & <- & I). apply in_map. rewrite <- (firstn_skipn (length (tcd s) - S k') (tcd s)). apply in_or_app. now right.
  - apply Nat.leb_gt in E. eexists. split; [reflexivity |]. cbn [add_time tcd]. rewrite put_new by exact Nw. rewrite T. unfold last_ones. rewrite app_length; cbn [length].
    replace (length l - k)%nat with 0%nat by lia. replace (length l + 1 - k)%nat with 0%nat by lia. reflexivity.
Qed.
(** *** the times that are saved *)
Lemma time_range_spec what s ts : ok s -> time_range what s = Some ts ->
  NoDup ts /\ forall u, In u ts <-> match what with None => In u (times_of s) | Some n => among_largest n (times_of s) u end.
Proof.
  intros O. unfold time_range. destruct what as [[| n] |]; [discriminate | | intros [= <-]; split; [exact O | reflexivity]].
  set (k := S n). rewrite sorted_length. destruct (length (times_of s) <=? k)%nat eqn:E; intros [= <-].
  - split; [now apply sorted_nodup |]. intros u. rewrite <- last_ones_largest by exact O. unfold last_ones. rewrite sorted_length. apply Nat.leb_le in E. replace (length (times_of s) - k)%nat with 0%nat by lia. reflexivity.
  - split; [| intros u; now apply last_ones_largest]. pose proof (sorted_nodup _ O) as N. unfold last_ones. rewrite <- (firstn_skipn (length (sorted_times (times_of s)) - k)) in N. revert N. generalize (firstn (length (sorted_times (times_of s)) - k) (sorted_times (times_of s))). intros p.
    induction p as [| a p IH]; cbn; [easy |]. intros N. inversion N; subst. auto.
Qed.

(** ** msepy *)
Lemma py_clean_last_spec k s : (1 <= k)%nat -> ok s -> exists s', py_clean_last k s = Some s' /\ ok s' /\ (newest_right s -> newest_right s') /\ newest s' = newest s /\
  length (tcd s') = Nat.min k (length (tcd s)) /\ forall u, (among_largest k (times_of s) u -> get_cochain (Some u) s' = get_cochain (Some u) s) /\ (~ among_largest k (times_of s) u -> get_cochain (Some u) s' = None).
Proof.
  intros K O. destruct (clean_last_spec k s K O) as (s1 & E & O1 & R1 & L1 & G1). unfold clean_last in E. unfold py_clean_last. destruct k as [| k']; [lia |]. set (k := S k') in *.
  destruct (if (length (sorted_times (times_of s)) <=? k)%nat then Some (tcd s) else pick (tcd s) (last_ones k (sorted_times (times_of s)))) as [d |] eqn:P; [| discriminate].
  injection E as <-. exists (Store d (newest s)). split; [reflexivity |]. split; [exact O1 |]. split; [| split; [reflexivity | split; [exact L1 | exact G1]]].
  intros R. unfold newest_right, times_of in *; cbn [newest tcd] in *. destruct (newest s) as [t |].
  - destruct R as [I M]. assert (A : among_largest k (map fst (tcd s)) t) by (split; [exact I | rewrite (filter_none _ (map fst (tcd s))); [cbn; lia | intros x J; apply Z.ltb_ge; now apply M]]).
    destruct (get_some Z.eq_dec (tcd s) t I) as (c & G). pose proof (proj1 (G1 t) A) as Q. cbn in Q. rewrite G in Q. apply get_in in Q. split; [apply in_map_iff; now exists (t, c) |].
    intros u J. apply M. destruct (get_some Z.eq_dec d u J) as (c' & G'). destruct (in_dec Z.eq_dec u (last_ones k (sorted_times (map fst (tcd s))))) as [W | W].
    + apply last_ones_in in W. exact (proj1 (sorted_in _ _) W).
    + rewrite (last_ones_largest k _ u O) in W. destruct (G1 u) as [_ G2]. specialize (G2 W). cbn in G2. congruence.
  - destruct (tcd s); [| discriminate]. cbn in L1. destruct d; [reflexivity | discriminate].
Qed.
Lemma py_set_spec l t c s s' : ok s -> py_set l t c s = Some s' -> ok s' /\ (newest_right s -> newest_right s') /\ get_cochain (Some t) s' = Some c /\
  (forall u d, u <> t -> get_cochain (Some u) s' = Some d -> get_cochain (Some u) s = Some d) /\ match l with Some k => (length (tcd s') <= 2 * k + 1)%nat | None => True end.
Proof.
  intros O. assert (A : forall s0, ok s0 -> (newest_right s -> newest_right s0) -> (forall u d, get_cochain (Some u) s0 = Some d -> get_cochain (Some u) s = Some d) ->
    ok (add_time t c s0) /\ (newest_right s -> newest_right (add_time t c s0)) /\ get_cochain (Some t) (add_time t c s0) = Some c /\ (forall u d, u <> t -> get_cochain (Some u) (add_time t c s0) = Some d -> get_cochain (Some u) s = Some d)).
  { intros s0 O0 R0 G0. split; [now apply add_time_ok |]. split; [intros R; apply add_time_right; auto |]. split; [rewrite get_add; now destruct (Z.eq_dec t t) |].
    intros u d N. rewrite get_add. destruct (Z.eq_dec t u); [congruence | apply G0]. }
  unfold py_set. destruct l as [k |].
  - destruct (2 <=? k)%nat eqn:E2; [| discriminate]. apply Nat.leb_le in E2. destruct (2 * k <? length (tcd s))%nat eqn:E.
    + destruct (py_clean_last_spec k s ltac:(lia) O) as (s1 & -> & O1 & R1 & _ & L1 & G1). cbn [option_map]. intros [= <-].
      destruct (A s1 O1 R1) as (a & b & c0 & d); [| split; [exact a | split; [exact b | split; [exact c0 | split; [exact d |]]]]; pose proof (put_length (tcd s1) t c); cbn [add_time tcd]; lia].
      intros u d G. destruct (in_dec Z.eq_dec u (last_ones k (sorted_times (times_of s)))) as [W | W]; rewrite (last_ones_largest k _ u O) in W; [now rewrite <- (proj1 (G1 u) W) | rewrite (proj2 (G1 u) W) in G; discriminate].
    + apply Nat.ltb_ge in E. intros [= <-]. destruct (A s O ltac:(auto) ltac:(auto)) as (a & b & c0 & d). split; [exact a | split; [exact b | split; [exact c0 | split; [exact d |]]]]. pose proof (put_length (tcd s) t c); cbn [add_time tcd]; lia.
  - intros [= <-]. destruct (A s O ltac:(auto) ltac:(auto)) as (a & b & c0 & d). auto.
Qed.
Lemma py_clean_newest_spec s s' : py_clean_newest s = Some s' -> ok s' /\ newest_right s' /\ (length (tcd s') <= 1)%nat /\ forall u c, get_cochain (Some u) s' = Some c -> get_cochain (Some u) s = Some c.
Proof.
  unfold py_clean_newest. destruct (newest s) as [t |]; [| discriminate].
  destruct (get Z.eq_dec (tcd s) t) as [c |] eqn:G; [| discriminate]. intros [= <-]. split; [unfold ok, times_of; cbn; repeat constructor; easy |]. split; [unfold newest_right, times_of; cbn; split; [now left | intros u [-> | []]; lia] |].
  split; [cbn; lia |]. intros u c'. cbn. destruct (Z.eq_dec t u) as [-> |]; [now rewrite G | discriminate].
Qed.
Lemma py_op_spec o s s' : ok s -> newest_right s -> py_do o s = Some s' -> ok s' /\ newest_right s' /\
  forall u c, get_cochain (Some u) s' = Some c -> (exists l, o = PySet l u c) \/ ((forall l c', o <> PySet l u c') /\ get_cochain (Some u) s = Some c).
Proof.
  intros O R H. destruct o as [l t d | | k]; cbn in H.
  - destruct (py_set_spec l t d s s' O H) as (a & b & c0 & e & _). split; [exact a | split; [now apply b |]]. intros u c G. destruct (Z.eq_dec t u) as [-> | N].
    + left. rewrite c0 in G. injection G as <-. now exists l.
    + right. split; [congruence |]. apply e; [congruence | exact G].
  - apply py_clean_newest_spec in H. destruct H as (a & b & _ & e). split; [exact a | split; [exact b |]]. intros u c G. right. split; [congruence | now apply e].
  - destruct k as [| k]; [discriminate |]. destruct (py_clean_last_spec (S k) s ltac:(lia) O) as (s1 & E & O1 & R1 & _ & L1 & G1). rewrite E in H. injection H as <-. split; [exact O1 | split; [now apply R1 |]].
    intros u c G. right. split; [congruence |]. destruct (in_dec Z.eq_dec u (last_ones (S k) (sorted_times (times_of s)))) as [W | W]; rewrite (last_ones_largest _ _ u O) in W; [now rewrite <- (proj1 (G1 u) W) | rewrite (proj2 (G1 u) W) in G; discriminate].
Qed.
Lemma py_run_spec os : forall s s', ok s -> newest_right s -> py_run os s = Some s' -> ok s' /\ newest_right s' /\
  forall u c, get_cochain (Some u) s' = Some c -> py_last_set os u = Some c \/ (py_last_set os u = None /\ get_cochain (Some u) s = Some c).
Proof.
  induction os as [| o os IH]; cbn [py_run py_last_set]; intros s s' O R H; [injection H as <-; auto |].
  destruct (py_do o s) as [s1 |] eqn:E; [| discriminate]. destruct (py_op_spec o s s1 O R E) as (O1 & R1 & G1). destruct (IH s1 s' O1 R1 H) as (O2 & R2 & G2).
  split; [exact O2 | split; [exact R2 |]]. intros u c G. destruct (G2 u c G) as [L | [L G3]]; rewrite L; [now left |]. destruct (G1 u c G3) as [[l ->] | [N G4]].
  - left. now destruct (Z.eq_dec u u).
  - right. split; [| exact G4]. destruct o as [l t d | |]; try reflexivity. destruct (Z.eq_dec t u) as [-> |]; [now contradiction (N l d) | reflexivity].
Qed.
Lemma py_store_right os s : py_run os empty_store = Some s -> newest_right s /\ forall t c, get_cochain (Some t) s = Some c -> py_last_set os t = Some c.
Proof.
  intros H. destruct (py_run_spec os empty_store s ltac:(constructor) eq_refl H) as (_ & R & G). split; [exact R |]. intros t c Q. destruct (G t c Q) as [L | [_ F]]; [exact L | discriminate F].
Qed.
Lemma py_sets_bounded k (l : list (Z * C)) s : (2 <= k)%nat -> py_run (map (fun tc => PySet (Some k) (fst tc) (snd tc)) l) empty_store = Some s -> (length (tcd s) <= 2 * k + 1)%nat.
Proof.
  intros K. assert (A : forall l s0, ok s0 -> (length (tcd s0) <= 2 * k + 1)%nat -> py_run (map (fun tc => PySet (Some k) (fst tc) (snd tc)) l) s0 = Some s -> (length (tcd s) <= 2 * k + 1)%nat).
  { clear l. induction l as [| [t c] l IH]; cbn [map py_run fst snd]; intros s0 O L H; [injection H as <-; exact L |]. cbn [py_do] in H. destruct (py_set (Some k) t c s0) as [s1 |] eqn:E; [| discriminate].
    apply (py_set_spec (Some k) t c s0 s1 O) in E. apply (IH s1); [tauto | tauto | exact H]. }
  apply A; [constructor | cbn; lia].
Qed.
End StoreL.

(** ** what is wrong *)
Lemma clean_at_wrong {C} (a b : C) : exists s, run [Set_ None 1 a; Set_ None 2 b; CleanAt 2] empty_store = Some s /\ get_cochain None s = None /\ get_cochain (Some 1%Z) s = Some a /\
  clean_newest s = None /\ exists s', set_cochain None 1 b s = Some s' /\ get_cochain None s' = None.
Proof. eexists. split; [reflexivity |]. repeat split. eexists. split; reflexivity. Qed.
Lemma overwrite_wrong {C} (a b c d : C) : exists s, run [Set_ (Some 3%nat) 1 a; Set_ (Some 3%nat) 2 b; Set_ (Some 3%nat) 3 c; Set_ (Some 3%nat) 3 d] empty_store = Some s /\ get_cochain (Some 1%Z) s = None /\ length (tcd s) = 2%nat.
Proof. eexists. split; [reflexivity |]. split; reflexivity. Qed.
