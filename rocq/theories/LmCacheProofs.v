(** Reading matrices: what is read is what is expected, if equal keys mean equal data *)
From Coq Require Import List Arith Lia Bool String QArith Qcanon.
From Verif Require Import Dict GmModel QSums LmModel LmProofs LmCacheModel LmCacheSpec.
Import ListNotations.
Local Open Scope nat_scope.

Lemma Neqb_spec a b : (a =? b) = true <-> a = b. Proof. apply Nat.eqb_eq. Qed.
Lemma Seqb_spec a b : String.eqb a b = true <-> a = b. Proof. apply String.eqb_eq. Qed.

(** ** references *)
Lemma deref_app h x r : fst r < List.length h -> deref (h ++ x) r = deref h r.
Proof. intros H. unfold deref. now rewrite nth_error_app1. Qed.
Lemma deref_some h r : fst r < List.length h -> exists m, deref h r = Some m.
Proof. intros H. unfold deref. destruct (nth_error h (fst r)) eqn:E; [cbn; eauto|]. apply nth_error_None in E. lia. Qed.
Lemma deref_flip h r : deref h (fst r, negb (snd r)) = option_map tr (deref h r).
Proof.
  unfold deref. cbn [fst snd]. destruct (nth_error h (fst r)) as [m|]; auto. cbn [option_map]. f_equal. destruct (snd r); cbn; auto.
  destruct m as [f a b l]. unfold tr. cbn. destruct f; reflexivity.
Qed.

(** ** well-formed states *)
Definition obj_ok (n h : nat) (o : obj) : Prop :=
  (forall j, In j (operands (o_kind o)) -> j < n) /\
  (forall k d s, o_kind o = KData k d s -> forall e r, get Nat.eqb d e = Some r -> fst r < h) /\
  (forall k r, get String.eqb (o_cache o) k = Some r -> fst r < h) /\ (forall e r, get Nat.eqb (o_cust o) e = Some r -> fst r < h).
Definition wf (st : lstate) : Prop := forall i o, nth_error (objs st) i = Some o -> obj_ok i (List.length (heap st)) o.
(** only caches and the heap grow *)
Definition ext (st st' : lstate) : Prop :=
  Forall2 (fun o o' => o_kind o = o_kind o' /\ o_cust o = o_cust o') (objs st) (objs st') /\ exists x, heap st' = heap st ++ x.
Lemma Forall2_diag {A} (R : A -> A -> Prop) l : (forall a, R a a) -> Forall2 R l l.
Proof. intros H. induction l; constructor; auto. Qed.
Lemma ext_refl st : ext st st.
Proof. split; [apply Forall2_diag; auto|]. exists []. now rewrite app_nil_r. Qed.
Lemma Forall2_compose {A} (R : A -> A -> Prop) l1 : forall l2 l3, (forall a b c, R a b -> R b c -> R a c) -> Forall2 R l1 l2 -> Forall2 R l2 l3 -> Forall2 R l1 l3.
Proof.
  induction l1 as [|a l1 IH]; intros l2 l3 HT H1 H2; inversion H1; subst; inversion H2; subst; constructor; eauto.
Qed.
Lemma ext_trans a b c : ext a b -> ext b c -> ext a c.
Proof.
  intros [H1 [x Hx]] [H2 [y Hy]]. split.
  - eapply Forall2_compose; eauto. cbn. intros o1 o2 o3 [A1 A2] [B1 B2]. split; congruence.
  - exists (x ++ y). now rewrite Hy, Hx, app_assoc.
Qed.
Lemma F2_nth {A B} (R : A -> B -> Prop) l l' i : Forall2 R l l' ->
  match nth_error l i, nth_error l' i with Some a, Some b => R a b | None, None => True | _, _ => False end.
Proof. intros H. revert i. induction H; intros [|i]; cbn; auto. apply IHForall2. Qed.
Lemma ext_obj st st' i o : ext st st' -> nth_error (objs st) i = Some o -> exists o', nth_error (objs st') i = Some o' /\ o_kind o' = o_kind o /\ o_cust o' = o_cust o.
Proof.
  intros [H _] Hi. pose proof (F2_nth _ _ _ i H) as HH. rewrite Hi in HH. destruct (nth_error (objs st') i) as [o'|]; [|tauto]. exists o'. intuition.
Qed.
Lemma ext_none st st' i : ext st st' -> nth_error (objs st) i = None -> nth_error (objs st') i = None.
Proof. intros [H _] Hi. pose proof (F2_nth _ _ _ i H) as HH. rewrite Hi in HH. now destruct (nth_error (objs st') i). Qed.
Lemma ext_len st st' : ext st st' -> List.length (objs st) = List.length (objs st').
Proof. intros [H _]. now induction H; cbn; auto. Qed.
Lemma ext_heap st st' : ext st st' -> List.length (heap st) <= List.length (heap st').
Proof. intros [_ [x ->]]. rewrite app_length. lia. Qed.

(** ** recursion depth *)
Lemma customised_ext st st' j e : ext st st' -> customised st' j e = customised st j e.
Proof.
  intros H. unfold customised. destruct (nth_error (objs st) j) as [o|] eqn:E.
  - destruct (ext_obj _ _ _ _ H E) as (o' & -> & _ & ->). auto.
  - now rewrite (ext_none _ _ _ H E).
Qed.
Lemma blk_key_ext k k' c c' bs : forall acc, (forall j, In j bs -> k j = k' j) -> (forall j, In j bs -> c j = c' j) -> blk_key k c bs acc = blk_key k' c' bs acc.
Proof.
  induction bs as [|b bs IH]; intros acc Hk Hc; cbn; auto. rewrite <- (Hk b), <- (Hc b) by (now left). destruct (c b); auto. destruct (is_unique (k b)); auto.
  apply IH; intros; [apply Hk|apply Hc]; now right.
Qed.
Lemma key_fuel st st' i e : wf st -> ext st st' -> forall n m, i < n -> i < m -> key_of n st' i e = key_of m st i e.
Proof.
  intros W X. induction i as [i IH] using lt_wf_ind. intros [|n] [|m] Hn Hm; try lia. cbn [key_of].
  destruct (nth_error (objs st) i) as [o|] eqn:E.
  - destruct (ext_obj _ _ _ _ X E) as (o' & -> & Ek & _). cbn [option_map]. rewrite Ek. destruct (W i o E) as (Hop & _).
    destruct (o_kind o) as [k d s|k f|f s|s|dot f a b|f b bs]; auto; cbn [operands] in Hop.
    + apply IH; try (specialize (Hop s (or_introl eq_refl)); lia). 
    + apply IH; try (specialize (Hop s (or_introl eq_refl)); lia).
    + assert (Ha : a < i) by (apply Hop; now left). assert (Hb : b < i) by (apply Hop; right; now left). now rewrite (IH a Ha n m), (IH b Hb n m) by lia.
    + apply blk_key_ext; [intros j Hj; apply Hop in Hj; apply IH; lia|intros j _; now apply customised_ext].
  - now rewrite (ext_none _ _ _ X E).
Qed.
Lemma obind_ext_in {A B} (f g : A -> option B) l : (forall a, In a l -> f a = g a) -> obind l f = obind l g.
Proof. induction l as [|a l IH]; intros H; cbn; auto. rewrite (H a) by (now left). rewrite IH by (intros; apply H; now right). reflexivity. Qed.
Lemma want_fuel st st' i e : wf st -> ext st st' -> forall n m, i < n -> i < m -> want n st' i e = want m st i e.
Proof.
  intros W X. induction i as [i IH] using lt_wf_ind. intros [|n] [|m] Hn Hm; try lia. cbn [want].
  destruct (nth_error (objs st) i) as [o|] eqn:E.
  - destruct (ext_obj _ _ _ _ X E) as (o' & -> & Ek & Ec). rewrite Ek, Ec. destruct (W i o E) as (Hop & Hd & _ & Hc). destruct X as [X [x Hx]]. rewrite Hx.
    destruct (get Nat.eqb (o_cust o) e) as [r|] eqn:Eg; [now apply deref_app, (Hc e)|].
    destruct (o_kind o) as [k d s|k f|f s|s|dot f a b|f b bs] eqn:EK; auto; cbn [operands] in Hop.
    + destruct (get Nat.eqb d e) as [r|] eqn:Er; auto. apply deref_app. eapply Hd; eauto.
    + f_equal. apply IH; try (specialize (Hop s (or_introl eq_refl)); lia).
    + f_equal. apply IH; try (specialize (Hop s (or_introl eq_refl)); lia).
    + assert (Ha : a < i) by (apply Hop; now left). assert (Hb : b < i) by (apply Hop; right; now left). now rewrite (IH a Ha n m), (IH b Hb n m) by lia.
    + f_equal. apply obind_ext_in. intros j Hj. apply Hop in Hj. apply IH; lia.
  - now rewrite (ext_none _ _ _ X E).
Qed.
Lemma expected_ext st st' i e : wf st -> ext st st' -> expected st' i e = expected st i e.
Proof. intros W X. unfold expected. apply want_fuel; auto. Qed.

(** ** without the customisation of the object itself *)
Definition uncustomised (st : lstate) (i e : nat) : option smat :=
  match nth_error (objs st) i with
  | None => None
  | Some o =>
      match o_kind o with
      | KData _ d shape => match get Nat.eqb d e with Some r => deref (heap st) r | None => Some (zero_mat (shape e)) end
      | KCall _ f => Some (f e)
      | KUn f s => option_map f (expected st s e)
      | KTr s => option_map tr (expected st s e)
      | KBin _ f a b => match expected st a e, expected st b e with Some x, Some y => Some (f x y) | _, _ => None end
      | KBlk f b bs => option_map f (obind (b :: bs) (fun j => expected st j e))
      end
  end.
Lemma expected_unfold st i e : wf st -> expected st i e =
  match nth_error (objs st) i with
  | Some o => match get Nat.eqb (o_cust o) e with Some r => deref (heap st) r | None => uncustomised st i e end
  | None => None
  end.
Proof.
  intros W. unfold uncustomised. unfold expected at 1. cbn [want]. destruct (nth_error (objs st) i) as [o|] eqn:E; auto. destruct (W i o E) as (Hop & _).
  destruct (get Nat.eqb (o_cust o) e); auto. unfold expected.
  assert (F : forall j, In j (operands (o_kind o)) -> want i st j e = want (S j) st j e) by (intros j Hj; apply Hop in Hj; apply want_fuel; auto using ext_refl).
  destruct (o_kind o) as [k d s|k f|f s|s|dot f a b|f b bs]; auto; cbn [operands] in F.
  - now rewrite F by (now left).
  - now rewrite F by (now left).
  - rewrite !F by (cbn; auto). reflexivity.
  - f_equal. apply obind_ext_in. auto.
Qed.
Lemma wf_alloc st m : wf st -> wf (fst (alloc st m)).
Proof.
  intros W i o H. cbn in *. destruct (W i o H) as (H1 & H2 & H3 & H4). rewrite app_length. cbn. split; [auto|]. split; [|split].
  - intros k d s E e r Hr. specialize (H2 k d s E e r Hr). lia.
  - intros k r Hr. specialize (H3 k r Hr). lia.
  - intros k r Hr. specialize (H4 k r Hr). lia.
Qed.
Lemma ext_alloc st m : ext st (fst (alloc st m)).
Proof. split; [apply Forall2_diag; auto|]. cbn. eauto. Qed.
Lemma nth_error_set_nth {A} i (v : A) : forall l j, nth_error (set_nth i v l) j = if j =? i then option_map (fun _ => v) (nth_error l i) else nth_error l j.
Proof.
  induction i as [|i IH]; intros [|a l] [|j]; cbn; auto; try (destruct (j =? i); now destruct (nth_error l i)).
  - destruct (j =? i); now rewrite ?(proj2 (nth_error_None [] _)) by (cbn; lia).
Qed.
Lemma set_nth_len {A} i (v : A) l : List.length (set_nth i v l) = List.length l.
Proof. revert i. induction l as [|a l IH]; intros [|i]; cbn; auto. Qed.

(** ** reading *)
Section Read.
  (** elements, and which data are acceptable in the cache of an object under a key *)
  Context (es : list nat) (st0 : lstate) (CV : nat -> string -> smat -> Prop).
  Context (W0 : wf st0).
  Context (CV_use : forall i e k m, In e es -> key_of (S i) st0 i e = k -> contains "unique" k = false -> CV i k m -> uncustomised st0 i e = Some m).
  Context (CV_make : forall i e k m, In e es -> key_of (S i) st0 i e = k -> contains "unique" k = false -> uncustomised st0 i e = Some m -> CV i k m).
  Definition entries_ok (st : lstate) : Prop := forall i o k r, nth_error (objs st) i = Some o -> get String.eqb (o_cache o) k = Some r ->
    exists m, deref (heap st) r = Some m /\ CV i k m.
  Definition good (st : lstate) : Prop := ext st0 st /\ wf st /\ entries_ok st.
  Lemma entries_alloc st m : wf st -> entries_ok st -> entries_ok (fst (alloc st m)).
  Proof.
    intros W H i o k r Hi Hr. cbn in *. destruct (H i o k r Hi Hr) as (v & Hv & C). exists v. split; auto. rewrite deref_app; auto. destruct (W i o Hi) as (_ & _ & H3 & _). eauto.
  Qed.
  Lemma good_alloc st m : good st -> good (fst (alloc st m)).
  Proof. intros (X & W & E). split; [eapply ext_trans; eauto using ext_alloc|]. split; auto using wf_alloc, entries_alloc. Qed.
  Definition reads_right (st : lstate) (e i : nat) (res : option (lstate * ref)) : Prop :=
    exists st' r, res = Some (st', r) /\ good st' /\ ext st st' /\ fst r < List.length (heap st') /\ deref (heap st') r = expected st0 i e.
  Lemma deref_ext st st' r : ext st st' -> fst r < List.length (heap st) -> deref (heap st') r = deref (heap st) r.
  Proof. intros [_ [x ->]] H. now apply deref_app. Qed.
  Lemma made_right st m v : good st -> m = Some v -> exists st' r, made st m = Some (st', r) /\ good st' /\ ext st st' /\ fst r < List.length (heap st') /\ deref (heap st') r = Some v.
  Proof.
    intros G ->. exists (fst (alloc st v)), (snd (alloc st v)). split; [reflexivity|]. split; [now apply good_alloc|]. split; [apply ext_alloc|]. cbn. rewrite app_length. split; [cbn; lia|].
    unfold deref. cbn [fst snd view]. rewrite nth_error_app2, Nat.sub_diag by lia. reflexivity.
  Qed.
  Lemma expected_some i e : i < List.length (objs st0) -> exists m, expected st0 i e = Some m.
  Proof.
    induction i as [i IH] using lt_wf_ind. intros Hi. rewrite expected_unfold by auto. destruct (nth_error (objs st0) i) as [o|] eqn:E; [|apply nth_error_None in E; lia].
    destruct (W0 i o E) as (Hop & Hd & _ & Hc). destruct (get Nat.eqb (o_cust o) e) as [r|] eqn:Eg; [eapply deref_some; eauto|]. unfold uncustomised. rewrite E.
    destruct (o_kind o) as [k d s|k f|f s|s|dot f a b|f b bs]; cbn [operands] in Hop.
    - destruct (get Nat.eqb d e) as [r|] eqn:Er; eauto. eapply deref_some, Hd; eauto.
    - eauto.
    - destruct (IH s) as [m ->]; cbn; eauto; specialize (Hop s (or_introl eq_refl)); lia.
    - destruct (IH s) as [m ->]; cbn; eauto; specialize (Hop s (or_introl eq_refl)); lia.
    - assert (a < i) by (apply Hop; now left). assert (b < i) by (apply Hop; right; now left). destruct (IH a) as [x ->]; [lia|lia|]. destruct (IH b) as [y ->]; [lia|lia|]. eauto.
    - assert (exists l, obind (b :: bs) (fun j => expected st0 j e) = Some l) as [l ->]; [|cbn; eauto]. revert Hop. generalize (b :: bs) as L. induction L as [|j L IHL]; intros Hop; cbn [obind]; [eauto|].
      destruct (IH j) as [x ->]; [apply Hop; now left| |].
      + specialize (Hop j (or_introl eq_refl)). lia.
      + destruct IHL as [l ->]; [intros; apply Hop; now right|]. eauto.
  Qed.
  Lemma reads_all n e bs : (forall j, In j bs -> j < List.length (objs st0)) ->
    (forall st j, In j bs -> good st -> reads_right st e j (read n st e j)) ->
    forall st, good st -> exists st' rs, reads (fun st => read n st e) st bs = Some (st', rs) /\ good st' /\ ext st st' /\
      (forall r, In r rs -> fst r < List.length (heap st')) /\ obind rs (deref (heap st')) = obind bs (fun j => expected st0 j e).
  Proof.
    induction bs as [|b bs IH]; intros HL HR st G; cbn [reads].
    - exists st, []. split; auto. split; auto. split; [apply ext_refl|]. split; [intros r []|reflexivity].
    - destruct (HR st b (or_introl eq_refl) G) as (st1 & r & -> & G1 & X1 & L1 & D1).
      destruct (IH ltac:(intros; apply HL; now right) ltac:(intros; apply HR; auto; now right) st1 G1) as (st2 & rs & -> & G2 & X2 & L2 & D2).
      exists st2, (r :: rs). split; auto. split; auto. split; [eapply ext_trans; eauto|]. split.
      + intros x [<-|Hx]; auto. apply ext_heap in X2. lia.
      + cbn [obind]. rewrite (deref_ext st1 st2) by auto. now rewrite D1, D2.
  Qed.
  Lemma meta_right n st e i o : i <= n -> (forall j st, j < i -> good st -> reads_right st e j (read n st e j)) -> good st -> nth_error (objs st0) i = Some o ->
    exists st' r, meta (fun st => read n st e) st (o_kind o) e = Some (st', r) /\ good st' /\ ext st st' /\ fst r < List.length (heap st') /\ deref (heap st') r = uncustomised st0 i e.
  Proof.
    intros Hn HR G Ho. destruct (W0 i o Ho) as (Hop & Hd & _). unfold uncustomised. rewrite Ho.
    assert (HL : i < List.length (objs st0)) by (apply nth_error_Some; congruence).
    destruct (o_kind o) as [k d s|k f|f s|s|dot f a b|f b bs]; cbn [operands meta] in *.
    - destruct (get Nat.eqb d e) as [r|] eqn:Er.
      + exists st, r. specialize (Hd k d s eq_refl e r Er). destruct G as (X & W & E). split; auto. split; [split; auto|]. split; [apply ext_refl|]. split; [apply ext_heap in X; lia|]. now apply deref_ext.
      + exact (made_right st (Some (zero_mat (s e))) _ G eq_refl).
    - exact (made_right st (Some (f e)) _ G eq_refl).
    - assert (Hs : s < i) by (apply Hop; now left). destruct (HR s st Hs G) as (st1 & r & -> & G1 & X1 & L1 & D1). rewrite D1.
      destruct (expected_some s e) as [m Em]; [lia|]. rewrite Em. cbn [option_map]. destruct (made_right st1 (Some (f m)) _ G1 eq_refl) as (st2 & r2 & E2 & G2 & X2 & L2 & D2).
      exists st2, r2. split; auto. split; auto. split; [eapply ext_trans; eauto|]. auto.
    - assert (Hs : s < i) by (apply Hop; now left). destruct (HR s st Hs G) as (st1 & r & -> & G1 & X1 & L1 & D1).
      exists st1, (fst r, negb (snd r)). split; auto. split; auto. split; auto. split; auto. now rewrite deref_flip, D1.
    - assert (Ha : a < i) by (apply Hop; now left). assert (Hb : b < i) by (apply Hop; right; now left).
      destruct (HR a st Ha G) as (st1 & r1 & -> & G1 & X1 & L1 & D1). destruct (HR b st1 Hb G1) as (st2 & r2 & -> & G2 & X2 & L2 & D2).
      rewrite (deref_ext st1 st2) by auto. rewrite D1, D2. destruct (expected_some a e) as [x Ex]; [lia|]. destruct (expected_some b e) as [y Ey]; [lia|]. rewrite Ex, Ey.
      destruct (made_right st2 (Some (f x y)) _ G2 eq_refl) as (st3 & r3 & E3 & G3 & X3 & L3 & D3). exists st3, r3. split; auto. split; auto. split; [|auto].
      eapply ext_trans; [eauto|]. eapply ext_trans; eauto.
    - destruct (reads_all n e (b :: bs)) with (st := st) as (st1 & rs & -> & G1 & X1 & L1 & D1); auto.
      { intros j Hj. apply Hop in Hj. lia. }
      rewrite D1. assert (exists l, obind (b :: bs) (fun j => expected st0 j e) = Some l) as [l El].
      { clear -Hop HL W0. revert Hop. generalize (b :: bs) as L. induction L as [|j L IHL]; intros Hop; cbn [obind]; [eauto|].
        destruct (expected_some j e) as [x ->]; [specialize (Hop j (or_introl eq_refl)); lia|]. destruct IHL as [l ->]; [intros; apply Hop; now right|]. eauto. }
      rewrite El. cbn [option_map]. destruct (made_right st1 (Some (f l)) _ G1 eq_refl) as (st2 & r2 & E2 & G2 & X2 & L2 & D2).
      exists st2, r2. split; auto. split; auto. split; [eapply ext_trans; eauto|]. auto.
  Qed.
  Lemma cache_put st i o k r m : good st -> nth_error (objs st) i = Some o -> fst r < List.length (heap st) -> deref (heap st) r = Some m -> CV i k m ->
    let st' := update st i (fun o => {| o_kind := o_kind o; o_cache := sput (o_cache o) k r; o_cust := o_cust o |}) in
    good st' /\ ext st st' /\ heap st' = heap st.
  Proof.
    intros (X & W & E) Hi Hr Hd C. cbv zeta. unfold update. rewrite Hi. set (o' := {| o_kind := o_kind o; o_cache := sput (o_cache o) k r; o_cust := o_cust o |}).
    assert (X' : ext st {| objs := set_nth i o' (objs st); heap := heap st |}).
    { split; cbn; [|exists []; now rewrite app_nil_r]. clear -Hi. revert i Hi. generalize (objs st) as l. induction l as [|a l IH]; intros [|i] Hi; cbn in *; try discriminate.
      - injection Hi as ->. constructor; auto. apply Forall2_diag; auto.
      - constructor; auto. }
    split; [|split; auto]. split; [eapply ext_trans; eauto|]. split.
    - intros j p Hp. cbn [objs heap] in *. rewrite nth_error_set_nth in Hp. destruct (Nat.eqb_spec j i) as [->|]; [|now apply W]. rewrite Hi in Hp. injection Hp as <-.
      destruct (W i o Hi) as (H1 & H2 & H3 & H4). split; [auto|]. split; [auto|]. split; [|auto]. cbn [o_cache o']. intros k' r' Hg. unfold sput in Hg. rewrite (get_put String.eqb Seqb_spec) in Hg.
      destruct (String.eqb k' k); [now injection Hg as <-|eauto].
    - intros j p k' r' Hp Hg. cbn [objs heap] in *. rewrite nth_error_set_nth in Hp. destruct (Nat.eqb_spec j i) as [->|]; [|eapply E; eauto]. rewrite Hi in Hp. injection Hp as <-.
      cbn [o_cache o'] in Hg. unfold sput in Hg. rewrite (get_put String.eqb Seqb_spec) in Hg. destruct (String.eqb k' k) eqn:Ek; [|eapply E; eauto].
      apply Seqb_spec in Ek as ->. injection Hg as <-. eauto.
  Qed.
  Theorem read_right n : forall st i e, good st -> i < List.length (objs st0) -> i < n -> In e es -> reads_right st e i (read n st e i).
  Proof.
    induction n as [|n IH]; intros st i e G Hi Hn He; [lia|]. cbn [read]. destruct (nth_error (objs st0) i) as [o0|] eqn:E0; [|apply nth_error_None in E0; lia].
    pose proof G as (X & W & E). destruct (ext_obj _ _ _ _ X E0) as (o & Eo & Ek & Ec). rewrite Eo. unfold reads_right. rewrite expected_unfold, E0, Ec by auto.
    destruct (W0 i o0 E0) as (_ & _ & _ & Hc).
    destruct (get Nat.eqb (o_cust o0) e) as [r|] eqn:Eg.
    - exists st, r. specialize (Hc e r Eg). split; auto. split; auto. split; [apply ext_refl|]. split; [apply ext_heap in X; lia|]. now apply deref_ext.
    - assert (M : exists st' r, meta (fun st => read n st e) st (o_kind o0) e = Some (st', r) /\ good st' /\ ext st st' /\ fst r < List.length (heap st') /\ deref (heap st') r = uncustomised st0 i e).
      { apply (meta_right n); auto; [lia|]. intros j s Hj Gs. apply IH; auto; lia. }
      rewrite Ek. cbv zeta. destruct (contains "unique" (key_of (S n) st i e)) eqn:Eu; [exact M|].
      assert (Kk : key_of (S i) st0 i e = key_of (S n) st i e) by (symmetry; apply key_fuel; auto; lia).
      destruct (get String.eqb (o_cache o) (key_of (S n) st i e)) as [r|] eqn:Er.
      + exists st, r. destruct (E i o _ r Eo Er) as (m & Hm & C). split; auto. split; auto. split; [apply ext_refl|]. destruct (W i o Eo) as (_ & _ & H3 & _). split; [eauto|].
        rewrite Hm. symmetry. eapply CV_use; eauto.
      + destruct M as (st1 & r & -> & G1 & X1 & L1 & D1).
        assert (exists m, uncustomised st0 i e = Some m) as [m Em].
        { destruct (expected_some i e Hi) as [m Hm]. rewrite expected_unfold, E0, Eg in Hm by auto. eauto. }
        destruct G1 as (X1' & W1 & E1). destruct (ext_obj _ _ _ _ X1' E0) as (o1 & Eo1 & _). rewrite Em in D1.
        destruct (cache_put st1 i o1 (key_of (S n) st i e) r m) as (G2 & X2 & Hh); auto; [split; auto|eapply CV_make; eauto|].
        eexists. exists r. split; [reflexivity|]. split; [exact G2|]. split; [eapply ext_trans; eauto|]. rewrite Hh. split; auto. now rewrite D1.
  Qed.
  (** assembling without a threshold *)
  Lemma assemble_right i : i < List.length (objs st0) -> forall l, (forall e, In e l -> In e es) -> forall st, good st ->
    exists st' ms, assemble_reads None st i l = Some (st', ms) /\ good st' /\ ext st st' /\ Forall2 (fun e m => expected st0 i e = Some m) l ms.
  Proof.
    intros Hi. induction l as [|e l IH]; intros Hl st G; cbn [assemble_reads].
    - exists st, []. split; auto. split; auto. split; [apply ext_refl|constructor].
    - unfold getitem. destruct (read_right (S i) st i e G Hi) as (st1 & r & -> & G1 & X1 & L1 & D1); [lia|apply Hl; now left|]. unfold cut_in_place.
      destruct (IH ltac:(intros; apply Hl; now right) {| objs := objs st1; heap := heap st1 |}) as (st2 & ms & -> & G2 & X2 & H2); [destruct st1; exact G1|].
      cbn [heap]. rewrite D1. destruct (expected_some i e Hi) as [m Em]. rewrite Em. exists st2, (m :: ms). split; auto. split; auto. split; [eapply ext_trans; eauto; destruct st1; exact X2|]. constructor; auto.
  Qed.
End Read.
