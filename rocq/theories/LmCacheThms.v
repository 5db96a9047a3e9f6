(** Reading after any program of reads, customisations and assemblings *)
From Coq Require Import List Arith Lia Bool String QArith Qcanon.
From Verif Require Import Dict GmModel QSums LmModel LmProofs LmCacheModel LmCacheSpec LmCacheProofs.
Import ListNotations.
Local Open Scope nat_scope.

(** ** reading only adds arrays and cache entries *)
Lemma ext_update st i f : (forall o, o_kind (f o) = o_kind o /\ o_cust (f o) = o_cust o) -> ext st (update st i f).
Proof.
  intros H. unfold update. destruct (nth_error (objs st) i) as [o|] eqn:E; [|destruct st; apply ext_refl]. split; cbn; [|exists []; now rewrite app_nil_r].
  revert i E. generalize (objs st) as l. induction l as [|a l IH]; intros [|i] E; cbn in *; try discriminate.
  - injection E as ->. constructor; [destruct (H o); auto|]. apply Forall2_diag; auto.
  - constructor; auto.
Qed.
Lemma made_ext st m st' r : made st m = Some (st', r) -> ext st st'.
Proof. unfold made. destruct m as [m|]; [|discriminate]. intros [= <- <-]. apply (ext_alloc st m). Qed.
Lemma reads_ext (rd : lstate -> nat -> option (lstate * ref)) bs : (forall st j st' r, rd st j = Some (st', r) -> ext st st') ->
  forall st st' rs, reads rd st bs = Some (st', rs) -> ext st st'.
Proof.
  intros H. induction bs as [|b bs IH]; intros st st' rs E; cbn [reads] in E; [injection E as <- <-; apply ext_refl|].
  destruct (rd st b) as [[st1 x]|] eqn:E1; [|discriminate]. destruct (reads rd st1 bs) as [[st2 xs]|] eqn:E2; [|discriminate]. injection E as <- <-. eapply ext_trans; eauto.
Qed.
Lemma meta_ext (rd : lstate -> nat -> option (lstate * ref)) st k e st' r : (forall st j st' r, rd st j = Some (st', r) -> ext st st') -> meta rd st k e = Some (st', r) -> ext st st'.
Proof.
  intros H E. destruct k as [k d s|k f|f s|s|dot f a b|f b bs]; cbn [meta] in E.
  - destruct (get Nat.eqb d e); injection E as <- <-; [apply ext_refl|apply (ext_alloc st)].
  - injection E as <- <-. apply (ext_alloc st).
  - destruct (rd st s) as [[st1 x]|] eqn:E1; [|discriminate]. apply made_ext in E. eapply ext_trans; eauto.
  - destruct (rd st s) as [[st1 x]|] eqn:E1; [|discriminate]. injection E as <- <-. eauto.
  - destruct (rd st a) as [[st1 x]|] eqn:E1; [|discriminate]. destruct (rd st1 b) as [[st2 y]|] eqn:E2; [|discriminate]. apply made_ext in E.
    eapply ext_trans; [eauto|]. eapply ext_trans; eauto.
  - destruct (reads rd st (b :: bs)) as [[st1 x]|] eqn:E1; [|discriminate]. apply made_ext in E. eapply ext_trans; [|eauto]. eapply reads_ext; eauto.
Qed.
Lemma read_ext n : forall st e i st' r, read n st e i = Some (st', r) -> ext st st'.
Proof.
  induction n as [|n IH]; intros st e i st' r E; [discriminate|]. cbn [read] in E. destruct (nth_error (objs st) i) as [o|] eqn:Eo; [|discriminate].
  destruct (get Nat.eqb (o_cust o) e) as [c|]; [injection E as <- <-; apply ext_refl|]. cbv zeta in E. destruct (contains _ _).
  - refine (meta_ext _ _ _ _ _ _ _ E). intros; eapply IH; eauto.
  - destruct (get String.eqb (o_cache o) _); [injection E as <- <-; apply ext_refl|].
    destruct (meta _ st (o_kind o) e) as [[st1 x]|] eqn:E1; [|discriminate]. injection E as <- <-.
    eapply ext_trans; [refine (meta_ext _ _ _ _ _ _ _ E1); intros; eapply IH; eauto|]. apply ext_update. auto.
Qed.
Lemma assemble_none_ext i l : forall st st' ms, assemble_reads None st i l = Some (st', ms) -> ext st st'.
Proof.
  induction l as [|e l IH]; intros st st' ms E; cbn [assemble_reads] in E; [injection E as <- <-; apply ext_refl|].
  destruct (getitem st i e) as [[st1 r]|] eqn:E1; [|discriminate]. apply read_ext in E1. unfold cut_in_place in E. cbn [heap] in E. destruct (deref (heap st1) r); [|discriminate].
  destruct (assemble_reads None _ i l) as [[st2 xs]|] eqn:E2; [|discriminate]. injection E as <- <-. apply IH in E2. eapply ext_trans; [eauto|]. destruct st1; exact E2.
Qed.

(** ** one step *)
Definition no_threshold (op : lop) : Prop := match op with LAssemble _ (Some _) => False | _ => True end.
(** an object with other customisations *)
Lemma wf_recust st i f : wf st -> (forall o, o_kind (f o) = o_kind o /\ o_cache (f o) = o_cache o) ->
  (forall o e r, nth_error (objs st) i = Some o -> get Nat.eqb (o_cust (f o)) e = Some r -> fst r < List.length (heap st)) -> wf (update st i f).
Proof.
  intros W H Hc j o Hj. unfold update in *. cbn [objs heap] in *. destruct (nth_error (objs st) i) as [oi|] eqn:Ei; [|now apply W].
  rewrite nth_error_set_nth in Hj. destruct (Nat.eqb_spec j i) as [->|]; [|now apply W]. rewrite Ei in Hj. injection Hj as <-.
  destruct (W i oi Ei) as (H1 & H2 & H3 & _), (H oi) as [Ek Ec]. unfold obj_ok. rewrite Ek, Ec. split; [auto|]. split; [auto|]. split; [auto|]. intros. eapply Hc; eauto.
Qed.
Lemma wf_new st k : wf st -> kind_ok st k = true -> wf {| objs := objs st ++ [{| o_kind := k; o_cache := []; o_cust := [] |}]; heap := heap st |}.
Proof.
  intros W Hk i o Hi. cbn [objs heap] in *. destruct (Nat.lt_ge_cases i (List.length (objs st))) as [Hl|Hl].
  - rewrite nth_error_app1 in Hi by auto. now apply W.
  - rewrite nth_error_app2 in Hi by auto. destruct (i - List.length (objs st)) as [|x] eqn:Ex; [|now destruct x]. injection Hi as <-. apply andb_prop in Hk as [H1 H2]. rewrite forallb_forall in H1.
    split; [|split; [|split; [discriminate|discriminate]]].
    + intros j Hj. apply H1, Nat.ltb_lt in Hj. lia.
    + intros k' d s E e r Hr. cbn in E. subst k. cbn in H2. rewrite forallb_forall in H2. apply (get_in Nat.eqb Neqb_spec) in Hr. apply H2 in Hr. now apply Nat.ltb_lt in Hr.
Qed.

(** the part of a state that later steps keep: kinds and the heap *)
Definition strip (st : lstate) : lstate := {| objs := map (fun o => {| o_kind := o_kind o; o_cache := []; o_cust := [] |}) (objs st); heap := heap st |}.
Definition grow (st st' : lstate) : Prop :=
  (forall i o, nth_error (objs st) i = Some o -> exists o', nth_error (objs st') i = Some o' /\ o_kind o' = o_kind o) /\ exists x, heap st' = heap st ++ x.
Lemma grow_refl st : grow st st.
Proof. split; eauto. exists []. now rewrite app_nil_r. Qed.
Lemma grow_trans a b c : grow a b -> grow b c -> grow a c.
Proof.
  intros [H1 [x Hx]] [H2 [y Hy]]. split; [|exists (x ++ y); now rewrite Hy, Hx, app_assoc]. intros i o Ho. destruct (H1 i o Ho) as (o' & Ho' & E).
  destruct (H2 i o' Ho') as (o'' & Ho'' & E'). exists o''. split; auto. congruence.
Qed.
Lemma ext_grow st st' : ext st st' -> grow st st'.
Proof. intros X. split; [|apply X]. intros i o Ho. destruct (ext_obj _ _ _ _ X Ho) as (o' & H1 & H2 & _). eauto. Qed.
Lemma grow_update st i f : (forall o, o_kind (f o) = o_kind o) -> grow st (update st i f).
Proof.
  intros H. split; [|exists []; unfold update; cbn; now rewrite app_nil_r]. intros j o Hj. unfold update. cbn [objs]. destruct (nth_error (objs st) i) as [oi|] eqn:Ei; [|eauto].
  rewrite nth_error_set_nth, Ei. cbn [option_map]. destruct (Nat.eqb_spec j i) as [->|]; eauto. exists (f oi). split; auto. assert (oi = o) as -> by congruence. auto.
Qed.
Lemma grow_step es st op st' : no_threshold op -> lstep es st op = Some st' -> grow st st'.
Proof.
  intros Hn E. destruct op as [k|m|i e|i e f|i|i t]; cbn [lstep] in E.
  - destruct (kind_ok st k); [|discriminate]. injection E as <-. split; [|exists []; cbn; now rewrite app_nil_r]. intros i o Hi. exists o. split; auto. cbn. rewrite nth_error_app1; auto.
    apply nth_error_Some. congruence.
  - injection E as <-. apply ext_grow, (ext_alloc st).
  - destruct (existsb _ es); [|discriminate]. destruct (getitem st i e) as [[st1 r]|] eqn:E1; [|discriminate]. injection E as <-. apply ext_grow. eapply read_ext; eauto.
  - destruct (existsb _ es); [|discriminate]. destruct (getitem st i e) as [[st1 r]|] eqn:E1; [|discriminate]. destruct (deref (heap st1) r) as [m|]; [|discriminate]. injection E as <-.
    eapply grow_trans; [apply ext_grow; eapply read_ext; eauto|]. eapply grow_trans; [apply ext_grow, (ext_alloc st1)|]. apply grow_update. auto.
  - injection E as <-. apply grow_update. auto.
  - destruct t as [t|]; [destruct Hn|]. destruct (assemble_reads None st i es) as [[st1 ms]|] eqn:E1; [|discriminate]. injection E as <-. apply ext_grow. eapply assemble_none_ext; eauto.
Qed.
Lemma grow_run es ops : forall st st', Forall no_threshold ops -> lrun es st ops = Some st' -> grow st st'.
Proof.
  induction ops as [|op ops IH]; intros st st' Hn E; cbn [lrun] in E; [injection E as <-; apply grow_refl|]. inversion_clear Hn.
  destruct (lstep es st op) as [st1|] eqn:E1; [|discriminate]. eapply grow_trans; [eapply grow_step; eauto|]. eauto.
Qed.
Lemma strip_nth st i : nth_error (objs (strip st)) i = option_map (fun o => {| o_kind := o_kind o; o_cache := []; o_cust := [] |}) (nth_error (objs st) i).
Proof. cbn [strip objs]. apply nth_error_map. Qed.
Lemma wf_strip st : wf st -> wf (strip st).
Proof.
  intros W i o Hi. rewrite strip_nth in Hi. destruct (nth_error (objs st) i) as [o'|] eqn:E; [|discriminate]. injection Hi as <-. destruct (W i o' E) as (H1 & H2 & _).
  split; [auto|]. split; [auto|]. split; discriminate.
Qed.
Lemma strip_len st : List.length (objs (strip st)) = List.length (objs st). Proof. apply map_length. Qed.
(** stripped objects do not change *)
Lemma strip_key_grow st st' i e : wf st -> grow st st' -> i < List.length (objs st) -> forall n, i < n -> key_of n (strip st') i e = key_of n (strip st) i e.
Proof.
  intros W [G _]. induction i as [i IH] using lt_wf_ind. intros Hi [|n] Hn; [lia|]. cbn [key_of]. rewrite !strip_nth. destruct (nth_error (objs st) i) as [o|] eqn:E; [|apply nth_error_None in E; lia].
  destruct (G i o E) as (o' & -> & Ek). cbn [option_map o_kind]. rewrite Ek. destruct (W i o E) as (Hop & _).
  destruct (o_kind o) as [k d s|k f|f s|s|dot f a b|f b bs]; auto; cbn [operands] in Hop.
  - assert (s < i) by (apply Hop; now left). apply IH; lia.
  - assert (s < i) by (apply Hop; now left). apply IH; lia.
  - assert (Ha : a < i) by (apply Hop; now left). assert (Hb : b < i) by (apply Hop; right; now left). now rewrite (IH a), (IH b) by lia.
  - apply blk_key_ext; intros j Hj; apply Hop in Hj; [apply IH; lia|]. unfold customised. rewrite !strip_nth.
    destruct (nth_error (objs st) j) as [oj|] eqn:Ej; [|apply nth_error_None in Ej; lia]. destruct (G j oj Ej) as (oj' & -> & _). reflexivity.
Qed.
Lemma strip_want_grow st st' i e : wf st -> grow st st' -> i < List.length (objs st) -> forall n, i < n -> want n (strip st') i e = want n (strip st) i e.
Proof.
  intros W [G [x Hx]]. induction i as [i IH] using lt_wf_ind. intros Hi [|n] Hn; [lia|]. cbn [want]. rewrite !strip_nth. destruct (nth_error (objs st) i) as [o|] eqn:E; [|apply nth_error_None in E; lia].
  destruct (G i o E) as (o' & -> & Ek). cbn [option_map o_kind o_cust get]. rewrite Ek. destruct (W i o E) as (Hop & Hd & _).
  destruct (o_kind o) as [k d s|k f|f s|s|dot f a b|f b bs]; auto; cbn [operands] in Hop.
  - destruct (get Nat.eqb d e) as [r|] eqn:Er; auto. cbn [strip heap]. rewrite Hx. apply deref_app. eapply Hd; eauto.
  - f_equal. assert (s < i) by (apply Hop; now left). apply IH; lia.
  - f_equal. assert (s < i) by (apply Hop; now left). apply IH; lia.
  - assert (Ha : a < i) by (apply Hop; now left). assert (Hb : b < i) by (apply Hop; right; now left). now rewrite (IH a), (IH b) by lia.
  - f_equal. apply obind_ext_in. intros j Hj. apply Hop in Hj. apply IH; lia.
Qed.

(** ** strings *)
Lemma prefix_app p : forall s t, prefix p s = true -> prefix p (s ++ t)%string = true.
Proof.
  induction p as [|c p IH]; intros [|d s] t H; auto; try discriminate; [now destruct t|]. cbn in *. destruct (Ascii.ascii_dec c d); auto; discriminate.
Qed.
Lemma contains_l p s t : contains p s = true -> contains p (s ++ t)%string = true.
Proof.
  induction s as [|c s IH]; intros H; cbn [contains] in H.
  - apply orb_true_iff in H as [H|H]; [|discriminate]. destruct p; [|discriminate]. now destruct t.
  - cbn [String.append contains]. apply orb_true_iff. apply orb_true_iff in H as [H|H]; [left|right; auto]. now apply (prefix_app p (String c s) t).
Qed.
Lemma contains_r p s t : contains p t = true -> contains p (s ++ t)%string = true.
Proof. induction s as [|c s IH]; intros H; cbn; auto. rewrite IH by auto. apply orb_true_r. Qed.
Lemma contains_concat p sep x l : In x l -> contains p x = true -> contains p (String.concat sep l) = true.
Proof.
  induction l as [|y l IH]; [intros []|]. intros [->|H] C; cbn [String.concat]; destruct l as [|z l].
  - exact C.
  - now apply contains_l.
  - destruct H.
  - apply contains_r, contains_r. now apply IH.
Qed.
Lemma unique_contains : contains "unique" "unique" = true. Proof. reflexivity. Qed.
Lemma is_unique_contains k : contains "unique" k = false -> is_unique k = false.
Proof. intros H. unfold is_unique. destruct (String.eqb k "unique") eqn:E; auto. apply Seqb_spec in E as ->. discriminate. Qed.
Lemma blk_key_acc key cust bs : forall acc, (exists x, In x acc /\ contains "unique" x = true) -> contains "unique" (blk_key key cust bs acc) = true.
Proof.
  induction bs as [|b bs IH]; intros acc (x & Hx & C); cbn [blk_key].
  - apply (contains_concat _ _ x); auto. now apply -> in_rev.
  - destruct (cust b); auto. destruct (is_unique (key b)); auto. apply IH. exists x. split; auto. now right.
Qed.
(** a key without 'unique': no block is customised, no key has 'unique' *)
Lemma blk_key_plain key cust bs : forall acc, contains "unique" (blk_key key cust bs acc) = false ->
  (forall b, In b bs -> cust b = false /\ contains "unique" (key b) = false) /\ blk_key key cust bs acc = String.concat "." (rev acc ++ map key bs).
Proof.
  induction bs as [|b bs IH]; intros acc H; cbn [blk_key] in *.
  - split; [intros b []|]. cbn. now rewrite app_nil_r.
  - destruct (cust b) eqn:Ec; [discriminate|]. destruct (is_unique (key b)) eqn:Eu; [discriminate|]. destruct (IH _ H) as [H1 H2]. split.
    + intros c [<-|Hc]; auto. split; auto. destruct (contains "unique" (key b)) eqn:E; auto. exfalso. rewrite blk_key_acc in H; [discriminate|]. exists (key b). split; auto. now left.
    + rewrite H2. cbn [rev map]. now rewrite <- app_assoc.
Qed.
Lemma bin_key_plain k1 k2 d : contains "unique" (if is_unique k1 || is_unique k2 then "unique"%string else (k1 ++ d ++ k2)%string) = false ->
  contains "unique" k1 = false /\ contains "unique" k2 = false /\ (if is_unique k1 || is_unique k2 then "unique"%string else (k1 ++ d ++ k2)%string) = (k1 ++ d ++ k2)%string.
Proof.
  intros H. destruct (is_unique k1 || is_unique k2); [discriminate|]. split; [|split; auto].
  - destruct (contains "unique" k1) eqn:E; auto. now rewrite contains_l in H.
  - destruct (contains "unique" k2) eqn:E; auto. rewrite contains_r in H; [discriminate|]. now apply contains_r.
Qed.

(** ** A: keys that are never shared *)
Definition unique_kind (k : kind) : Prop := match k with KData key _ _ | KCall key _ => forall e, contains "unique" (key e) = true | _ => True end.
Definition all_unique (st : lstate) : Prop := forall i o, nth_error (objs st) i = Some o -> unique_kind (o_kind o).
Lemma unique_keys st i e : wf st -> all_unique st -> forall n, contains "unique" (key_of n st i e) = true.
Proof.
  intros W U. induction i as [i IH] using lt_wf_ind. intros [|n]; [reflexivity|]. cbn [key_of]. destruct (nth_error (objs st) i) as [o|] eqn:E; [|reflexivity]. cbn [option_map].
  pose proof (U i o E) as Hu. destruct (W i o E) as (Hop & _). destruct (o_kind o) as [k d s|k f|f s|s|dot f a b|f b bs]; cbn [operands unique_kind] in *; auto.
  - apply IH, Hop. now left.
  - apply IH, Hop. now left.
  - destruct (is_unique _ || is_unique _); auto. apply contains_l, IH, Hop. now left.
  - cbn [blk_key]. destruct (customised st b e); auto. destruct (is_unique _); auto. apply blk_key_acc. eexists. split; [now left|]. apply IH, Hop. now left.
Qed.
Definition any (i : nat) (k : string) (m : smat) : Prop := True.
Lemma good_unique st : wf st -> good st any st.
Proof.
  intros W. split; [apply ext_refl|]. split; auto. intros i o k r Hi Hr. destruct (W i o Hi) as (_ & _ & H3 & _). destruct (deref_some (heap st) r) as [m Hm]; eauto. exists m. split; auto. exact I.
Qed.
Lemma read_unique es st i e : wf st -> all_unique st -> i < List.length (objs st) -> In e es ->
  exists st' r, getitem st i e = Some (st', r) /\ ext st st' /\ wf st' /\ fst r < List.length (heap st') /\ deref (heap st') r = expected st i e.
Proof.
  intros W U Hi He. destruct (read_right es st any W) with (n := S i) (st := st) (i := i) (e := e) as (st' & r & E & G & X & L & D); auto.
  - intros j x k m _ <- C _. now rewrite unique_keys in C.
  - intros; exact I.
  - now apply good_unique.
  - exists st', r. split; auto. split; auto. split; [apply G|auto].
Qed.
Lemma all_unique_ext st st' : ext st st' -> all_unique st -> all_unique st'.
Proof.
  intros X U i o' Hi. destruct (nth_error (objs st) i) as [o|] eqn:E; [|rewrite (ext_none _ _ _ X E) in Hi; discriminate].
  destruct (ext_obj _ _ _ _ X E) as (o2 & H2 & Hk & _). assert (o2 = o') as -> by congruence. rewrite Hk. eauto.
Qed.
Lemma all_unique_update st i f : (forall o, o_kind (f o) = o_kind o) -> all_unique st -> all_unique (update st i f).
Proof.
  intros H U j o Hj. unfold update in Hj. cbn [objs] in Hj. destruct (nth_error (objs st) i) as [oi|] eqn:Ei; [|eauto]. rewrite nth_error_set_nth, Ei in Hj.
  destruct (Nat.eqb_spec j i); [injection Hj as <-; rewrite H; eauto|eauto].
Qed.
Definition unique_op (op : lop) : Prop := match op with LNew k => unique_kind k | _ => True end.
Lemma in_es es e : existsb (Nat.eqb e) es = true -> In e es.
Proof. intros H. apply existsb_exists in H as (x & Hx & E). now apply Nat.eqb_eq in E as ->. Qed.
Lemma wf_cust st1 i e m : wf st1 -> wf (update (fst (alloc st1 m)) i (fun o => {| o_kind := o_kind o; o_cache := o_cache o; o_cust := nput (o_cust o) e (snd (alloc st1 m)) |})).
Proof.
  intros W. apply wf_recust; [now apply wf_alloc|auto|]. intros o x r Ho Hr. cbn [o_cust] in Hr. rewrite (get_put Nat.eqb Neqb_spec) in Hr. destruct (x =? e).
  - injection Hr as <-. cbn. rewrite app_length. cbn. lia.
  - pose proof (wf_alloc st1 m W i o Ho) as (_ & _ & _ & H4). eauto.
Qed.
Lemma step_unique es st op st' : wf st -> all_unique st -> no_threshold op -> unique_op op -> lstep es st op = Some st' -> wf st' /\ all_unique st'.
Proof.
  intros W U Hn Hu E. destruct op as [k|m|i e|i e f|i|i t]; cbn [lstep] in E.
  - destruct (kind_ok st k) eqn:Ek; [|discriminate]. injection E as <-. split; [now apply wf_new|]. intros i o Hi. cbn in Hi.
    destruct (Nat.lt_ge_cases i (List.length (objs st))) as [Hl|Hl]; [rewrite nth_error_app1 in Hi by auto; eauto|]. rewrite nth_error_app2 in Hi by auto.
    destruct (i - _) as [|x]; [|now destruct x]. injection Hi as <-. exact Hu.
  - injection E as <-. split; [now apply wf_alloc|exact U].
  - destruct (existsb _ es) eqn:Ee; [|discriminate]. apply in_es in Ee. destruct (getitem st i e) as [[st1 r]|] eqn:E1; [|discriminate]. injection E as <-.
    assert (Hi : i < List.length (objs st)) by (unfold getitem in E1; cbn [read] in E1; apply nth_error_Some; destruct (nth_error (objs st) i); congruence).
    destruct (read_unique es st i e W U Hi Ee) as (st2 & r2 & E2 & X & W2 & _). cbn. assert (st2 = st1) as -> by congruence. split; auto. eapply all_unique_ext; eauto.
  - destruct (existsb _ es) eqn:Ee; [|discriminate]. apply in_es in Ee. destruct (getitem st i e) as [[st1 r]|] eqn:E1; [|discriminate]. destruct (deref (heap st1) r) as [m|]; [|discriminate].
    assert (Hi : i < List.length (objs st)) by (unfold getitem in E1; cbn [read] in E1; apply nth_error_Some; destruct (nth_error (objs st) i); congruence).
    destruct (read_unique es st i e W U Hi Ee) as (st2 & r2 & E2 & X & W2 & _). assert (st2 = st1) as -> by congruence. injection E as <-. split.
    + apply (wf_cust st1 i e (f m) W2).
    + apply all_unique_update; auto. eapply all_unique_ext; [|eauto]. eapply ext_trans; [eauto|apply (ext_alloc st1)].
  - injection E as <-. split; [|now apply all_unique_update]. apply wf_recust; auto. cbn. discriminate.
  - destruct t as [t|]; [destruct Hn|]. destruct (assemble_reads None st i es) as [[st1 ms]|] eqn:E1; [|discriminate]. injection E as <-. cbn.
    destruct es as [|e0 es'] eqn:Ees; [cbn in E1; injection E1 as <- <-; auto|]. rewrite <- Ees in *.
    assert (Hi : i < List.length (objs st)).
    { rewrite Ees in E1. cbn [assemble_reads] in E1. unfold getitem in E1. cbn [read] in E1. apply nth_error_Some. destruct (nth_error (objs st) i); [congruence|discriminate]. }
    destruct (assemble_right es st any W) with (i := i) (l := es) (st := st) as (st2 & ms2 & E2 & G & X & _); auto.
    + intros j x k m _ <- C _. now rewrite unique_keys in C.
    + now apply good_unique.
    + assert (st2 = st1) as -> by congruence. split; [apply G|]. eapply all_unique_ext; eauto.
Qed.
Lemma run_unique es ops : forall st st', wf st -> all_unique st -> Forall no_threshold ops -> Forall unique_op ops -> lrun es st ops = Some st' -> wf st' /\ all_unique st'.
Proof.
  induction ops as [|op ops IH]; intros st st' W U Hn Hu E; cbn [lrun] in E; [injection E as <-; auto|]. inversion_clear Hn. inversion_clear Hu.
  destruct (lstep es st op) as [st1|] eqn:E1; [|discriminate]. destruct (step_unique es st op st1); auto. eauto.
Qed.
Lemma wf_empty : wf empty_lstate. Proof. intros [|i] o H; discriminate. Qed.
Lemma uniq_empty : all_unique empty_lstate. Proof. intros [|i] o H; discriminate. Qed.
Theorem reads_with_unique_keys es ops st : lrun es empty_lstate ops = Some st -> Forall no_threshold ops -> Forall unique_op ops ->
  forall i e, i < List.length (objs st) -> In e es -> exists st' r m, getitem st i e = Some (st', r) /\ deref (heap st') r = Some m /\ expected st i e = Some m /\
    forall j x, expected st' j x = expected st j x.
Proof.
  intros E Hn Hu i e Hi He. destruct (run_unique es ops _ _ wf_empty uniq_empty Hn Hu E) as [W U]. destruct (read_unique es st i e W U Hi He) as (st' & r & E1 & X & W1 & L & D).
  destruct (deref_some _ _ L) as [m Hm]. exists st', r, m. split; auto. split; auto. split; [congruence|]. intros. now apply expected_ext.
Qed.
(** a customisation changes what is expected of its element *)
Theorem customise_effect es ops st i e f st' : lrun es empty_lstate ops = Some st -> Forall no_threshold ops -> Forall unique_op ops ->
  lstep es st (LCust i e f) = Some st' -> expected st' i e = option_map f (expected st i e).
Proof.
  intros E Hn Hu. destruct (run_unique es ops _ _ wf_empty uniq_empty Hn Hu E) as [W U]. cbn [lstep]. destruct (existsb _ es) eqn:Ee; [|discriminate]. apply in_es in Ee.
  destruct (getitem st i e) as [[st1 r]|] eqn:E1; [|discriminate]. destruct (deref (heap st1) r) as [m|] eqn:Em; [|discriminate]. intros E3.
  assert (Hi : i < List.length (objs st)) by (unfold getitem in E1; cbn [read] in E1; apply nth_error_Some; destruct (nth_error (objs st) i); congruence).
  destruct (read_unique es st i e W U Hi Ee) as (st2 & r2 & E2 & X & W2 & L & D). rewrite E1 in E2. injection E2 as <- <-. rewrite <- D, Em. cbn [option_map].
  injection E3 as <-. assert (L1 : i < List.length (objs st1)) by (now rewrite <- (ext_len _ _ X)). destruct (nth_error (objs st1) i) as [o|] eqn:Eo; [|apply nth_error_None in Eo; lia].
  rewrite expected_unfold by (apply (wf_cust st1 i e (f m) W2)). unfold update. cbn [objs]. rewrite Eo, nth_error_set_nth, Nat.eqb_refl, Eo. cbn [option_map o_cust].
  rewrite (get_put Nat.eqb Neqb_spec), Nat.eqb_refl. cbn [heap]. unfold deref. cbn [fst snd]. rewrite nth_error_app2, Nat.sub_diag by lia. reflexivity.
Qed.
