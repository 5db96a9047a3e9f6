(** Elements that share a cache key *)
From Coq Require Import List Arith Lia Bool String Ascii QArith Qcanon.
From Verif Require Import Dict GmModel QSums LmModel LmProofs LmCacheModel LmCacheSpec LmCacheProofs LmCacheThms.
Import ListNotations.
Local Open Scope nat_scope.

(** operations other than bmat: they take the key of a customised operand as if it was not customised *)
Definition direct (k : kind) : bool := match k with KUn _ _ | KTr _ | KBin _ _ _ _ => true | _ => false end.
(** [C]: the objects that may be customised *)
Definition apart (C : nat -> Prop) (st : lstate) : Prop :=
  (forall i o e r, nth_error (objs st) i = Some o -> get Nat.eqb (o_cust o) e = Some r -> C i) /\
  (forall i o j, nth_error (objs st) i = Some o -> direct (o_kind o) = true -> In j (operands (o_kind o)) -> ~ C j).
(** keys and data when nothing is customised *)
Definition cleankey (st : lstate) (i e : nat) : string := key_of (S i) (strip st) i e.
Definition clean (st : lstate) (i e : nat) : option smat := expected (strip st) i e.
Definition keys_faithful (es : list nat) (st : lstate) : Prop := forall i e e', i < List.length (objs st) -> In e es -> In e' es ->
  cleankey st i e = cleankey st i e' -> contains "unique" (cleankey st i e) = false -> clean st i e = clean st i e'.

Lemma clean_unfold st i o e : wf st -> nth_error (objs st) i = Some o -> clean st i e =
  match o_kind o with
  | KData _ d shape => match get Nat.eqb d e with Some r => deref (heap st) r | None => Some (zero_mat (shape e)) end
  | KCall _ f => Some (f e)
  | KUn f s => option_map f (clean st s e)
  | KTr s => option_map tr (clean st s e)
  | KBin _ f a b => match clean st a e, clean st b e with Some x, Some y => Some (f x y) | _, _ => None end
  | KBlk f b bs => option_map f (obind (b :: bs) (fun j => clean st j e))
  end.
Proof. intros W E. unfold clean at 1. rewrite expected_unfold by (now apply wf_strip). unfold uncustomised. rewrite strip_nth, E. reflexivity. Qed.
Lemma cleankey_unfold st i o e : wf st -> nth_error (objs st) i = Some o -> cleankey st i e =
  match o_kind o with
  | KData k _ _ | KCall k _ => k e
  | KUn _ s | KTr s => cleankey st s e
  | KBin dot _ a b => if is_unique (cleankey st a e) || is_unique (cleankey st b e) then "unique"%string else (cleankey st a e ++ (if dot then "." else "") ++ cleankey st b e)%string
  | KBlk _ b bs => blk_key (fun j => cleankey st j e) (fun _ => false) (b :: bs) []
  end.
Proof.
  intros W E. unfold cleankey at 1. cbn [key_of]. rewrite strip_nth, E. cbn [option_map o_kind]. destruct (W i o E) as (Hop & _). pose proof (wf_strip st W) as Ws.
  assert (HH : forall j, In j (operands (o_kind o)) -> key_of i (strip st) j e = cleankey st j e).
  { intros j Hj. apply Hop in Hj. apply key_fuel; auto. apply ext_refl. }
  destruct (o_kind o) as [k d s|k f|f s|s|dot f a b|f b bs]; auto; cbn [operands] in HH.
  - apply HH. now left.
  - apply HH. now left.
  - rewrite (HH a), (HH b); cbn; auto.
  - apply blk_key_ext; auto. intros j Hj. apply Hop in Hj. unfold customised. rewrite strip_nth. now destruct (nth_error (objs st) j).
Qed.

Lemma has_get (d : dict nat ref) e : has Nat.eqb d e = false <-> get Nat.eqb d e = None.
Proof. rewrite (get_none Nat.eqb Neqb_spec), <- (has_spec Nat.eqb Neqb_spec). destruct (has Nat.eqb d e); intuition congruence. Qed.
(** a key that is not unique is the key of the clean state, and so is the data *)
Lemma plain_clean C st i e : wf st -> apart C st -> i < List.length (objs st) -> contains "unique" (key_of (S i) st i e) = false ->
  cleankey st i e = key_of (S i) st i e /\ uncustomised st i e = clean st i e.
Proof.
  intros W [A1 A2]. induction i as [i IH] using lt_wf_ind. intros Hi Hk. destruct (nth_error (objs st) i) as [o|] eqn:E; [|apply nth_error_None in E; lia].
  rewrite (cleankey_unfold st i o e W E), (clean_unfold st i o e W E). unfold uncustomised. rewrite E. cbn [key_of] in *. rewrite E in *. cbn [option_map] in *. destruct (W i o E) as (Hop & _).
  assert (HK : forall j, In j (operands (o_kind o)) -> key_of i st j e = key_of (S j) st j e).
  { intros j Hj. apply Hop in Hj. apply key_fuel; auto. apply ext_refl. }
  assert (HE : forall j, In j (operands (o_kind o)) -> customised st j e = false -> contains "unique" (key_of i st j e) = false -> cleankey st j e = key_of i st j e /\ expected st j e = clean st j e).
  { intros j Hj Hc Hu. pose proof (Hop j Hj) as Hlt. rewrite (HK j Hj) in Hu |- *. destruct (IH j Hlt) as [I1 I2]; auto; [lia|]. split; auto. rewrite <- I2, expected_unfold by auto.
    unfold customised in Hc. destruct (nth_error (objs st) j) as [oj|] eqn:Ej; [|apply nth_error_None in Ej; lia]. rewrite (proj1 (has_get _ _) Hc). reflexivity. }
  assert (HD : direct (o_kind o) = true -> forall j, In j (operands (o_kind o)) -> customised st j e = false).
  { intros Hd j Hj. pose proof (A2 i o j E Hd Hj) as HC. unfold customised. destruct (nth_error (objs st) j) as [oj|] eqn:Ej; auto. apply has_get. destruct (get Nat.eqb (o_cust oj) e) eqn:Eg; auto. destruct HC. eauto. }
  destruct (o_kind o) as [k d s|k f|f s|s|dot f a b|f b bs]; auto; cbn [operands direct] in *.
  - destruct (HE s) as [-> ->]; auto; [now left| ]. apply HD; auto. now left.
  - destruct (HE s) as [-> ->]; auto; [now left| ]. apply HD; auto. now left.
  - destruct (bin_key_plain _ _ _ Hk) as (Ka & Kb & _). destruct (HE a) as [-> ->]; auto; [now left|apply HD; auto; now left|]. destruct (HE b) as [-> ->]; auto; [right; now left|apply HD; auto; right; now left].
  - destruct (blk_key_plain _ _ _ _ Hk) as [HB _]. split.
    + apply blk_key_ext; intros j Hj; destruct (HB j Hj) as [B1 B2]; [apply HE; auto|auto].
    + f_equal. apply obind_ext_in. intros j Hj. destruct (HB j Hj) as [B1 B2]. apply HE; auto.
Qed.

(** ** programs *)
Definition CVs (es : list nat) (st : lstate) (i : nat) (k : string) (m : smat) : Prop :=
  contains "unique" k = false /\ (forall e, In e es -> cleankey st i e = k -> clean st i e = Some m).
Definition inv (es : list nat) (C : nat -> Prop) (st : lstate) : Prop := wf st /\ apart C st /\ entries_ok (CVs es st) st.
Lemma good_inv es C st : inv es C st -> good st (CVs es st) st.
Proof. intros (W & _ & E). split; [apply ext_refl|auto]. Qed.
Lemma plain_lt st i e : contains "unique" (key_of (S i) st i e) = false -> i < List.length (objs st).
Proof. intros H. apply nth_error_Some. intros E. cbn [key_of] in H. rewrite E in H. discriminate. Qed.
Lemma cv_use es C st : wf st -> apart C st -> keys_faithful es st ->
  forall i e k m, In e es -> key_of (S i) st i e = k -> contains "unique" k = false -> CVs es st i k m -> uncustomised st i e = Some m.
Proof. intros W A F i e k m He <- Hc [_ H]. pose proof (plain_lt _ _ _ Hc) as Hi. destruct (plain_clean C st i e W A Hi Hc) as [H1 ->]. now apply H. Qed.
Lemma cv_make es C st : wf st -> apart C st -> keys_faithful es st ->
  forall i e k m, In e es -> key_of (S i) st i e = k -> contains "unique" k = false -> uncustomised st i e = Some m -> CVs es st i k m.
Proof.
  intros W A F i e k m He <- Hc Hm. pose proof (plain_lt _ _ _ Hc) as Hi. split; auto. intros e' He' Ek. destruct (plain_clean C st i e W A Hi Hc) as [H1 H2]. rewrite <- Hm, H2. symmetry. apply F; auto; congruence.
Qed.
Lemma faithful_grow es st st' : wf st -> grow st st' -> keys_faithful es st' -> keys_faithful es st.
Proof.
  intros W G F i e e' Hi He He'. assert (Hl : i < List.length (objs st')).
  { destruct G as [G _]. destruct (nth_error (objs st) i) as [o|] eqn:E; [|apply nth_error_None in E; lia]. destruct (G i o E) as (o' & Ho' & _). apply nth_error_Some. congruence. }
  specialize (F i e e' Hl He He'). unfold cleankey, clean, expected in *. rewrite !(strip_key_grow st st'), !(strip_want_grow st st') in F; auto.
Qed.
Lemma CVs_grow es st st' i k m : wf st -> grow st st' -> i < List.length (objs st) -> CVs es st i k m -> CVs es st' i k m.
Proof.
  intros W G Hi [Hc H]. split; auto. intros e He. unfold cleankey, clean, expected. rewrite (strip_key_grow st st'), (strip_want_grow st st') by auto. now apply H.
Qed.
Lemma lt_of_nth {A} (l : list A) i a : nth_error l i = Some a -> i < List.length l.
Proof. intros H. apply nth_error_Some. congruence. Qed.
(** entries of a state whose caches are those of the state before *)
Lemma entries_keep es st st' : wf st -> grow st st' -> entries_ok (CVs es st) st -> (forall i o', nth_error (objs st') i = Some o' -> o_cache o' = [] \/ exists o, nth_error (objs st) i = Some o /\ o_cache o' = o_cache o) ->
  entries_ok (CVs es st') st'.
Proof.
  intros W G E H i o' k r Hi Hr. destruct (H i o' Hi) as [Hn|(o & Ho & Ec)]; [rewrite Hn in Hr; discriminate|]. rewrite Ec in Hr. destruct (E i o k r Ho Hr) as (m & Hm & HC). exists m. split.
  - destruct (W i o Ho) as (_ & _ & H3 & _). destruct G as [_ [x ->]]. rewrite deref_app; eauto.
  - eapply CVs_grow; eauto using lt_of_nth.
Qed.
Lemma apart_ext C st st' : ext st st' -> apart C st -> apart C st'.
Proof.
  intros X [A1 A2]. assert (B : forall i o', nth_error (objs st') i = Some o' -> exists o, nth_error (objs st) i = Some o /\ o_kind o' = o_kind o /\ o_cust o' = o_cust o).
  { intros i o' Hi. destruct (nth_error (objs st) i) as [o|] eqn:E; [|rewrite (ext_none _ _ _ X E) in Hi; discriminate]. destruct (ext_obj _ _ _ _ X E) as (o2 & H2 & Hk & Hc).
    exists o. assert (o2 = o') as -> by congruence. auto. }
  split.
  - intros i o' e r Hi Hr. destruct (B i o' Hi) as (o & Ho & _ & Ec). rewrite Ec in Hr. eauto.
  - intros i o' j Hi Hd Hj. destruct (B i o' Hi) as (o & Ho & Ek & _). rewrite Ek in *. eauto.
Qed.
Lemma apart_recust (C : nat -> Prop) st i f : (forall o, o_kind (f o) = o_kind o) -> (forall o e r, nth_error (objs st) i = Some o -> get Nat.eqb (o_cust (f o)) e = Some r -> C i) -> apart C st -> apart C (update st i f).
Proof.
  intros Hk Hc [A1 A2]. unfold update. destruct (nth_error (objs st) i) as [oi|] eqn:Ei; [|split; cbn; auto]. split; cbn [objs].
  - intros j o e r Hj Hr. rewrite nth_error_set_nth, Ei in Hj. destruct (Nat.eqb_spec j i) as [->|]; [injection Hj as <-; eauto|eauto].
  - intros j o x Hj Hd Hx. rewrite nth_error_set_nth, Ei in Hj. destruct (Nat.eqb_spec j i) as [->|]; [injection Hj as <-; rewrite Hk in *; eauto|eauto].
Qed.
(** which programs keep customised matrices apart *)
Definition op_apart (C : nat -> Prop) (op : lop) : Prop :=
  match op with LCust i _ _ => C i | LNew k => direct k = true -> forall j, In j (operands k) -> ~ C j | _ => True end.
Lemma read_inv es C st i e st1 r : inv es C st -> keys_faithful es st -> In e es -> getitem st i e = Some (st1, r) ->
  inv es C st1 /\ ext st st1 /\ fst r < List.length (heap st1) /\ deref (heap st1) r = expected st i e.
Proof.
  intros I F He E1. pose proof I as (W & A & E).
  assert (Hi : i < List.length (objs st)) by (unfold getitem in E1; cbn [read] in E1; apply nth_error_Some; destruct (nth_error (objs st) i); congruence).
  destruct (read_right es st (CVs es st) W (cv_use es C st W A F) (cv_make es C st W A F) (S i) st i e (good_inv es C st I) Hi ltac:(lia) He) as (st2 & r2 & E2 & (_ & W2 & En) & X & L & D).
  unfold getitem in E1. assert (st2 = st1) as -> by congruence. assert (r2 = r) as -> by congruence. split; [|auto]. split; auto. split; [eapply apart_ext; eauto|].
  intros j o k x Hj Hx. destruct (En j o k x Hj Hx) as (m & Hm & HC). exists m. split; auto. apply (CVs_grow es st); [exact W|exact (ext_grow _ _ X)| |exact HC]. rewrite (ext_len _ _ X). exact (lt_of_nth _ _ _ Hj).
Qed.
Lemma update_nth st i f j o' : nth_error (objs (update st i f)) j = Some o' -> exists o, nth_error (objs st) j = Some o /\ (o' = o \/ o' = f o).
Proof.
  unfold update. cbn [objs]. destruct (nth_error (objs st) i) as [oi|] eqn:Ei; [|eauto]. rewrite nth_error_set_nth, Ei. destruct (Nat.eqb_spec j i) as [->|]; [intros [= <-]|]; eauto.
Qed.
Lemma step_inv es C st op st' : inv es C st -> keys_faithful es st -> no_threshold op -> op_apart C op -> lstep es st op = Some st' -> inv es C st'.
Proof.
  intros I F Hn Ha E0. pose proof (grow_step es st op st' Hn E0) as G. pose proof I as (W & A & En). pose proof E0 as E. destruct op as [k|m|i e|i e f|i|i t]; cbn [lstep] in E.
  - destruct (kind_ok st k) eqn:Ek; [|discriminate]. injection E as <-. split; [now apply wf_new|].
    assert (B : forall j o, nth_error (objs st ++ [{| o_kind := k; o_cache := []; o_cust := [] |}]) j = Some o -> nth_error (objs st) j = Some o \/ o = {| o_kind := k; o_cache := []; o_cust := [] |}).
    { intros j o Hj. destruct (Nat.lt_ge_cases j (List.length (objs st))); [rewrite nth_error_app1 in Hj by auto; auto|]. rewrite nth_error_app2 in Hj by auto. destruct (j - _) as [|x]; [|now destruct x].
      right. now injection Hj as <-. }
    split; [|apply (entries_keep es st); auto; cbn; intros j o Hj; destruct (B j o Hj) as [| ->]; eauto].
    destruct A as [A1 A2]. split; cbn [objs].
    + intros j o e r Hj Hr. destruct (B j o Hj) as [| ->]; eauto. discriminate.
    + intros j o x Hj Hd Hx. destruct (B j o Hj) as [| ->]; eauto.
  - injection E as <-. split; [now apply wf_alloc|]. split; [exact A|]. apply (entries_keep es st); auto. intros j o Hj. right. exists o. split; auto.
  - destruct (existsb _ es) eqn:Ee; [|discriminate]. apply in_es in Ee. destruct (getitem st i e) as [[st1 r]|] eqn:E1; [|discriminate]. injection E as <-. eapply read_inv; eauto.
  - destruct (existsb _ es) eqn:Ee; [|discriminate]. apply in_es in Ee. destruct (getitem st i e) as [[st1 r]|] eqn:E1; [|discriminate]. destruct (deref (heap st1) r) as [m|]; [|discriminate].
    destruct (read_inv es C st i e st1 r I F Ee E1) as ((W1 & A1 & En1) & X & _). injection E as <-. split; [apply (wf_cust st1 i e (f m) W1)|]. split.
    + apply apart_recust; auto.
    + apply (entries_keep es st1); auto.
      * eapply grow_trans; [apply ext_grow, (ext_alloc st1 (f m))|]. now apply grow_update.
      * intros j o' Hj. apply update_nth in Hj as (o & Ho & [->| ->]); right; exists o; auto.
  - injection E as <-. split; [apply wf_recust; auto; cbn; discriminate|]. split; [apply apart_recust; auto; cbn; discriminate|]. apply (entries_keep es st); auto.
    intros j o' Hj. apply update_nth in Hj as (o & Ho & [->| ->]); right; exists o; auto.
  - destruct t as [t|]; [destruct Hn|]. destruct (assemble_reads None st i es) as [[st1 ms]|] eqn:E1; [|discriminate]. injection E as <-. cbn [fst].
    destruct (Nat.lt_ge_cases i (List.length (objs st))) as [Hi|Hi].
    + destruct (assemble_right es st (CVs es st) W (cv_use es C st W A F) (cv_make es C st W A F) i Hi es ltac:(auto) st (good_inv es C st I)) as (st2 & ms2 & E2 & (_ & W2 & En2) & X & _).
      assert (st2 = st1) as -> by congruence. split; auto. split; [eapply apart_ext; eauto|]. intros j o k x Hj Hx. destruct (En2 j o k x Hj Hx) as (m & Hm & HC). exists m. split; auto.
      apply (CVs_grow es st); [exact W|exact (ext_grow _ _ X)| |exact HC]. rewrite (ext_len _ _ X). exact (lt_of_nth _ _ _ Hj).
    + destruct es as [|e0 es']; [cbn in E1; injection E1 as <- <-; auto|]. cbn [assemble_reads] in E1. unfold getitem in E1. cbn [read] in E1. rewrite (proj2 (nth_error_None _ _) Hi) in E1. discriminate.
Qed.
Lemma run_inv es C ops : forall st st', inv es C st -> Forall no_threshold ops -> Forall (op_apart C) ops -> lrun es st ops = Some st' -> keys_faithful es st' -> inv es C st'.
Proof.
  induction ops as [|op ops IH]; intros st st' I Hn Ha E F; pose proof E as E0; cbn [lrun] in E; [injection E as <-; auto|]. inversion Hn; subst. inversion Ha; subst.
  destruct (lstep es st op) as [st1|] eqn:E1; [|discriminate]. apply (IH st1); auto. apply (step_inv es C st op); auto. apply (faithful_grow es st st'); [apply I| |auto].
  exact (grow_run es (op :: ops) st st' Hn E0).
Qed.
Lemma inv_empty es C : inv es C empty_lstate.
Proof. split; [apply wf_empty|]. split; [split; intros [|i] o; discriminate|]. intros [|i] o; discriminate. Qed.
(** ** B: customised matrices go into block matrices only *)
Theorem reads_with_shared_keys es ops st : lrun es empty_lstate ops = Some st -> Forall no_threshold ops ->
  (forall i e f k, In (LCust i e f) ops -> In (LNew k) ops -> direct k = true -> ~ In i (operands k)) -> keys_faithful es st ->
  forall i e, i < List.length (objs st) -> In e es -> exists st' r m, getitem st i e = Some (st', r) /\ deref (heap st') r = Some m /\ expected st i e = Some m /\
    forall j x, expected st' j x = expected st j x.
Proof.
  intros E Hn Hc F i e Hi He. set (C := fun j => exists e f, In (LCust j e f) ops).
  assert (Ha : Forall (op_apart C) ops).
  { apply Forall_forall. intros [k|m|j x|j x f|j|j t] Hop; cbn; auto; [|exists x, f; auto]. intros Hd j Hj (x & f & Hx). exact (Hc j x f k Hx Hop Hd Hj). }
  pose proof (run_inv es C ops _ _ (inv_empty es C) Hn Ha E F) as I. pose proof I as (W & A & En).
  destruct (read_right es st (CVs es st) W (cv_use es C st W A F) (cv_make es C st W A F) (S i) st i e (good_inv es C st I) Hi ltac:(lia) He) as (st2 & r2 & E2 & (_ & W2 & _) & X & L & D).
  destruct (deref_some _ _ L) as [m Hm]. exists st2, r2, m. split; auto. split; auto. split; [congruence|]. intros. now apply expected_ext.
Qed.
Theorem assemble_with_shared_keys es ops st : lrun es empty_lstate ops = Some st -> Forall no_threshold ops ->
  (forall i e f k, In (LCust i e f) ops -> In (LNew k) ops -> direct k = true -> ~ In i (operands k)) -> keys_faithful es st ->
  forall i, i < List.length (objs st) -> exists st' ms, assemble_reads None st i es = Some (st', ms) /\ Forall2 (fun e m => expected st i e = Some m) es ms /\
    forall j x, expected st' j x = expected st j x.
Proof.
  intros E Hn Hc F i Hi. set (C := fun j => exists e f, In (LCust j e f) ops).
  assert (Ha : Forall (op_apart C) ops).
  { apply Forall_forall. intros [k|m|j x|j x f|j|j t] Hop; cbn; auto; [|exists x, f; auto]. intros Hd j Hj (x & f & Hx). exact (Hc j x f k Hx Hop Hd Hj). }
  pose proof (run_inv es C ops _ _ (inv_empty es C) Hn Ha E F) as I. pose proof I as (W & A & En).
  destruct (assemble_right es st (CVs es st) W (cv_use es C st W A F) (cv_make es C st W A F) i Hi es ltac:(auto) st (good_inv es C st I)) as (st2 & ms & E2 & _ & X & D).
  exists st2, ms. split; auto. split; auto. intros. now apply expected_ext.
Qed.

(** ** when keys are faithful *)
Section Measure.
  (** a size of keys at which concatenations can be cut *)
  Variable mu : string -> nat.
  Variable joint : bool -> bool.
  Definition sep (dot : bool) : string := if dot then "."%string else ""%string.
  Hypothesis mu_sep : forall dot s t, joint dot = true -> mu (s ++ sep dot ++ t)%string = mu s + mu (sep dot) + mu t.
  Hypothesis mu_cut : forall dot s s' t t', joint dot = true -> mu s = mu s' -> (s ++ sep dot ++ t = s' ++ sep dot ++ t')%string -> s = s' /\ t = t'.
  Hypothesis joint_dot : joint true = true.
  Lemma concat_cut l : forall l', Forall2 (fun s t => mu s = mu t) l l' -> mu (String.concat "." l) = mu (String.concat "." l') /\ (String.concat "." l = String.concat "." l' -> l = l').
  Proof.
    induction l as [|a l IH]; intros l' H; inversion H as [|? b ? l2 Hab Hl]; subst; [auto|]. destruct (IH l2 Hl) as [I1 I2]. cbn [String.concat].
    destruct l as [|a2 l]; inversion Hl as [|? b2 ? l3 Hab2 Hl3]; subst; [split; [auto|now intros ->]|]. split.
    - change (mu (a ++ sep true ++ String.concat "." (a2 :: l))%string = mu (b ++ sep true ++ String.concat "." (b2 :: l3))%string). rewrite !mu_sep by auto. lia.
    - intros E. destruct (mu_cut true a b _ _ joint_dot Hab E) as [-> E2]. f_equal. now apply I2.
  Qed.
  (** base matrices: data of elements with the same key agree, and all their keys are of one size; only joints that can be cut *)
  Definition base_ok (es : list nat) (st : lstate) : Prop := forall i o, nth_error (objs st) i = Some o ->
    match o_kind o with
    | KData k d shape => forall e e', In e es -> In e' es -> contains "unique" (k e) = false -> contains "unique" (k e') = false ->
        mu (k e) = mu (k e') /\ (k e = k e' -> match get Nat.eqb d e with Some r => deref (heap st) r | None => Some (zero_mat (shape e)) end =
                                              match get Nat.eqb d e' with Some r => deref (heap st) r | None => Some (zero_mat (shape e')) end)
    | KCall k f => forall e e', In e es -> In e' es -> contains "unique" (k e) = false -> contains "unique" (k e') = false -> mu (k e) = mu (k e') /\ (k e = k e' -> f e = f e')
    | KBin dot _ _ _ => joint dot = true
    | _ => True
    end.
  Lemma measure_faithful es st : wf st -> base_ok es st -> keys_faithful es st.
  Proof.
    intros W B. assert (H : forall i e e', i < List.length (objs st) -> In e es -> In e' es -> contains "unique" (cleankey st i e) = false -> contains "unique" (cleankey st i e') = false ->
      mu (cleankey st i e) = mu (cleankey st i e') /\ (cleankey st i e = cleankey st i e' -> clean st i e = clean st i e')).
    { induction i as [i IH] using lt_wf_ind. intros e e' Hi He He'. destruct (nth_error (objs st) i) as [o|] eqn:E; [|apply nth_error_None in E; lia].
      rewrite !(clean_unfold st i o _ W E), !(cleankey_unfold st i o _ W E). pose proof (B i o E) as Bo. destruct (W i o E) as (Hop & _).
      destruct (o_kind o) as [k d s|k f|f s|s|dot f a b|f b bs]; cbn [operands] in Hop; intros U U'.
      - now apply Bo.
      - destruct (Bo e e') as [B1 B2]; auto. split; auto. intros Ek. now rewrite B2.
      - destruct (IH s) with (e := e) (e' := e') as [I1 I2]; auto; [apply Hop; now left|assert (s < i) by (apply Hop; now left); lia|]. split; auto. intros Ek. now rewrite I2.
      - destruct (IH s) with (e := e) (e' := e') as [I1 I2]; auto; [apply Hop; now left|assert (s < i) by (apply Hop; now left); lia|]. split; auto. intros Ek. now rewrite I2.
      - destruct (bin_key_plain _ _ _ U) as (Ua & Ub & ->). destruct (bin_key_plain _ _ _ U') as (Ua' & Ub' & ->).
        assert (Ha : a < i) by (apply Hop; now left). assert (Hb : b < i) by (apply Hop; right; now left).
        destruct (IH a Ha e e') as [A1 A2]; auto; [lia|]. destruct (IH b Hb e e') as [B1 B2]; auto; [lia|]. fold (sep dot). split; [rewrite !mu_sep by auto; lia|].
        intros Ek. destruct (mu_cut dot _ _ _ _ Bo A1 Ek) as [Ea Eb]. now rewrite A2, B2.
      - destruct (blk_key_plain _ _ _ _ U) as (V & ->). destruct (blk_key_plain _ _ _ _ U') as (V' & ->). cbn [rev List.app].
        assert (HB : forall j, In j (b :: bs) -> mu (cleankey st j e) = mu (cleankey st j e') /\ (cleankey st j e = cleankey st j e' -> clean st j e = clean st j e')).
        { intros j Hj. pose proof (Hop j Hj). apply IH; auto; [lia|apply V; auto|apply V'; auto]. }
        destruct (concat_cut (map (fun j => cleankey st j e) (b :: bs)) (map (fun j => cleankey st j e') (b :: bs))) as [C1 C2].
        { clear -HB. induction (b :: bs) as [|j l IHl]; cbn [map]; constructor; [apply HB; now left|]. apply IHl. intros x Hx. apply HB. now right. }
        split; auto. intros Ek. f_equal. apply obind_ext_in. intros j Hj. apply HB; auto.
        apply C2 in Ek. clear -Ek Hj. induction (b :: bs) as [|x l IHl]; [destruct Hj|]. cbn [map] in Ek. injection Ek as E1 E2. destruct Hj as [->|Hj]; auto. }
    intros i e e' Hi He He' Ek U. apply H; auto. congruence.
  Qed.
End Measure.

(** keys of one length *)
Lemma append_length s t : String.length (s ++ t) = String.length s + String.length t.
Proof. induction s; cbn; auto. Qed.
Lemma append_cut s : forall s' t t', String.length s = String.length s' -> (s ++ t = s' ++ t')%string -> s = s' /\ t = t'.
Proof. induction s as [|c s IH]; intros [|c' s'] t t' Hl E; cbn in *; try discriminate; auto. injection E as <- E. destruct (IH s' t t') as [-> ->]; auto. Qed.
Lemma length_faithful es st : wf st -> base_ok String.length (fun _ => true) es st -> keys_faithful es st.
Proof.
  apply measure_faithful; auto.
  - intros dot s t _. rewrite !append_length. lia.
  - intros dot s s' t t' _ Hl E. destruct (append_cut _ _ _ _ Hl E) as [-> E2]. split; auto. destruct dot; cbn in E2; [now injection E2|auto].
Qed.
(** keys with one number of dots, no product *)
Fixpoint dots (s : string) : nat := match s with EmptyString => 0 | String c r => (if Ascii.eqb c "." then 1 else 0) + dots r end.
Lemma append_dots s t : dots (s ++ t) = dots s + dots t.
Proof. induction s as [|c s IH]; cbn; auto. rewrite IH. lia. Qed.
Lemma dots_cut s : forall s' t t', dots s = dots s' -> (s ++ "." ++ t = s' ++ "." ++ t')%string -> s = s' /\ t = t'.
Proof.
  induction s as [|c s IH]; intros [|c' s'] t t' Hl E.
  - split; auto. now injection E.
  - exfalso. cbn in Hl, E. injection E as <- E. cbn in Hl. lia.
  - exfalso. cbn in Hl, E. injection E as -> E. cbn in Hl. lia.
  - cbn [String.append] in E. injection E as <- E. cbn in Hl. destruct (IH s' t t') as [-> ->]; auto. lia.
Qed.
Lemma dots_faithful es st : wf st -> base_ok dots (fun d => d) es st -> keys_faithful es st.
Proof.
  apply measure_faithful; auto.
  - intros dot s t _. rewrite !append_dots. lia.
  - intros [] s s' t t' Hd Hl E; [|discriminate]. now apply dots_cut.
Qed.
