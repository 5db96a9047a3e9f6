(** Thresholds, frozen customisations, and programs that read wrong data *)
From Coq Require Import List Arith Lia Bool String Ascii ZArith QArith Qcanon.
From Verif Require Import Dict GmModel GmProofs QSums LmModel LmProofs LmCacheModel LmCacheSpec LmCacheProofs LmCacheThms LmCacheShared.
Import ListNotations.
Local Open Scope nat_scope.

(** ** any program gives a well formed state *)
Lemma made_wf st m st' r : wf st -> made st m = Some (st', r) -> wf st' /\ fst r < List.length (heap st').
Proof. intros W. unfold made. destruct m as [m|]; [|discriminate]. intros [= <- <-]. split; [exact (wf_alloc st m W)|]. cbn. rewrite app_length. cbn. lia. Qed.
Lemma reads_wf (rd : lstate -> nat -> option (lstate * ref)) bs : (forall st j st' r, wf st -> rd st j = Some (st', r) -> wf st' /\ fst r < List.length (heap st')) ->
  forall st st' rs, wf st -> reads rd st bs = Some (st', rs) -> wf st'.
Proof.
  intros H. induction bs as [|b bs IH]; intros st st' rs W E; cbn [reads] in E; [injection E as <- <-; auto|].
  destruct (rd st b) as [[st1 x]|] eqn:E1; [|discriminate]. destruct (reads rd st1 bs) as [[st2 xs]|] eqn:E2; [|discriminate]. injection E as <- <-. apply (IH st1 st2 xs); auto. eapply H; eauto.
Qed.
Lemma meta_wf (rd : lstate -> nat -> option (lstate * ref)) st i o e st' r : (forall st j st' r, wf st -> rd st j = Some (st', r) -> wf st' /\ fst r < List.length (heap st')) ->
  wf st -> nth_error (objs st) i = Some o -> meta rd st (o_kind o) e = Some (st', r) -> wf st' /\ fst r < List.length (heap st').
Proof.
  intros H W Ho E. destruct (W i o Ho) as (_ & Hd & _). destruct (o_kind o) as [k d s|k f|f s|s|dot f a b|f b bs]; cbn [meta] in E.
  - destruct (get Nat.eqb d e) as [x|] eqn:Ed; injection E as <- <-; [split; auto; eapply Hd; eauto|]. apply (made_wf st (Some (zero_mat (s e)))); auto.
  - injection E as <- <-. apply (made_wf st (Some (f e))); auto.
  - destruct (rd st s) as [[st1 x]|] eqn:E1; [|discriminate]. eapply made_wf; [|eauto]. eapply H; eauto.
  - destruct (rd st s) as [[st1 x]|] eqn:E1; [|discriminate]. injection E as <- <-. exact (H _ _ _ _ W E1).
  - destruct (rd st a) as [[st1 x]|] eqn:E1; [|discriminate]. destruct (rd st1 b) as [[st2 y]|] eqn:E2; [|discriminate]. eapply made_wf; [|eauto]. eapply H; [|eauto]. eapply H; eauto.
  - destruct (reads rd st (b :: bs)) as [[st1 x]|] eqn:E1; [|discriminate]. eapply made_wf; [|eauto]. eapply reads_wf; eauto.
Qed.
Lemma read_wf n : forall st e i st' r, wf st -> read n st e i = Some (st', r) -> wf st' /\ fst r < List.length (heap st').
Proof.
  induction n as [|n IH]; intros st e i st' r W E; [discriminate|]. cbn [read] in E. destruct (nth_error (objs st) i) as [o|] eqn:Eo; [|discriminate]. destruct (W i o Eo) as (_ & _ & Hk & Hc).
  destruct (get Nat.eqb (o_cust o) e) as [c|] eqn:Ec; [injection E as <- <-; split; eauto|]. cbv zeta in E.
  destruct (contains _ _).
  - refine (meta_wf _ st i o e st' r _ W Eo E). intros; eapply IH; eauto.
  - destruct (get String.eqb (o_cache o) _) as [c|] eqn:Eg; [injection E as <- <-; split; eauto|].
    destruct (meta _ st (o_kind o) e) as [[st1 x]|] eqn:E1; [|discriminate]. injection E as <- <-.
    destruct (meta_wf _ st i o e st1 x (fun st2 j st3 r2 W2 => IH st2 e j st3 r2 W2) W Eo E1) as [W1 L]. split; [|exact L].
    intros j o' Hj. cbn [heap update] in *. unfold update in Hj. cbn [objs] in Hj. destruct (nth_error (objs st1) i) as [oi|] eqn:Ei; [|now apply W1].
    rewrite nth_error_set_nth, Ei in Hj. destruct (Nat.eqb_spec j i) as [->|]; [|now apply W1]. injection Hj as <-. destruct (W1 i oi Ei) as (H1 & H2 & H3 & H4). split; [auto|]. split; [auto|]. split; [|auto].
    intros k' r' Hr'. cbn [o_cache] in Hr'. unfold sput in Hr'. rewrite (get_put String.eqb Seqb_spec) in Hr'. destruct (String.eqb k' _); [injection Hr' as <-; auto|eauto].
Qed.
Lemma wf_cut t st r : wf st -> wf {| objs := objs st; heap := cut_in_place t (heap st) r |}.
Proof.
  intros W i o Hi. cbn [objs heap] in *. assert (E : List.length (cut_in_place t (heap st) r) = List.length (heap st)) by (unfold cut_in_place; destruct t, (nth_error (heap st) (fst r)); auto using set_nth_len).
  rewrite E. now apply W.
Qed.
Lemma assemble_wf t i l : forall st st' ms, wf st -> assemble_reads t st i l = Some (st', ms) -> wf st'.
Proof.
  induction l as [|e l IH]; intros st st' ms W E; cbn [assemble_reads] in E; [injection E as <- <-; auto|].
  destruct (getitem st i e) as [[st1 r]|] eqn:E1; [|discriminate]. destruct (read_wf _ _ _ _ _ _ W E1) as [W1 _]. cbv zeta in E. destruct (deref _ r); [|discriminate].
  destruct (assemble_reads t _ i l) as [[st2 xs]|] eqn:E2; [|discriminate]. injection E as <- <-. eapply IH; [|eauto]. now apply wf_cut.
Qed.
Lemma step_wf es st op st' : wf st -> lstep es st op = Some st' -> wf st'.
Proof.
  intros W E. destruct op as [k|m|i e|i e f|i|i t]; cbn [lstep] in E.
  - destruct (kind_ok st k) eqn:Ek; [|discriminate]. injection E as <-. now apply wf_new.
  - injection E as <-. now apply wf_alloc.
  - destruct (existsb _ es); [|discriminate]. destruct (getitem st i e) as [[st1 r]|] eqn:E1; [|discriminate]. injection E as <-. eapply read_wf; eauto.
  - destruct (existsb _ es); [|discriminate]. destruct (getitem st i e) as [[st1 r]|] eqn:E1; [|discriminate]. destruct (deref (heap st1) r) as [m|]; [|discriminate]. injection E as <-.
    apply (wf_cust st1 i e (f m)). eapply read_wf; eauto.
  - injection E as <-. apply wf_recust; auto. cbn. discriminate.
  - destruct (assemble_reads t st i es) as [[st1 ms]|] eqn:E1; [|discriminate]. injection E as <-. eapply assemble_wf; eauto.
Qed.
Lemma run_wf es ops : forall st st', wf st -> lrun es st ops = Some st' -> wf st'.
Proof.
  induction ops as [|op ops IH]; intros st st' W E; cbn [lrun] in E; [injection E as <-; auto|]. destruct (lstep es st op) as [st1|] eqn:E1; [|discriminate]. eapply IH; [|eauto]. eapply step_wf; eauto.
Qed.

(** ** what is expected, in terms of the operands *)
Theorem expected_equations es ops st i o e : lrun es empty_lstate ops = Some st -> nth_error (objs st) i = Some o -> get Nat.eqb (o_cust o) e = None ->
  expected st i e = match o_kind o with
  | KData _ d shape => match get Nat.eqb d e with Some r => deref (heap st) r | None => Some (zero_mat (shape e)) end
  | KCall _ f => Some (f e)
  | KUn f s => option_map f (expected st s e)
  | KTr s => option_map tr (expected st s e)
  | KBin _ f a b => match expected st a e, expected st b e with Some x, Some y => Some (f x y) | _, _ => None end
  | KBlk f b bs => option_map f (obind (b :: bs) (fun j => expected st j e))
  end.
Proof. intros E Ho Hc. rewrite expected_unfold by (eapply run_wf; eauto using wf_empty). rewrite Ho, Hc. unfold uncustomised. rewrite Ho. reflexivity. Qed.

(** ** shared keys, with conditions on the keys of the base matrices only *)
Theorem reads_with_keys_of_one_length es ops st : lrun es empty_lstate ops = Some st -> Forall no_threshold ops ->
  (forall i e f k, In (LCust i e f) ops -> In (LNew k) ops -> direct k = true -> ~ In i (operands k)) -> base_ok String.length (fun _ => true) es st ->
  forall i e, i < List.length (objs st) -> In e es -> exists st' r m, getitem st i e = Some (st', r) /\ deref (heap st') r = Some m /\ expected st i e = Some m /\
    forall j x, expected st' j x = expected st j x.
Proof. intros E Hn Hc B. apply (reads_with_shared_keys es ops); auto. apply length_faithful; auto. eapply run_wf; eauto using wf_empty. Qed.
Theorem reads_with_keys_without_products es ops st : lrun es empty_lstate ops = Some st -> Forall no_threshold ops ->
  (forall i e f k, In (LCust i e f) ops -> In (LNew k) ops -> direct k = true -> ~ In i (operands k)) -> base_ok dots (fun d => d) es st ->
  forall i e, i < List.length (objs st) -> In e es -> exists st' r m, getitem st i e = Some (st', r) /\ deref (heap st') r = Some m /\ expected st i e = Some m /\
    forall j x, expected st' j x = expected st j x.
Proof. intros E Hn Hc B. apply (reads_with_shared_keys es ops); auto. apply dots_faithful; auto. eapply run_wf; eauto using wf_empty. Qed.

(** ** thresholds *)
(** kinds whose elements are computed again at each reading *)
Definition fresh_kind (k : kind) : bool := match k with KCall _ _ | KUn _ _ | KBin _ _ _ _ | KBlk _ _ _ => true | _ => false end.
Definition safe_step (st : lstate) (op : lop) : Prop :=
  match op with LAssemble i (Some _) => exists o, nth_error (objs st) i = Some o /\ fresh_kind (o_kind o) = true /\ o_cust o = [] | _ => True end.
Fixpoint safe (es : list nat) (st : lstate) (ops : list lop) : Prop :=
  match ops with [] => True | op :: r => safe_step st op /\ match lstep es st op with Some st' => safe es st' r | None => True end end.

Lemma made_fresh st m st' r : made st m = Some (st', r) -> exists v, m = Some v /\ st' = fst (alloc st v) /\ r = (List.length (heap st), false).
Proof. unfold made. destruct m as [m|]; [|discriminate]. intros [= <- <-]. exists m. auto. Qed.
Lemma fresh_read st i o e st' r : wf st -> all_unique st -> nth_error (objs st) i = Some o -> fresh_kind (o_kind o) = true -> o_cust o = [] -> getitem st i e = Some (st', r) ->
  exists x v, heap st' = heap st ++ x ++ [v] /\ r = (List.length (heap st ++ x), false).
Proof.
  intros W U Ho Hf Hc. unfold getitem. cbn [read]. rewrite Ho, Hc. cbn [get]. cbv zeta. rewrite unique_keys by auto.
  destruct (o_kind o) as [k d s|k f|f s|s|dot f a b|f b bs]; try discriminate; cbn [meta]; intros E.
  - injection E as <- <-. exists [], (f e). cbn. now rewrite app_nil_r.
  - destruct (read i st e s) as [[st1 x]|] eqn:E1; [|discriminate]. apply read_ext in E1 as [_ [y Hy]]. apply made_fresh in E as (v & _ & -> & ->). exists y, v. cbn. rewrite Hy. now rewrite app_assoc.
  - destruct (read i st e a) as [[st1 x]|] eqn:E1; [|discriminate]. destruct (read i st1 e b) as [[st2 x2]|] eqn:E2; [|discriminate]. apply read_ext in E1. apply read_ext in E2.
    destruct (ext_trans _ _ _ E1 E2) as [_ [y Hy]]. apply made_fresh in E as (v & _ & -> & ->). exists y, v. cbn. rewrite Hy. now rewrite app_assoc.
  - destruct (reads _ st (b :: bs)) as [[st1 x]|] eqn:E1; [|discriminate]. apply reads_ext in E1 as [_ [y Hy]]; [|intros; eapply read_ext; eauto].
    apply made_fresh in E as (v & _ & -> & ->). exists y, v. cbn. rewrite Hy. now rewrite app_assoc.
Qed.
Lemma set_nth_last {A} (l : list A) v w : set_nth (List.length l) w (l ++ [v]) = l ++ [w].
Proof. induction l; cbn; congruence. Qed.
Lemma cut_fresh t st i o e : wf st -> all_unique st -> nth_error (objs st) i = Some o -> fresh_kind (o_kind o) = true -> o_cust o = [] ->
  exists st1 r v, getitem st i e = Some (st1, r) /\ expected st i e = Some v /\
    let st2 := {| objs := objs st1; heap := cut_in_place (Some t) (heap st1) r |} in ext st st2 /\ wf st2 /\ all_unique st2 /\ deref (heap st2) r = Some (cut_mat t v).
Proof.
  intros W U Ho Hf Hc. destruct (read_unique [e] st i e W U) as (st1 & r & E & X & W1 & L & D); [apply nth_error_Some; congruence|now left|].
  destruct (fresh_read st i o e st1 r W U Ho Hf Hc E) as (x & v & Hh & ->). exists st1, (List.length (heap st ++ x), false), v. split; auto.
  assert (Hv : nth_error (heap st1) (List.length (heap st ++ x)) = Some v) by (rewrite Hh, app_assoc, nth_error_app2, Nat.sub_diag by lia; reflexivity).
  unfold deref in D. cbn [fst snd] in D. rewrite Hv in D. cbn in D. split; auto. cbv zeta. split; [|split; [now apply wf_cut|split]].
  - split; [exact (proj1 X)|]. unfold cut_in_place. cbn [heap fst]. rewrite Hv, Hh, app_assoc, set_nth_last, <- app_assoc. eauto.
  - intros j oj Hj. cbn [objs] in Hj. exact (all_unique_ext _ _ X U j oj Hj).
  - unfold cut_in_place, deref. cbn [heap fst snd]. rewrite Hv, nth_error_set_nth, Nat.eqb_refl, Hv. reflexivity.
Qed.
Lemma assemble_fresh t i l : forall st o, wf st -> all_unique st -> nth_error (objs st) i = Some o -> fresh_kind (o_kind o) = true -> o_cust o = [] ->
  exists st' ms, assemble_reads (Some t) st i l = Some (st', ms) /\ ext st st' /\ wf st' /\ all_unique st' /\ Forall2 (fun e m => exists v, expected st i e = Some v /\ m = cut_mat t v) l ms.
Proof.
  induction l as [|e l IH]; intros st o W U Ho Hf Hc; cbn [assemble_reads].
  - exists st, []. repeat (split; [auto using ext_refl|]). constructor.
  - destruct (cut_fresh t st i o e W U Ho Hf Hc) as (st1 & r & v & -> & Ev & X & W2 & U2 & D). cbv zeta. rewrite D. destruct (ext_obj _ _ _ _ X Ho) as (o2 & Ho2 & Ek & Ec).
    destruct (IH _ o2 W2 U2 Ho2) as (st3 & ms & -> & X3 & W3 & U3 & F); [congruence|congruence|]. exists st3, (cut_mat t v :: ms). split; auto. split; [eapply ext_trans; eauto|]. split; auto. split; auto.
    constructor; [eauto|]. eapply Forall2_impl; [|exact F]. cbv beta. intros e' m (v' & Hv' & ->). exists v'. split; auto. rewrite <- Hv'. symmetry. apply expected_ext; auto.
Qed.
Lemma safe_step_unique es st op st' : wf st -> all_unique st -> safe_step st op -> unique_op op -> lstep es st op = Some st' -> wf st' /\ all_unique st'.
Proof.
  intros W U S Hu E. destruct op as [k|m|i e|i e f|i|i [t|]]; try (eapply step_unique; eauto; exact I). destruct S as (o & Ho & Hf & Hc). cbn [lstep] in E.
  destruct (assemble_fresh t i es st o W U Ho Hf Hc) as (st1 & ms & E1 & _ & W1 & U1 & _). rewrite E1 in E. injection E as <-. auto.
Qed.
Lemma safe_run es ops : forall st st', wf st -> all_unique st -> safe es st ops -> Forall unique_op ops -> lrun es st ops = Some st' -> wf st' /\ all_unique st'.
Proof.
  induction ops as [|op ops IH]; intros st st' W U HS Hu E; cbn [lrun] in E; [injection E as <-; auto|]. destruct HS as [S1 S2]. inversion_clear Hu.
  destruct (lstep es st op) as [st1|] eqn:E1; [|discriminate]. destruct (safe_step_unique es st op st1); auto. eauto.
Qed.
Theorem reads_after_thresholds es ops st : lrun es empty_lstate ops = Some st -> safe es empty_lstate ops -> Forall unique_op ops ->
  forall i e, i < List.length (objs st) -> In e es -> exists st' r m, getitem st i e = Some (st', r) /\ deref (heap st') r = Some m /\ expected st i e = Some m /\
    forall j x, expected st' j x = expected st j x.
Proof.
  intros E Hs Hu i e Hi He. destruct (safe_run es ops _ _ wf_empty uniq_empty Hs Hu E) as [W U]. destruct (read_unique es st i e W U Hi He) as (st' & r & E1 & X & W1 & L & D).
  destruct (deref_some _ _ L) as [m Hm]. exists st', r, m. split; auto. split; auto. split; [congruence|]. intros. now apply expected_ext.
Qed.
Theorem assemble_after_thresholds es ops st i t : lrun es empty_lstate ops = Some st -> safe es empty_lstate ops -> Forall unique_op ops -> i < List.length (objs st) -> safe_step st (LAssemble i t) ->
  exists st' ms, assemble_reads t st i es = Some (st', ms) /\ (forall j x, expected st' j x = expected st j x) /\
    Forall2 (fun e m => exists v, expected st i e = Some v /\ m = match t with Some t => cut_mat t v | None => v end) es ms.
Proof.
  intros E Hs Hu Hi S. destruct (safe_run es ops _ _ wf_empty uniq_empty Hs Hu E) as [W U]. destruct t as [t|].
  - destruct S as (o & Ho & Hf & Hc). destruct (assemble_fresh t i es st o W U Ho Hf Hc) as (st1 & ms & E1 & X & _ & _ & F). exists st1, ms. split; auto. split; auto. intros. now apply expected_ext.
  - destruct (assemble_right es st any W) with (i := i) (l := es) (st := st) as (st2 & ms2 & E2 & G & X & F); auto.
    + intros j x k m _ <- C _. now rewrite unique_keys in C.
    + now apply good_unique.
    + exists st2, ms2. split; auto. split; [intros; now apply expected_ext|]. eapply Forall2_impl; [|exact F]. cbv beta. eauto.
Qed.

(** ** a customised element is frozen *)
Definition leaves (i e : nat) (op : lop) : Prop := match op with LCust j x _ => (j, x) <> (i, e) | LClear j => j <> i | _ => True end.
Lemma frozen_ext st st' i o e r : ext st st' -> nth_error (objs st) i = Some o -> get Nat.eqb (o_cust o) e = Some r -> exists o', nth_error (objs st') i = Some o' /\ get Nat.eqb (o_cust o') e = Some r.
Proof. intros X Ho Hr. destruct (ext_obj _ _ _ _ X Ho) as (o' & Ho' & _ & Ec). exists o'. split; auto. congruence. Qed.
Lemma step_frozen es st op st' i o e r : wf st -> no_threshold op -> leaves i e op -> lstep es st op = Some st' -> nth_error (objs st) i = Some o -> get Nat.eqb (o_cust o) e = Some r ->
  exists o', nth_error (objs st') i = Some o' /\ get Nat.eqb (o_cust o') e = Some r.
Proof.
  intros W Hn Hl E Ho Hr. destruct op as [k|m|j x|j x f|j|j t]; cbn [lstep] in E.
  - destruct (kind_ok st k); [|discriminate]. injection E as <-. exists o. split; auto. cbn. rewrite nth_error_app1; auto. eapply lt_of_nth; eauto.
  - injection E as <-. eauto.
  - destruct (existsb _ es); [|discriminate]. destruct (getitem st j x) as [[st1 y]|] eqn:E1; [|discriminate]. injection E as <-. apply read_ext in E1. eapply frozen_ext; eauto.
  - destruct (existsb _ es); [|discriminate]. destruct (getitem st j x) as [[st1 y]|] eqn:E1; [|discriminate]. destruct (deref (heap st1) y) as [m|]; [|discriminate]. injection E as <-. apply read_ext in E1.
    destruct (frozen_ext _ _ _ _ _ _ E1 Ho Hr) as (o1 & Ho1 & Hr1). unfold update. cbn [objs]. destruct (nth_error (objs st1) j) as [oj|] eqn:Ej; [|eauto].
    rewrite nth_error_set_nth, Ej. destruct (Nat.eqb_spec i j) as [<-|]; [|eauto]. assert (oj = o1) as -> by congruence. eexists. split; [reflexivity|]. cbn [o_cust].
    rewrite (get_put Nat.eqb Neqb_spec). destruct (Nat.eqb_spec e x) as [->|]; auto. destruct Hl. reflexivity.
  - injection E as <-. unfold update. cbn [objs]. destruct (nth_error (objs st) j) as [oj|] eqn:Ej; [|eauto]. rewrite nth_error_set_nth, Ej. destruct (Nat.eqb_spec i j) as [<-|]; [destruct Hl; auto|eauto].
  - destruct t as [t|]; [destruct Hn|]. destruct (assemble_reads None st j es) as [[st1 ms]|] eqn:E1; [|discriminate]. injection E as <-. apply assemble_none_ext in E1. eapply frozen_ext; eauto.
Qed.
Lemma run_frozen es i e r ops : forall st st' o, wf st -> Forall no_threshold ops -> Forall (leaves i e) ops -> lrun es st ops = Some st' -> nth_error (objs st) i = Some o -> get Nat.eqb (o_cust o) e = Some r ->
  expected st' i e = expected st i e.
Proof.
  induction ops as [|op ops IH]; intros st st' o W Hn Hl E Ho Hr; cbn [lrun] in E; [injection E as <-; auto|]. inversion_clear Hn as [|? ? N1 N2]. inversion_clear Hl as [|? ? L1 L2].
  destruct (lstep es st op) as [st1|] eqn:E1; [|discriminate]. pose proof (step_wf _ _ _ _ W E1) as W1. destruct (step_frozen es st op st1 i o e r W N1 L1 E1 Ho Hr) as (o1 & Ho1 & Hr1).
  rewrite (IH st1 st' o1 W1 N2 L2 E Ho1 Hr1), !expected_unfold by auto. rewrite Ho, Hr, Ho1, Hr1. destruct (grow_step es st op st1 N1 E1) as [_ [x ->]]. apply deref_app.
  destruct (W i o Ho) as (_ & _ & _ & H4). eauto.
Qed.
(** after a customisation, nothing done to its operands or blocks shows any more *)
Theorem customised_is_frozen es ops st i e f st1 ops' st2 : lrun es empty_lstate ops = Some st -> lstep es st (LCust i e f) = Some st1 -> Forall no_threshold ops' -> Forall (leaves i e) ops' ->
  lrun es st1 ops' = Some st2 -> expected st2 i e = expected st1 i e.
Proof.
  intros E E1 Hn Hl E2. pose proof (run_wf es ops _ _ wf_empty E) as W. pose proof (step_wf _ _ _ _ W E1) as W1.
  cbn [lstep] in E1. destruct (existsb _ es); [|discriminate]. destruct (getitem st i e) as [[st0 r]|] eqn:Er; [|discriminate]. destruct (deref (heap st0) r) as [m|]; [|discriminate].
  assert (Hi : exists o, nth_error (objs st0) i = Some o).
  { pose proof (read_ext _ _ _ _ _ _ Er) as X. unfold getitem in Er. cbn [read] in Er. destruct (nth_error (objs st) i) as [o|] eqn:Eo; [|discriminate]. destruct (ext_obj _ _ _ _ X Eo) as (o' & Ho' & _). eauto. }
  destruct Hi as [o Ho]. injection E1 as <-. eapply run_frozen; [exact W1|exact Hn|exact Hl|exact E2| |].
  - unfold update. cbn [objs]. rewrite Ho, nth_error_set_nth, Nat.eqb_refl, Ho. reflexivity.
  - cbn [o_cust]. now rewrite (get_put Nat.eqb Neqb_spec), Nat.eqb_refl.
Qed.

(** ** programs reading wrong data *)
Definition one (c : Z) : smat := {| sm_fmt := CSR; sm_nr := 1; sm_nc := 1; sm_lines := [[(0, qz c)]] |}.
Definition smap (f : Qc -> Qc) (m : smat) : smat := {| sm_fmt := sm_fmt m; sm_nr := sm_nr m; sm_nc := sm_nc m; sm_lines := map (map (fun iv => (fst iv, f (snd iv)))) (sm_lines m) |}.
Definition s_neg : smat -> smat := smap Qcopp.
Definition svals (m : smat) : list (list Q) := map (map (fun iv => this (snd iv))) (sm_lines m).
(** multiplying or adding matrices of one entry *)
Definition s_bin (f : Qc -> Qc -> Qc) (a b : smat) : smat :=
  match sm_lines a, sm_lines b with [[(_, x)]], [[(_, y)]] => {| sm_fmt := CSR; sm_nr := 1; sm_nc := 1; sm_lines := [[(0, f x y)]] |} | _, _ => a end.
Definition reads_wrong (es : list nat) (st : lstate) (i e : nat) : Prop :=
  In e es /\ exists st' r m m', getitem st i e = Some (st', r) /\ deref (heap st') r = Some m /\ expected st i e = Some m' /\ svals m <> svals m'.
Definition same_key (_ : nat) : string := "k"%string.
(** two elements with the same data and key; one customised, then negated *)
Definition neg_ops : list lop :=
  [LHold (one 1); LHold (one 1); LNew (KData same_key [(0, (0, false)); (1, (1, false))] (fun _ => (1, 1))); LNew (KUn s_neg 0); LCust 0 0 (fun _ => one 5); LRead 1 0].
Lemma neg_of_customised_refuted : exists ops st, lrun [0; 1] empty_lstate ops = Some st /\ Forall no_threshold ops /\ keys_faithful [0; 1] st /\ reads_wrong [0; 1] st 1 1.
Proof.
  exists neg_ops. eexists. split; [reflexivity|]. split; [repeat constructor|]. split.
  - apply length_faithful; [refine (run_wf [0; 1] neg_ops _ _ wf_empty _); reflexivity|]. intros [|[|[|i]]] o; cbn; try discriminate; intros [= <-]; cbn; auto.
    intros e e' [<-|[<-|[]]] [<-|[<-|[]]] _ _; auto.
  - split; [cbn; auto|]. eexists. eexists. eexists. eexists. split; [vm_compute; reflexivity|]. split; [vm_compute; reflexivity|]. split; [vm_compute; reflexivity|]. vm_compute. discriminate.
Qed.
(** one element: negated and read, then customised *)
Definition stale_ops : list lop := [LHold (one 1); LNew (KData same_key [(0, (0, false))] (fun _ => (1, 1))); LNew (KUn s_neg 0); LRead 1 0; LCust 0 0 (fun _ => one 5)].
Lemma stale_derived_refuted : exists ops st, lrun [0] empty_lstate ops = Some st /\ Forall no_threshold ops /\ keys_faithful [0] st /\ reads_wrong [0] st 1 0.
Proof.
  exists stale_ops. eexists. split; [reflexivity|]. split; [repeat constructor|]. split.
  - intros i e e' _ [<-|[]] [<-|[]]. auto.
  - split; [cbn; auto|]. eexists. eexists. eexists. eexists. split; [vm_compute; reflexivity|]. split; [vm_compute; reflexivity|]. split; [vm_compute; reflexivity|]. vm_compute. discriminate.
Qed.
(** no customisation at all: keys of operands run together *)
Definition join_ops (dot : bool) (f : Qc -> Qc -> Qc) (a0 a1 b0 b1 : string) : list lop :=
  [LHold (one 1); LHold (one 2); LHold (one 3); LHold (one 5);
   LNew (KData (fun e => match e with 0 => a0 | _ => a1 end) [(0, (0, false)); (1, (1, false))] (fun _ => (1, 1)));
   LNew (KData (fun e => match e with 0 => b0 | _ => b1 end) [(0, (2, false)); (1, (3, false))] (fun _ => (1, 1)));
   LNew (KBin dot (s_bin f) 0 1); LRead 2 0].
(** every base matrix has another key for each element *)
Definition base_keys_differ (es : list nat) (st : lstate) : Prop := forall i o, nth_error (objs st) i = Some o ->
  match o_kind o with KData k _ _ | KCall k _ => forall e e', In e es -> In e' es -> k e = k e' -> e = e' | _ => True end.
Definition uncustomising (op : lop) : Prop := match op with LCust _ _ _ => False | _ => True end.
Lemma product_keys_refuted : exists ops st, lrun [0; 1] empty_lstate ops = Some st /\ Forall no_threshold ops /\ Forall uncustomising ops /\ base_keys_differ [0; 1] st /\ reads_wrong [0; 1] st 2 1.
Proof.
  exists (join_ops false Qcmult "a" "ab" "bc" "c"). eexists. split; [reflexivity|]. split; [repeat constructor|]. split; [repeat constructor|]. split.
  - intros [|[|[|[|i]]]] o; cbn; try discriminate; intros [= <-]; cbn; auto; intros e e' [<-|[<-|[]]] [<-|[<-|[]]]; auto; discriminate.
  - split; [cbn; auto|]. eexists. eexists. eexists. eexists. split; [vm_compute; reflexivity|]. split; [vm_compute; reflexivity|]. split; [vm_compute; reflexivity|]. vm_compute. discriminate.
Qed.
Lemma sum_keys_refuted : exists ops st, lrun [0; 1] empty_lstate ops = Some st /\ Forall no_threshold ops /\ Forall uncustomising ops /\ base_keys_differ [0; 1] st /\ reads_wrong [0; 1] st 2 1.
Proof.
  exists (join_ops true Qcplus "a" "a.b" "b.c" "c"). eexists. split; [reflexivity|]. split; [repeat constructor|]. split; [repeat constructor|]. split.
  - intros [|[|[|[|i]]]] o; cbn; try discriminate; intros [= <-]; cbn; auto; intros e e' [<-|[<-|[]]] [<-|[<-|[]]]; auto; discriminate.
  - split; [cbn; auto|]. eexists. eexists. eexists. eexists. split; [vm_compute; reflexivity|]. split; [vm_compute; reflexivity|]. split; [vm_compute; reflexivity|]. vm_compute. discriminate.
Qed.
(** thresholds: what a second assembling without threshold gives *)
Definition expects (st : lstate) (i e : nat) (v : list (list Q)) : Prop := exists m, expected st i e = Some m /\ svals m = v.
Definition uniq_key (_ : nat) : string := "unique"%string.
Definition two (a b : Z) : smat := {| sm_fmt := CSR; sm_nr := 2; sm_nc := 2; sm_lines := [[(0, qz a)]; [(1, qz b)]] |}.
Definition data_ops : list lop := [LHold (two 1 4); LNew (KData uniq_key [(0, (0, false))] (fun _ => (2, 2))); LNew (KTr 0)].
Definition changes (es : list nat) (ops : list lop) (i : nat) (t : Qc) (j e : nat) : Prop :=
  exists st st' m m', lrun es empty_lstate ops = Some st /\ lstep es st (LAssemble i (Some t)) = Some st' /\ expected st j e = Some m /\ expected st' j e = Some m' /\ svals m <> svals m'.
Ltac changing := unfold changes; eexists; eexists; eexists; eexists; split; [reflexivity|]; split; [vm_compute; reflexivity|]; split; [vm_compute; reflexivity|]; split; [vm_compute; reflexivity|]; vm_compute; discriminate.
Lemma threshold_changes_data_refuted : changes [0] data_ops 0 (qz 2) 0 0.
Proof. changing. Qed.
Lemma threshold_changes_operand_refuted : changes [0] data_ops 1 (qz 2) 0 0.
Proof. changing. Qed.
Definition cust_ops : list lop := data_ops ++ [LNew (KUn s_neg 0); LCust 2 0 s_neg].
Lemma threshold_changes_customised_refuted : changes [0] cust_ops 2 (qz 2) 2 0.
Proof. changing. Qed.
(** computed matrices with a shared key are changed in the cache *)
Definition cached_ops : list lop := [LNew (KCall same_key (fun _ => two 1 4))].
Lemma threshold_changes_cache_refuted : exists st st', lrun [0] empty_lstate cached_ops = Some st /\ lstep [0] st (LAssemble 0 (Some (qz 2))) = Some st' /\ reads_wrong [0] st' 0 0.
Proof.
  eexists. eexists. split; [reflexivity|]. split; [vm_compute; reflexivity|]. split; [cbn; auto|]. eexists. eexists. eexists. eexists.
  split; [vm_compute; reflexivity|]. split; [vm_compute; reflexivity|]. split; [vm_compute; reflexivity|]. vm_compute. discriminate.
Qed.
(** two requests, one key: cache='x1', threshold=2.0 and cache='x', threshold=12.0 *)
Lemma assembled_key_refuted : exists f c t f' c' t', (c, t) <> (c', t') /\ assembled_key f c t = assembled_key f' c' t' /\ f = f' /\ t = "2.0"%string /\ t' = "12.0"%string.
Proof. exists "csc"%string, "x1"%string, "2.0"%string, "csc"%string, "x"%string, "12.0"%string. split; [discriminate|]. repeat split. Qed.
