(** Theorems about the operators between abstract spaces. *)
From Coq Require Import List ZArith String Bool Ascii Lia.
From Verif Require Import MemoModel MemoProofs SpaceModel SpaceSpec SpaceProofs.
Import ListNotations.
Local Open Scope string_scope.
Local Open Scope Z_scope.

Lemma hit W R abbr c k M raw o s : wf W R -> legit W M -> class_of abbr = Some c -> parse_orientation raw = Some o -> k_allowed c (ndim M) k = true ->
  find R (mesh_text M) (sym_text c (is_outer raw) k (mani_text M)) = Some s -> new R abbr k (Some M) raw = (R, Some s).
Proof.
  intros H HM Hc Ho Hk F. cbn [new]. unfold find in F. destruct (look (mesh_text M) (sets R)) as [[M' l]|] eqn:El; [|discriminate]. rewrite (register_id _ _ _ _ El). unfold new_on. rewrite El, Hc. unfold construct. now rewrite Ho, Hk, F.
Qed.
Lemma new_stays m W ok ok' R abbr k M raw R1 s R2 : closed W -> session m W ok R -> legit W M -> new R abbr k (Some M) raw = (R1, Some s) -> later m W ok' R1 R2 -> new R2 abbr k (Some M) raw = (R2, Some s).
Proof.
  intros HW HS HM E L. pose proof (session_wf _ _ _ _ HW HS) as H. destruct (new_spec W R _ _ _ _ _ _ H HM E) as (A & B & (c & o & C1 & C2 & C3 & C4 & C5 & C6 & C7 & _)).
  destruct (later_spec _ _ _ _ _ HW A L) as (D1 & D2). eapply hit; eauto. apply D2. exact C7.
Qed.
Lemma k_range c n k : k_allowed c n k = true -> 0 <= n -> 0 <= k <= n.
Proof. unfold k_allowed. destruct c; rewrite ?andb_true_iff, ?orb_true_iff, ?Z.leb_le, ?Z.eqb_eq; lia. Qed.
Lemma new_data m W ok R abbr k M raw R1 s : closed W -> session m W ok R -> legit W M -> new R abbr k (Some M) raw = (R1, Some s) ->
  abbr_of (s_cls s) = abbr /\ s_mesh s = M /\ s_k s = k /\ live R1 s /\ (raw = Some "outer" -> s_ori s = "outer").
Proof.
  intros HW HS HM E. pose proof (session_wf _ _ _ _ HW HS) as H. destruct (new_spec W R _ _ _ _ _ _ H HM E) as (A & B & (c & o & C1 & C2 & C3 & C4 & C5 & C6 & C7 & C8)).
  split. { rewrite C4. unfold class_of in C1. destruct (String.eqb_spec abbr "Lambda"); [injection C1 as <-; auto|]. destruct (String.eqb_spec abbr "bundle"); [injection C1 as <-; auto|]. destruct (String.eqb_spec abbr "bundle-diagonal"); [injection C1 as <-; auto|discriminate]. }
  split; auto. split; auto. split; [eexists; eexists; eauto|]. intros ->. pose proof C7 as F. unfold find in F. destruct (look (mesh_text M) (sets R1)) as [[M' l]|] eqn:El; [|discriminate].
  destruct (wf_good _ _ A _ _ _ _ _ El F) as [_ (w & G2 & G3) _ _]. apply sym_text_inj in G2. destruct G2 as (_ & G2 & _). apply G3. rewrite <- G2. reflexivity.
Qed.
Lemma new_orientation m W R abbr k M raw R1 s : closed W -> session m W tidy R -> legit W M -> full_word raw -> new R abbr k (Some M) raw = (R1, Some s) -> raw = Some (s_ori s).
Proof. intros HW HS HM Hw E. eapply new_clean in E; eauto using session_wf, session_clean. tauto. Qed.
Lemma new_accepts m W ok R abbr k M raw : closed W -> session m W ok R -> legit W M ->
  (snd (new R abbr k (Some M) raw) <> None <->
   (abbr = "Lambda" \/ abbr = "bundle" \/ abbr = "bundle-diagonal") /\ (raw = None \/ raw = Some "inner" \/ raw = Some "outer" \/ raw = Some "i" \/ raw = Some "o" \/ raw = Some "None") /\
   (if String.eqb abbr "bundle-diagonal" then k = 0 \/ k = ndim M else 0 <= k <= ndim M)).
Proof.
  intros HW HS HM. pose proof (session_wf _ _ _ _ HW HS) as H. destruct (new R abbr k (Some M) raw) as [R1 r] eqn:E. destruct (new_spec W R _ _ _ _ _ _ H HM E) as (_ & _ & C).
  assert (P : parse_orientation raw <> None <-> (raw = None \/ raw = Some "inner" \/ raw = Some "outer" \/ raw = Some "i" \/ raw = Some "o" \/ raw = Some "None")).
  { clear. destruct raw as [s|]; cbn [parse_orientation]; [|split; auto; discriminate]. cbn [existsb]. split.
    - destruct (String.eqb_spec s "inner"); [subst; auto|]. destruct (String.eqb_spec s "outer"); [subst; auto|]. destruct (String.eqb_spec s "i"); [subst; auto 6|]. destruct (String.eqb_spec s "o"); [subst; auto 6|]. destruct (String.eqb_spec s "None"); [subst; auto 8|]. cbn. congruence.
    - intros [D|[D|[D|[D|[D|D]]]]]; try discriminate; injection D as ->; discriminate. }
  assert (Q : forall c, class_of abbr = Some c -> (k_allowed c (ndim M) k = true <-> (if String.eqb abbr "bundle-diagonal" then k = 0 \/ k = ndim M else 0 <= k <= ndim M))).
  { clear. intros c. unfold class_of. destruct (String.eqb_spec abbr "Lambda"); [subst; intros [= <-]; cbn; rewrite andb_true_iff, !Z.leb_le; tauto|]. destruct (String.eqb_spec abbr "bundle"); [subst; intros [= <-]; cbn; rewrite andb_true_iff, !Z.leb_le; tauto|].
    destruct (String.eqb_spec abbr "bundle-diagonal"); [subst; intros [= <-]; cbn; rewrite orb_true_iff, !Z.eqb_eq; tauto|discriminate]. }
  assert (Q' : class_of abbr <> None <-> (abbr = "Lambda" \/ abbr = "bundle" \/ abbr = "bundle-diagonal")).
  { clear. unfold class_of. split; [|intros [->|[->| ->]]; discriminate]. destruct (String.eqb_spec abbr "Lambda"); auto. destruct (String.eqb_spec abbr "bundle"); auto. destruct (String.eqb_spec abbr "bundle-diagonal"); auto. congruence. }
  cbn [snd]. destruct r as [s|].
  - destruct C as (c & o & C1 & C2 & C3 & _). split; [intros _|discriminate]. split; [apply Q'; congruence|]. split; [apply P; congruence|]. now apply (Q c).
  - destruct C as [_ C]. split; [congruence|]. intros (A1 & A2 & A3). exfalso. apply Q' in A1. apply P in A2. destruct C as [C|[C|(c & C1 & C2)]]; [congruence|congruence|]. apply (Q c C1) in A3. congruence.
Qed.
Lemma same_identity m W ok R s1 s2 : closed W -> session m W ok R -> live R s1 -> live R s2 -> s_id s1 = s_id s2 -> s1 = s2.
Proof. intros HW HS (t & k & F) (t' & k' & F') E. pose proof (session_wf _ _ _ _ HW HS) as H. now destruct (wf_ids _ _ H _ _ _ _ _ _ F F' E) as (_ & _ & ?). Qed.
Lemma one_object m W R s1 s2 : closed W -> session m W tidy R -> live R s1 -> live R s2 -> s_cls s1 = s_cls s2 -> s_mesh s1 = s_mesh s2 -> s_k s1 = s_k s2 -> s_ori s1 = s_ori s2 -> s1 = s2.
Proof.
  intros HW HS H1 H2 E1 E2 E3 E4. pose proof (session_wf _ _ _ _ HW HS) as H. pose proof (session_clean _ _ _ HW HS) as HC. pose proof (live_find W R s1 H HC H1) as F1. pose proof (live_find W R s2 H HC H2) as F2. rewrite E1, E2, E3, E4 in F1. congruence.
Qed.
Lemma later_trans m W ok R1 R2 R3 : later m W ok R1 R2 -> later m W ok R2 R3 -> later m W ok R1 R3.
Proof. intros A B. induction B; auto. econstructor; eauto. Qed.

(** ** the operators in a tidy session *)
Section Tidy.
  Variables (m : Z) (W : string -> mesh) (R : registry).
  Hypothesis (HW : closed W) (HS : session m W tidy R).
  (* what a later state is *)
  Lemma tidy_later R' : later m W tidy R R' -> wf W R' /\ clean R' /\ (forall s, live R s -> live R' s).
  Proof.
    intros L. pose proof (session_wf _ _ _ _ HW HS) as H. pose proof (session_clean _ _ _ HW HS) as HC. destruct (later_spec _ _ _ _ _ HW H L) as [A B]. split; auto. split; [exact (later_clean m W R R' HW H HC L)|]. intros s. now apply extends_live.
  Qed.
End Tidy.
Lemma call_tidy m W R c : closed W -> session m W tidy R -> arguments_ok W R c -> tidy c -> session m W tidy (run m R c).
Proof. intros HW HS Ha Ht. econstructor; eauto. Qed.

(** the result of an operator that makes a space: its data, and from then on the same object *)
Lemma make_later m W R c k M o R' s : closed W -> session m W tidy R -> legit W M -> oriented (Space c M k o 0) -> k_allowed c (ndim M) k = true -> later m W tidy R R' -> live R' s ->
  s_cls s = c -> s_mesh s = M -> s_k s = k -> s_ori s = o -> new R' (abbr_of c) k (Some M) (Some o) = (R', Some s).
Proof.
  intros HW HS HM Ho Hk L Hs <- <- <- <-. destruct (tidy_later m W R HW HS R' L) as (A & B & _). apply (new_hit W); auto. now apply (live_find W).
Qed.

Definition op_ok (m : Z) (W : string -> mesh) (R : registry) (p : registry * option space) (c : cls) (M : mesh) (k : Z) (o : string) : Prop :=
  exists R1 s1, p = (R1, Some s1) /\ s_cls s1 = c /\ s_mesh s1 = M /\ s_k s1 = k /\ s_ori s1 = o /\ live R1 s1.
Lemma new_op m W R c k M o : closed W -> session m W tidy R -> legit W M -> o = "inner" \/ o = "outer" -> k_allowed c (ndim M) k = true -> op_ok m W R (new R (abbr_of c) k (Some M) (Some o)) c M k o.
Proof.
  intros HW HS HM Ho Hk. destruct (new_make W R c k M o) as (R' & s & E & A1 & A2 & A3 & A4 & A5 & A6 & A7 & A8); eauto using session_wf, session_clean. exists R', s. auto 8.
Qed.
Lemma range_allowed c n k : c <> Diagonal -> 0 <= k <= n -> k_allowed c n k = true.
Proof. intros Hc Hk. unfold k_allowed. destruct c; try congruence; rewrite andb_true_iff, !Z.leb_le; lia. Qed.
Lemma allowed_range c n k : c <> Diagonal -> k_allowed c n k = true -> 0 <= k <= n.
Proof. intros Hc. unfold k_allowed. destruct c; try congruence; rewrite andb_true_iff, !Z.leb_le; lia. Qed.
Lemma not_diag c : c <> Diagonal -> scalar_or_bundle c = true.
Proof. now destruct c. Qed.
Lemma swap_ok o : o = "inner" \/ o = "outer" -> opposite_orientation o = Some (swap o) /\ (swap o = "inner" \/ swap o = "outer") /\ swap (swap o) = o.
Proof. intros [-> | ->]; cbn; auto. Qed.

Section Ops.
  Variables (m : Z) (W : string -> mesh) (R : registry) (s : space).
  Hypothesis (HW : closed W) (HS : session m W tidy R) (Hs : live R s) (Hd : s_cls s <> Diagonal).
  Lemma s_facts : legit W (s_mesh s) /\ oriented s /\ 0 <= s_k s <= ndim (s_mesh s).
  Proof.
    pose proof (session_wf _ _ _ _ HW HS) as H. pose proof (session_clean _ _ _ HW HS) as HC. destruct (live_legit W R s H Hs) as (A & _ & B). split; auto. split; [exact (clean_oriented R s HC Hs)|]. now apply allowed_range in B.
  Qed.
  Lemma hodge_data : op_ok m W R (hodge R s) (s_cls s) (s_mesh s) (ndim (s_mesh s) - s_k s) (swap (s_ori s)).
  Proof.
    destruct s_facts as (HM & Ho & Hk). unfold hodge. rewrite (not_diag _ Hd). destruct (swap_ok _ Ho) as (E & E1 & _). rewrite E. apply new_op; auto. apply range_allowed; auto. lia.
  Qed.
  Lemma d_data : s_k s < ndim (s_mesh s) -> op_ok m W R (d R s) (s_cls s) (s_mesh s) (s_k s + 1) (s_ori s).
  Proof.
    intros Hlt. destruct s_facts as (HM & Ho & Hk). unfold d. rewrite (not_diag _ Hd), (proj2 (Z.ltb_lt _ _) Hlt). apply new_op; auto. apply range_allowed; auto. lia.
  Qed.
  Lemma cod_data : 0 < s_k s -> op_ok m W R (codifferential R s) (s_cls s) (s_mesh s) (s_k s - 1) (s_ori s).
  Proof.
    intros Hlt. destruct s_facts as (HM & Ho & Hk). unfold codifferential. rewrite (not_diag _ Hd), (proj2 (Z.ltb_lt _ _) Hlt). apply new_op; auto. apply range_allowed; auto. lia.
  Qed.
  Lemma d_top : s_k s = ndim (s_mesh s) -> d R s = (R, None).
  Proof. intros E. unfold d. rewrite E, Z.ltb_irrefl. now destruct (scalar_or_bundle (s_cls s)). Qed.
  Lemma cod_bottom : s_k s = 0 -> codifferential R s = (R, None).
  Proof. intros E. unfold codifferential. rewrite E. now destruct (scalar_or_bundle (s_cls s)). Qed.
  Lemma trace_data B : s_cls s = Lambda -> boundary (s_mesh s) = Some B -> s_k s < ndim (s_mesh s) -> op_ok m W R (trace R s) Lambda B (s_k s) (s_ori s).
  Proof.
    intros Hl HB Hlt. destruct s_facts as (HM & Ho & Hk). unfold trace. rewrite Hl, HB. rewrite (proj2 (Z.ltb_lt _ _) Hlt), (proj2 (Z.leb_le 0 _)) by lia. cbn [andb]. change "Lambda" with (abbr_of Lambda). apply new_op; auto; [exact (HW _ _ HM HB)|].
    apply range_allowed; [discriminate|]. unfold boundary in HB. destruct ((ndim (s_mesh s) =? 0) || periodic (s_mesh s)); [discriminate|]. injection HB as <-. cbn. lia.
  Qed.
  (** the operators of a later state on an object that is there: they give the object with the right data *)
  Lemma hodge_hit s1 : live R s1 -> s_cls s1 = s_cls s -> s_mesh s1 = s_mesh s -> s_k s1 = ndim (s_mesh s) - s_k s -> s_ori s1 = swap (s_ori s) -> hodge R s = (R, Some s1).
  Proof.
    intros H1 E1 E2 E3 E4. destruct s_facts as (HM & Ho & Hk). unfold hodge. rewrite (not_diag _ Hd). destruct (swap_ok _ Ho) as (E & F & _). rewrite E. apply (make_later m W R); auto; try (apply range_allowed; auto; lia); apply later_here.
  Qed.
  Lemma d_hit s1 : live R s1 -> s_cls s1 = s_cls s -> s_mesh s1 = s_mesh s -> s_k s1 = s_k s + 1 -> s_k s < ndim (s_mesh s) -> s_ori s1 = s_ori s -> d R s = (R, Some s1).
  Proof.
    intros H1 E1 E2 E3 E4 E5. destruct s_facts as (HM & Ho & Hk). unfold d. rewrite (not_diag _ Hd), (proj2 (Z.ltb_lt _ _) E4). apply (make_later m W R); auto; try (apply range_allowed; auto; lia); apply later_here.
  Qed.
  Lemma cod_hit s1 : live R s1 -> s_cls s1 = s_cls s -> s_mesh s1 = s_mesh s -> s_k s1 = s_k s - 1 -> 0 < s_k s -> s_ori s1 = s_ori s -> codifferential R s = (R, Some s1).
  Proof.
    intros H1 E1 E2 E3 E4 E5. destruct s_facts as (HM & Ho & Hk). unfold codifferential. rewrite (not_diag _ Hd), (proj2 (Z.ltb_lt _ _) E4). apply (make_later m W R); auto; try (apply range_allowed; auto; lia); apply later_here.
  Qed.
  Lemma trace_hit B s1 : s_cls s = Lambda -> boundary (s_mesh s) = Some B -> s_k s < ndim (s_mesh s) -> live R s1 -> s_cls s1 = Lambda -> s_mesh s1 = B -> s_k s1 = s_k s -> s_ori s1 = s_ori s -> trace R s = (R, Some s1).
  Proof.
    intros Hl HB Hlt H1 E1 E2 E3 E4. destruct s_facts as (HM & Ho & Hk). unfold trace. rewrite Hl, HB. rewrite (proj2 (Z.ltb_lt _ _) Hlt), (proj2 (Z.leb_le 0 _)) by lia. cbn [andb]. change "Lambda" with (abbr_of Lambda).
    apply (make_later m W R); auto; [exact (HW _ _ HM HB)| |apply later_here]. apply range_allowed; [discriminate|]. unfold boundary in HB. destruct ((ndim (s_mesh s) =? 0) || periodic (s_mesh s)); [discriminate|]. injection HB as <-. cbn. lia.
  Qed.
End Ops.
Section Wedge.
  Variables (m : Z) (W : string -> mesh) (R : registry) (s1 s2 : space).
  Hypothesis (HW : closed W) (HS : session m W tidy R) (Hs1 : live R s1) (Hs2 : live R s2) (Hd : s_cls s1 <> Diagonal) (Hc : s_cls s1 = s_cls s2) (Hm : s_mesh s1 = s_mesh s2) (Ho : s_ori s1 = s_ori s2).
  Lemma wedge_data : s_k s1 + s_k s2 <= ndim (s_mesh s1) -> op_ok m W R (wedge R s1 s2) (s_cls s1) (s_mesh s1) (s_k s1 + s_k s2) (s_ori s1).
  Proof.
    intros Hk. destruct (s_facts m W R s1 HW HS Hs1 Hd) as (HM & Ho1 & Hk1). assert (Hd2 : s_cls s2 <> Diagonal) by congruence. destruct (s_facts m W R s2 HW HS Hs2 Hd2) as (_ & _ & Hk2).
    unfold wedge. rewrite (proj2 (mesh_eqb_eq _ _) Hm), (not_diag _ Hd), Ho, String.eqb_refl, <- Ho, (proj2 (Z.leb_le _ _) Hk), <- Hc. replace (cls_eqb (s_cls s1) (s_cls s1)) with true by (now destruct (s_cls s1)). cbn [andb]. apply new_op; auto. apply range_allowed; auto. lia.
  Qed.
  Lemma wedge_hit s : s_k s1 + s_k s2 <= ndim (s_mesh s1) -> live R s -> s_cls s = s_cls s1 -> s_mesh s = s_mesh s1 -> s_k s = s_k s1 + s_k s2 -> s_ori s = s_ori s1 -> wedge R s1 s2 = (R, Some s).
  Proof.
    intros Hk H1 E1 E2 E3 E4. destruct (s_facts m W R s1 HW HS Hs1 Hd) as (HM & Ho1 & Hk1). assert (Hd2 : s_cls s2 <> Diagonal) by congruence. destruct (s_facts m W R s2 HW HS Hs2 Hd2) as (_ & _ & Hk2).
    unfold wedge. rewrite (proj2 (mesh_eqb_eq _ _) Hm), (not_diag _ Hd), Ho, String.eqb_refl, <- Ho, (proj2 (Z.leb_le _ _) Hk), <- Hc. replace (cls_eqb (s_cls s1) (s_cls s1)) with true by (now destruct (s_cls s1)). cbn [andb].
    apply (make_later m W R); auto; try (apply range_allowed; auto; lia); apply later_here.
  Qed.
End Wedge.
