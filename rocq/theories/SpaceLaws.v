(** Laws of the operators between abstract spaces. *)
From Coq Require Import List ZArith String Bool Ascii Lia.
From Verif Require Import MemoModel MemoProofs SpaceModel SpaceSpec SpaceProofs SpaceThms.
Import ListNotations.
Local Open Scope string_scope.
Local Open Scope Z_scope.

Lemma after m W R c R1 s1 : closed W -> session m W tidy R -> arguments_ok W R c -> tidy c -> run m R c = R1 -> live R1 s1 ->
  session m W tidy R1 /\ forall R2, later m W tidy R1 R2 -> session m W tidy R2 /\ live R2 s1 /\ forall s, live R s -> live R2 s.
Proof.
  intros HW HS Ha Ht <- Hs1. assert (HS1 : session m W tidy (run m R c)) by (now apply call_tidy). split; auto. intros R2 L. split; [exact (later_trans _ _ _ _ _ _ HS1 L)|].
  destruct (tidy_later m W _ HW HS1 R2 L) as (_ & _ & K). split; auto. intros s Hs. apply K. pose proof (session_wf _ _ _ _ HW HS) as H. destruct (step_spec m W R c HW H Ha) as (_ & X & _). now apply (extends_live R).
Qed.
Lemma hodge_involution m W R s : closed W -> session m W tidy R -> live R s -> s_cls s <> Diagonal ->
  exists R1 s1, hodge R s = (R1, Some s1) /\ s_cls s1 = s_cls s /\ s_mesh s1 = s_mesh s /\ s_k s1 = ndim (s_mesh s) - s_k s /\ s_ori s1 = swap (s_ori s) /\
    forall R2, later m W tidy R1 R2 -> hodge R2 s1 = (R2, Some s).
Proof.
  intros HW HS Hs Hd. destruct (hodge_data m W R s HW HS Hs Hd) as (R1 & s1 & E & E1 & E2 & E3 & E4 & L). exists R1, s1. repeat (split; [assumption|]). intros R2 L2.
  destruct (after m W R (CHodge s) R1 s1 HW HS Hs I ltac:(cbn [run]; now rewrite E) L) as [S1 K]. destruct (K R2 L2) as (S2 & A1 & A2). destruct (s_facts m W R s HW HS Hs Hd) as (_ & Ho & _).
  apply (hodge_hit m W R2 s1 HW S2 A1); try congruence; auto; [rewrite E3, E2; lia|]. rewrite E4. symmetry. now apply swap_ok.
Qed.
Lemma d_then_codifferential m W R s : closed W -> session m W tidy R -> live R s -> s_cls s <> Diagonal -> s_k s < ndim (s_mesh s) ->
  exists R1 s1, d R s = (R1, Some s1) /\ s_cls s1 = s_cls s /\ s_mesh s1 = s_mesh s /\ s_k s1 = s_k s + 1 /\ s_ori s1 = s_ori s /\
    forall R2, later m W tidy R1 R2 -> codifferential R2 s1 = (R2, Some s).
Proof.
  intros HW HS Hs Hd Hk. destruct (d_data m W R s HW HS Hs Hd Hk) as (R1 & s1 & E & E1 & E2 & E3 & E4 & L). exists R1, s1. repeat (split; [assumption|]). intros R2 L2.
  destruct (after m W R (CD s) R1 s1 HW HS Hs I ltac:(cbn [run]; now rewrite E) L) as [S1 K]. destruct (K R2 L2) as (S2 & A1 & A2). destruct (s_facts m W R s HW HS Hs Hd) as (_ & Ho & Hk0).
  apply (cod_hit m W R2 s1 HW S2 A1); try congruence; auto; rewrite E3; lia.
Qed.
Lemma codifferential_then_d m W R s : closed W -> session m W tidy R -> live R s -> s_cls s <> Diagonal -> 0 < s_k s ->
  exists R1 s1, codifferential R s = (R1, Some s1) /\ s_cls s1 = s_cls s /\ s_mesh s1 = s_mesh s /\ s_k s1 = s_k s - 1 /\ s_ori s1 = s_ori s /\
    forall R2, later m W tidy R1 R2 -> d R2 s1 = (R2, Some s).
Proof.
  intros HW HS Hs Hd Hk. destruct (cod_data m W R s HW HS Hs Hd Hk) as (R1 & s1 & E & E1 & E2 & E3 & E4 & L). exists R1, s1. repeat (split; [assumption|]). intros R2 L2.
  destruct (after m W R (CCod s) R1 s1 HW HS Hs I ltac:(cbn [run]; now rewrite E) L) as [S1 K]. destruct (K R2 L2) as (S2 & A1 & A2). destruct (s_facts m W R s HW HS Hs Hd) as (_ & Ho & Hk0).
  apply (d_hit m W R2 s1 HW S2 A1); try congruence; auto; rewrite ?E3, ?E2; lia.
Qed.
Lemma codifferential_is_hodge_d_hodge m W R s R1 s1 R2 R3 s2 R4 R5 s3 R6 : closed W -> session m W tidy R -> live R s -> s_cls s <> Diagonal -> 0 < s_k s ->
  hodge R s = (R1, Some s1) -> later m W tidy R1 R2 -> d R2 s1 = (R3, Some s2) -> later m W tidy R3 R4 -> hodge R4 s2 = (R5, Some s3) -> later m W tidy R5 R6 -> codifferential R6 s = (R6, Some s3).
Proof.
  intros HW HS Hs Hd Hk H1 L1 H2 L2 H3 L3. destruct (s_facts m W R s HW HS Hs Hd) as (_ & Ho & Hk0). destruct (swap_ok _ Ho) as (_ & _ & Hsw).
  destruct (hodge_data m W R s HW HS Hs Hd) as (Ra & sa & E & E1 & E2 & E3 & E4 & L). rewrite H1 in E. injection E as <- <-.
  destruct (after m W R (CHodge s) R1 s1 HW HS Hs I ltac:(cbn [run]; now rewrite H1) L) as [S1 K1]. destruct (K1 R2 L1) as (S2 & A1 & B1).
  assert (Hd1 : s_cls s1 <> Diagonal) by congruence.
  destruct (d_data m W R2 s1 HW S2 A1 Hd1 ltac:(rewrite E3, E2; lia)) as (Rb & sb & F & F1 & F2 & F3 & F4 & Lb). rewrite H2 in F. injection F as <- <-.
  destruct (after m W R2 (CD s1) R3 s2 HW S2 A1 I ltac:(cbn [run]; now rewrite H2) Lb) as [S3 K3]. destruct (K3 R4 L2) as (S4 & A4 & B4).
  assert (Hd2 : s_cls s2 <> Diagonal) by congruence.
  destruct (hodge_data m W R4 s2 HW S4 A4 Hd2) as (Rc & sc & G & G1 & G2 & G3 & G4 & Lc). rewrite H3 in G. injection G as <- <-.
  destruct (after m W R4 (CHodge s2) R5 s3 HW S4 A4 I ltac:(cbn [run]; now rewrite H3) Lc) as [S5 K5]. destruct (K5 R6 L3) as (S6 & A6 & B6).
  apply (cod_hit m W R6 s HW S6); auto; try congruence. rewrite G3, F2, F3, E2, E3. lia.
Qed.
Lemma wedge_commutes m W R s1 s2 : closed W -> session m W tidy R -> live R s1 -> live R s2 -> s_cls s1 <> Diagonal -> s_cls s1 = s_cls s2 -> s_mesh s1 = s_mesh s2 -> s_ori s1 = s_ori s2 ->
  s_k s1 + s_k s2 <= ndim (s_mesh s1) ->
  exists R1 s, wedge R s1 s2 = (R1, Some s) /\ s_cls s = s_cls s1 /\ s_mesh s = s_mesh s1 /\ s_k s = s_k s1 + s_k s2 /\ s_ori s = s_ori s1 /\
    forall R2, later m W tidy R1 R2 -> wedge R2 s2 s1 = (R2, Some s).
Proof.
  intros HW HS Hs1 Hs2 Hd Hc Hm Ho Hk. destruct (wedge_data m W R s1 s2 HW HS Hs1 Hs2 Hd Hc Hm Ho Hk) as (R1 & s & E & E1 & E2 & E3 & E4 & L). exists R1, s. repeat (split; [assumption|]). intros R2 L2.
  destruct (after m W R (CWedge s1 s2) R1 s HW HS (conj Hs1 Hs2) Ho ltac:(cbn [run]; now rewrite E) L) as [S1 K]. destruct (K R2 L2) as (S2 & A1 & A2).
  apply (wedge_hit m W R2 s2 s1 HW S2); auto; try congruence; [rewrite <- Hm|]; lia.
Qed.
Lemma wedge_too_high R s1 s2 : ndim (s_mesh s1) < s_k s1 + s_k s2 -> wedge R s1 s2 = (R, None).
Proof.
  intros H. unfold wedge. destruct (mesh_eqb _ _); auto. destruct (_ && _); auto. destruct (Z.leb_spec (s_k s1 + s_k s2) (ndim (s_mesh s1))); auto. lia.
Qed.
Lemma wedge_associates m W R a b c R1 ab R2 R3 x R4 R5 bc R6 : closed W -> session m W tidy R -> live R a -> live R b -> live R c -> s_cls a <> Diagonal -> s_cls a = s_cls b -> s_cls b = s_cls c -> s_mesh a = s_mesh b -> s_mesh b = s_mesh c ->
  s_ori a = s_ori b -> s_ori b = s_ori c -> s_k a + s_k b + s_k c <= ndim (s_mesh a) ->
  wedge R a b = (R1, Some ab) -> later m W tidy R1 R2 -> wedge R2 ab c = (R3, Some x) -> later m W tidy R3 R4 -> wedge R4 b c = (R5, Some bc) -> later m W tidy R5 R6 ->
  s_k x = s_k a + s_k b + s_k c /\ s_ori x = s_ori a /\ wedge R6 a bc = (R6, Some x).
Proof.
  intros HW HS Ha Hb Hc Hd C1 C2 M1 M2 O1 O2 Hk H1 L1 H2 L2 H3 L3.
  destruct (s_facts m W R a HW HS Ha Hd) as (_ & _ & Ka). assert (Hdb : s_cls b <> Diagonal) by congruence. destruct (s_facts m W R b HW HS Hb Hdb) as (_ & _ & Kb). assert (Hdc : s_cls c <> Diagonal) by congruence. destruct (s_facts m W R c HW HS Hc Hdc) as (_ & _ & Kc).
  destruct (wedge_data m W R a b HW HS Ha Hb Hd C1 M1 O1 ltac:(lia)) as (Ra & sa & E & E1 & E2 & E3 & E4 & L). rewrite H1 in E. injection E as <- <-.
  destruct (after m W R (CWedge a b) R1 ab HW HS (conj Ha Hb) O1 ltac:(cbn [run]; now rewrite H1) L) as [S1 K1]. destruct (K1 R2 L1) as (S2 & A1 & B1).
  destruct (wedge_data m W R2 ab c HW S2 A1 (B1 _ Hc) ltac:(congruence) ltac:(congruence) ltac:(congruence) ltac:(congruence) ltac:(rewrite E2, E3; lia)) as (Rb & sb & F & F1 & F2 & F3 & F4 & Lb). rewrite H2 in F. injection F as <- <-.
  destruct (after m W R2 (CWedge ab c) R3 x HW S2 (conj A1 (B1 _ Hc)) ltac:(cbn [tidy]; congruence) ltac:(cbn [run]; now rewrite H2) Lb) as [S3 K3]. destruct (K3 R4 L2) as (S4 & A4 & B4).
  destruct (wedge_data m W R4 b c HW S4 (B4 _ (B1 _ Hb)) (B4 _ (B1 _ Hc)) Hdb C2 M2 O2 ltac:(rewrite <- M1; lia)) as (Rc & sc & G & G1 & G2 & G3 & G4 & Lc). rewrite H3 in G. injection G as <- <-.
  destruct (after m W R4 (CWedge b c) R5 bc HW S4 (conj (B4 _ (B1 _ Hb)) (B4 _ (B1 _ Hc))) O2 ltac:(cbn [run]; now rewrite H3) Lc) as [S5 K5]. destruct (K5 R6 L3) as (S6 & A6 & B6).
  split; [lia|]. split; [congruence|]. apply (wedge_hit m W R6 a bc HW S6); auto; try congruence; lia.
Qed.
(** the three spaces of the rule d(a ^ b) = da ^ b + a ^ db (up to sign) are one object *)
Lemma leibniz_spaces m W R a b R1 ab R2 R3 x R4 R5 da R6 : closed W -> session m W tidy R -> live R a -> live R b -> s_cls a <> Diagonal -> s_cls a = s_cls b -> s_mesh a = s_mesh b -> s_ori a = s_ori b ->
  s_k a + s_k b < ndim (s_mesh a) ->
  wedge R a b = (R1, Some ab) -> later m W tidy R1 R2 -> d R2 ab = (R3, Some x) -> later m W tidy R3 R4 -> d R4 a = (R5, Some da) -> later m W tidy R5 R6 -> wedge R6 da b = (R6, Some x) /\ wedge R6 b da = (R6, Some x).
Proof.
  intros HW HS Ha Hb Hd C1 M1 O1 Hk H1 L1 H2 L2 H3 L3.
  destruct (s_facts m W R a HW HS Ha Hd) as (_ & _ & Ka). assert (Hdb : s_cls b <> Diagonal) by congruence. destruct (s_facts m W R b HW HS Hb Hdb) as (_ & _ & Kb).
  destruct (wedge_data m W R a b HW HS Ha Hb Hd C1 M1 O1 ltac:(lia)) as (Ra & sa & E & E1 & E2 & E3 & E4 & L). rewrite H1 in E. injection E as <- <-.
  destruct (after m W R (CWedge a b) R1 ab HW HS (conj Ha Hb) O1 ltac:(cbn [run]; now rewrite H1) L) as [S1 K1]. destruct (K1 R2 L1) as (S2 & A1 & B1).
  destruct (d_data m W R2 ab HW S2 A1 ltac:(congruence) ltac:(rewrite E2, E3; lia)) as (Rb & sb & F & F1 & F2 & F3 & F4 & Lb). rewrite H2 in F. injection F as <- <-.
  destruct (after m W R2 (CD ab) R3 x HW S2 A1 I ltac:(cbn [run]; now rewrite H2) Lb) as [S3 K3]. destruct (K3 R4 L2) as (S4 & A4 & B4).
  destruct (d_data m W R4 a HW S4 (B4 _ (B1 _ Ha)) Hd ltac:(lia)) as (Rc & sc & G & G1 & G2 & G3 & G4 & Lc). rewrite H3 in G. injection G as <- <-.
  destruct (after m W R4 (CD a) R5 da HW S4 (B4 _ (B1 _ Ha)) I ltac:(cbn [run]; now rewrite H3) Lc) as [S5 K5]. destruct (K5 R6 L3) as (S6 & A6 & B6).
  split; apply (wedge_hit m W R6); auto; try congruence; rewrite ?G2, <- ?M1; lia.
Qed.
Lemma trace_commutes_with_d m W R s B R1 t R2 R3 ts R4 R5 ds R6 : closed W -> session m W tidy R -> live R s -> s_cls s = Lambda -> boundary (s_mesh s) = Some B -> s_k s + 1 < ndim (s_mesh s) ->
  trace R s = (R1, Some t) -> later m W tidy R1 R2 -> d R2 t = (R3, Some ts) -> later m W tidy R3 R4 -> d R4 s = (R5, Some ds) -> later m W tidy R5 R6 ->
  s_mesh t = B /\ ndim B = ndim (s_mesh s) - 1 /\ trace R6 ds = (R6, Some ts).
Proof.
  intros HW HS Hs Hl HB Hk H1 L1 H2 L2 H3 L3. assert (Hd : s_cls s <> Diagonal) by congruence. destruct (s_facts m W R s HW HS Hs Hd) as (_ & _ & Ks).
  assert (Hn : ndim B = ndim (s_mesh s) - 1). { unfold boundary in HB. destruct (_ || _); [discriminate|]. now injection HB as <-. }
  destruct (trace_data m W R s HW HS Hs Hd B Hl HB ltac:(lia)) as (Ra & sa & E & E1 & E2 & E3 & E4 & L). rewrite H1 in E. injection E as <- <-.
  destruct (after m W R (CTrace s) R1 t HW HS Hs I ltac:(cbn [run]; now rewrite H1) L) as [S1 K1]. destruct (K1 R2 L1) as (S2 & A1 & B1).
  destruct (d_data m W R2 t HW S2 A1 ltac:(congruence) ltac:(rewrite E2, E3; lia)) as (Rb & sb & F & F1 & F2 & F3 & F4 & Lb). rewrite H2 in F. injection F as <- <-.
  destruct (after m W R2 (CD t) R3 ts HW S2 A1 I ltac:(cbn [run]; now rewrite H2) Lb) as [S3 K3]. destruct (K3 R4 L2) as (S4 & A4 & B4).
  destruct (d_data m W R4 s HW S4 (B4 _ (B1 _ Hs)) Hd ltac:(lia)) as (Rc & sc & G & G1 & G2 & G3 & G4 & Lc). rewrite H3 in G. injection G as <- <-.
  destruct (after m W R4 (CD s) R5 ds HW S4 (B4 _ (B1 _ Hs)) I ltac:(cbn [run]; now rewrite H3) Lc) as [S5 K5]. destruct (K5 R6 L3) as (S6 & A6 & B6).
  split; [auto|]. split; [auto|]. apply (trace_hit m W R6 ds HW S6 A6 ltac:(congruence) B); try congruence; auto; rewrite ?G2; lia.
Qed.
Lemma no_trace_of_top R s : s_k s = ndim (s_mesh s) -> trace R s = (R, None).
Proof. intros E. unfold trace. rewrite E, Z.ltb_irrefl, andb_false_r. now destruct (s_cls s). Qed.
Lemma no_trace_without_boundary R s : boundary (s_mesh s) = None -> trace R s = (R, None).
Proof. intros E. unfold trace. rewrite E. destruct (s_cls s); auto. now destruct (_ && _). Qed.

(** ** cross products *)
Lemma by_table_kind t2 t3 m R s1 s2 R1 s W ok : closed W -> session m W ok R -> live R s1 ->
  forallb (fun r => match r with (a, _, b, _, c, _) => match cross_kind (kind_of 2 a) (kind_of 2 b) with Some x => match x, kind_of 2 c with In_plane, In_plane => true | Across, Across => true | _, _ => false end | None => false end end) t2 = true ->
  forallb (fun r => match r with (a, _, b, _, c, _) => match cross_kind (kind_of 3 a) (kind_of 3 b) with Some x => match x, kind_of 3 c with In_space, In_space => true | _, _ => false end | None => false end end) t3 = true ->
  by_table t2 t3 m R s1 s2 = (R1, Some s) ->
  s_cls s = Lambda /\ s_mesh s = s_mesh s1 /\ s_mesh s2 = s_mesh s1 /\ cross_kind (kind_of (ndim (s_mesh s1)) (s_k s1)) (kind_of (ndim (s_mesh s1)) (s_k s2)) = Some (kind_of (ndim (s_mesh s1)) (s_k s)).
Proof.
  intros HW HS Hs1 H2 H3. unfold by_table. destruct (s_cls s1); try discriminate. destruct (s_cls s2); try discriminate. destruct (mesh_eqb (s_mesh s1) (s_mesh s2)) eqn:Em; [|discriminate]. apply mesh_eqb_eq in Em. cbv zeta.
  destruct (find_row _ (s_k s1) (s_ori s1) (s_k s2) (s_ori s2)) as [[k o]|] eqn:Er; [|discriminate]. intros E. pose proof (session_wf _ _ _ _ HW HS) as H. destruct (live_legit W R s1 H Hs1) as (HM & _ & _).
  destruct (new_data m W ok R _ _ _ _ _ _ HW HS HM E) as (D1 & D2 & D3 & _ & _). split; [destruct (s_cls s); auto; discriminate|]. split; [auto|]. split; [auto|]. rewrite D3.
  assert (G2 : forall t, forallb (fun r => match r with (a, _, b, _, c, _) => match cross_kind (kind_of 2 a) (kind_of 2 b) with Some x => match x, kind_of 2 c with In_plane, In_plane => true | Across, Across => true | _, _ => false end | None => false end end) t = true ->
     find_row t (s_k s1) (s_ori s1) (s_k s2) (s_ori s2) = Some (k, o) -> cross_kind (kind_of 2 (s_k s1)) (kind_of 2 (s_k s2)) = Some (kind_of 2 k)).
  { clear. induction t as [|[[[[[a p] b] q] c] r] t IH]; cbn [find_row forallb]; [discriminate|]. intros E. apply andb_prop in E. destruct E as [E1 E2]. destruct ((s_k s1 =? a) && String.eqb (s_ori s1) p && (s_k s2 =? b) && String.eqb (s_ori s2) q) eqn:Ek; auto.
    rewrite !andb_true_iff, !Z.eqb_eq in Ek. destruct Ek as (((-> & _) & ->) & _). intros [= <- <-]. destruct (cross_kind (kind_of 2 a) (kind_of 2 b)) as [x|]; [|discriminate]. destruct x, (kind_of 2 c); congruence. }
  assert (G3 : forall t, forallb (fun r => match r with (a, _, b, _, c, _) => match cross_kind (kind_of 3 a) (kind_of 3 b) with Some x => match x, kind_of 3 c with In_space, In_space => true | _, _ => false end | None => false end end) t = true ->
     find_row t (s_k s1) (s_ori s1) (s_k s2) (s_ori s2) = Some (k, o) -> cross_kind (kind_of 3 (s_k s1)) (kind_of 3 (s_k s2)) = Some (kind_of 3 k)).
  { clear. induction t as [|[[[[[a p] b] q] c] r] t IH]; cbn [find_row forallb]; [discriminate|]. intros E. apply andb_prop in E. destruct E as [E1 E2]. destruct ((s_k s1 =? a) && String.eqb (s_ori s1) p && (s_k s2 =? b) && String.eqb (s_ori s2) q) eqn:Ek; auto.
    rewrite !andb_true_iff, !Z.eqb_eq in Ek. destruct Ek as (((-> & _) & ->) & _). intros [= <- <-]. destruct (cross_kind (kind_of 3 a) (kind_of 3 b)) as [x|]; [|discriminate]. destruct x, (kind_of 3 c); congruence. }
  destruct (m =? ndim (s_mesh s1)); cbn [andb] in Er; [|discriminate]. destruct (Z.eqb_spec (ndim (s_mesh s1)) 2) as [->|N2]; [exact (G2 t2 H2 Er)|]. destruct (Z.eqb_spec (ndim (s_mesh s1)) 3) as [->|N3]; [exact (G3 t3 H3 Er)|discriminate].
Qed.
Lemma cross_product_kind m R s1 s2 R1 s W ok : closed W -> session m W ok R -> live R s1 -> cross_product m R s1 s2 = (R1, Some s) \/ Cross_Product m R s1 s2 = (R1, Some s) \/ CrossProduct m R s1 s2 = (R1, Some s) ->
  s_cls s = Lambda /\ s_mesh s = s_mesh s1 /\ s_mesh s2 = s_mesh s1 /\ cross_kind (kind_of (ndim (s_mesh s1)) (s_k s1)) (kind_of (ndim (s_mesh s1)) (s_k s2)) = Some (kind_of (ndim (s_mesh s1)) (s_k s)).
Proof. intros HW HS Hs [E|[E|E]]; eapply by_table_kind in E; eauto. Qed.

(** ** spaces of unknown orientation *)
Lemma unknown_is_stuck m W ok R s : closed W -> session m W ok R -> live R s -> s_ori s = "unknown" ->
  snd (hodge R s) = None /\ snd (d R s) = None /\ snd (codifferential R s) = None /\ snd (trace R s) = None /\ forall s2, s_ori s2 = "unknown" -> snd (wedge R s s2) = None.
Proof.
  intros HW HS Hs Ho. pose proof (session_wf _ _ _ _ HW HS) as H. destruct (live_legit W R s H Hs) as (HM & _ & _).
  assert (G : forall abbr k M, legit W M -> snd (new R abbr k (Some M) (Some "unknown")) = None).
  { intros abbr k M HM'. destruct (new R abbr k (Some M) (Some "unknown")) as [R1 r] eqn:E. destruct (new_spec W R _ _ _ _ _ _ H HM' E) as (_ & _ & C). destruct r as [x|]; auto. destruct C as (c & o & _ & C2 & _). discriminate. }
  unfold hodge, d, codifferential, trace, wedge. rewrite Ho. cbn [opposite_orientation]. change (opposite_orientation "unknown") with (Some "unknown").
  split; [destruct (scalar_or_bundle (s_cls s)); auto|]. split; [destruct (scalar_or_bundle (s_cls s)); auto; destruct (_ <? _); auto|]. split; [destruct (scalar_or_bundle (s_cls s)); auto; destruct (_ <? _); auto|].
  split. { destruct (s_cls s); auto. destruct (_ && _); auto. destruct (boundary (s_mesh s)) as [B|] eqn:EB; auto. apply G. exact (HW _ _ HM EB). }
  intros s2 Ho2. rewrite Ho2. destruct (mesh_eqb _ _); auto. destruct (_ && _); auto. destruct (_ <=? _); auto.
Qed.
(** whatever is not the word outer shares the text of the inner space *)
Lemma other_word_gives_inner m W R s raw : closed W -> session m W tidy R -> live R s -> s_ori s = "inner" -> (raw = Some "o" \/ raw = Some "i" \/ raw = None \/ raw = Some "None") ->
  new R (abbr_of (s_cls s)) (s_k s) (Some (s_mesh s)) raw = (R, Some s).
Proof.
  intros HW HS Hs Ho Hraw. pose proof (session_wf _ _ _ _ HW HS) as H. pose proof (session_clean _ _ _ HW HS) as HC. destruct (live_legit W R s H Hs) as (HM & _ & Hk). pose proof (live_find W R s H HC Hs) as F. rewrite Ho in F.
  destruct Hraw as [-> | [-> | [-> | ->]]]; eapply hit; eauto using abbr_class; reflexivity.
Qed.
Lemma wedge_of_two_orientations m W R s1 s2 s : closed W -> session m W tidy R -> live R s1 -> live R s2 -> live R s -> s_cls s1 <> Diagonal -> s_cls s1 = s_cls s2 -> s_mesh s1 = s_mesh s2 -> s_ori s1 <> s_ori s2 ->
  s_cls s = s_cls s1 -> s_mesh s = s_mesh s1 -> s_k s = s_k s1 + s_k s2 -> s_ori s = "inner" -> wedge R s1 s2 = (R, Some s).
Proof.
  intros HW HS Hs1 Hs2 Hs Hd Hc Hm Ho E1 E2 E3 E4. pose proof (session_wf _ _ _ _ HW HS) as H. destruct (live_legit W R s H Hs) as (HM & _ & Hk).
  assert (K : s_k s1 + s_k s2 <= ndim (s_mesh s1)). { rewrite <- E3, <- E2. apply (allowed_range (s_cls s)) in Hk; [lia|congruence]. }
  unfold wedge. rewrite (proj2 (mesh_eqb_eq _ _) Hm), (not_diag _ Hd), (proj2 (Z.leb_le _ _) K), <- Hc. replace (cls_eqb (s_cls s1) (s_cls s1)) with true by (now destruct (s_cls s1)). cbn [andb].
  destruct (String.eqb_spec (s_ori s1) (s_ori s2)); [congruence|]. rewrite <- E1, <- E2, <- E3. apply (other_word_gives_inner m W); auto.
Qed.
Lemma wedge_of_two_orientations_spoils m W R s1 s2 : closed W -> session m W tidy R -> live R s1 -> live R s2 -> s_cls s1 <> Diagonal -> s_cls s1 = s_cls s2 -> s_mesh s1 = s_mesh s2 -> s_ori s1 <> s_ori s2 ->
  s_k s1 + s_k s2 <= ndim (s_mesh s1) -> (forall s, live R s -> s_cls s = s_cls s1 -> s_mesh s = s_mesh s1 -> s_k s = s_k s1 + s_k s2 -> s_ori s <> "inner") ->
  exists R1 s, wedge R s1 s2 = (R1, Some s) /\ s_ori s = "unknown" /\
    forall R2, later m W anything R1 R2 -> new R2 (abbr_of (s_cls s1)) (s_k s1 + s_k s2) (Some (s_mesh s1)) (Some "inner") = (R2, Some s) /\ snd (hodge R2 s) = None /\ snd (d R2 s) = None.
Proof.
  intros HW HS Hs1 Hs2 Hd Hc Hm Ho K No. pose proof (session_wf _ _ _ _ HW HS) as H. pose proof (session_clean _ _ _ HW HS) as HC. destruct (live_legit W R s1 H Hs1) as (HM & _ & Hk1).
  assert (Hd2 : s_cls s2 <> Diagonal) by congruence. destruct (s_facts m W R s1 HW HS Hs1 Hd) as (_ & _ & K1). destruct (s_facts m W R s2 HW HS Hs2 Hd2) as (_ & _ & K2).
  assert (Ew : wedge R s1 s2 = new R (abbr_of (s_cls s1)) (s_k s1 + s_k s2) (Some (s_mesh s1)) None).
  { unfold wedge. rewrite (proj2 (mesh_eqb_eq _ _) Hm), (not_diag _ Hd), (proj2 (Z.leb_le _ _) K), <- Hc. replace (cls_eqb (s_cls s1) (s_cls s1)) with true by (now destruct (s_cls s1)). cbn [andb]. now destruct (String.eqb_spec (s_ori s1) (s_ori s2)). }
  rewrite Ew. destruct (new R (abbr_of (s_cls s1)) (s_k s1 + s_k s2) (Some (s_mesh s1)) None) as [R1 r] eqn:E. destruct (new_spec W R _ _ _ _ _ _ H HM E) as (A & B & C).
  assert (Hal : k_allowed (s_cls s1) (ndim (s_mesh s1)) (s_k s1 + s_k s2) = true) by (apply range_allowed; auto; lia).
  destruct r as [s|].
  2:{ destruct C as [_ [C|[C|(c & C1 & C2)]]]; [rewrite abbr_class in C; discriminate|discriminate|]. rewrite abbr_class in C1. injection C1 as <-. congruence. }
  destruct C as (c & o & C1 & C2 & C3 & C4 & C5 & C6 & C7 & C8). rewrite abbr_class in C1. injection C1 as <-. injection C2 as <-. exists R1, s. split; [auto|].
  assert (Hu : s_ori s = "unknown").
  { destruct C8 as [[F _]|(F & F1 & _)]; [|auto]. exfalso. assert (Ls : live R s) by (eexists; eexists; eauto). apply (No s Ls C4 C5 C6). destruct (HC _ _ _ F) as [[Or|Or] Ek]; auto. rewrite Or in Ek. apply sym_text_inj in Ek. destruct Ek as (_ & Ek & _). discriminate. }
  split; auto. intros R2 L. destruct (later_spec _ _ _ _ _ HW A L) as [D1 D2]. assert (Ls : live R2 s) by (eexists; eexists; apply D2; eauto).
  assert (HS' : session m W anything R). { clear - HS. unfold session in *. induction HS; [constructor|]. econstructor; eauto. exact I. }
  assert (HS1 : session m W anything R1). { replace R1 with (run m R (CWedge s1 s2)) by (cbn [run]; now rewrite Ew). econstructor; eauto; [cbn; auto|exact I]. }
  destruct (unknown_is_stuck m W anything R2 s HW (later_trans _ _ _ _ _ _ HS1 L) Ls Hu) as (U1 & U2 & _). split; [|auto].
  eapply hit; eauto using abbr_class; [reflexivity|]. apply D2. exact C7.
Qed.
