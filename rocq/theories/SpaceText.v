(** Texts of abstract spaces: what they tell apart. *)
From Coq Require Import List ZArith String Bool Ascii Lia.
From Verif Require Import MemoModel MemoProofs SpaceModel SpaceSpec SpaceProofs SpaceThms SpaceLaws.
Import ListNotations.
Local Open Scope string_scope.
Local Open Scope Z_scope.

Lemma tail_inj c a : forall b, a ++ String c "" = b ++ String c "" -> a = b.
Proof.
  induction a as [|x a IH]; intros [|y b] E; cbn in E; auto; injection E; intros.
  - destruct b; discriminate.
  - destruct a; discriminate.
  - subst. f_equal. now apply IH.
Qed.
Lemma app_assoc_s a b c : (a ++ b) ++ c = a ++ b ++ c.
Proof. induction a; cbn; congruence. Qed.
Lemma all_snoc P a c : all_chars P a -> P c = true -> all_chars P (a ++ String c "").
Proof. induction a as [|x a IH]; cbn; rewrite !all_cons; [intros; split; auto using all_nil|]. intros [A B] C. auto. Qed.
(** a number, a dash, and something that is not part of a number *)
Lemma number_dash a b x y r q : num_char x = false -> num_char y = false -> str_z a ++ "-" ++ String x r = str_z b ++ "-" ++ String y q -> a = b /\ x = y /\ r = q.
Proof.
  intros Hx Hy E. rewrite <- !app_assoc_s in E. apply (split_free num_char) in E; auto using all_snoc, str_z_chars. destruct E as (E & -> & ->). split; auto. apply str_z_inj. now apply tail_inj in E.
Qed.
Lemma known_head o : known o -> exists c r, o = String c r /\ num_char c = false.
Proof. intros [->|[->| ->]]; cbn; eauto. Qed.
Lemma pure_lin_text_inj m m' s s' : known (s_ori s) -> known (s_ori s') ->
  (pure_lin_text m s = pure_lin_text m' s' <-> s_cls s = s_cls s' /\ m = m' /\ ndim (s_mesh s) = ndim (s_mesh s') /\ s_k s = s_k s' /\ s_ori s = s_ori s').
Proof.
  intros Ho Ho'. split; [|intros (E1 & -> & E2 & E3 & E4); unfold pure_lin_text; now rewrite E1, E2, E3, E4].
  destruct (known_head _ Ho) as (c & r & E & Hc), (known_head _ Ho') as (c' & r' & E' & Hc'). unfold pure_lin_text. rewrite E, E'. intros T.
  assert (T' : s_cls s = s_cls s' /\ "m" ++ str_z m ++ "-n" ++ str_z (ndim (s_mesh s)) ++ "-k" ++ str_z (s_k s) ++ "-" ++ String c r = "m" ++ str_z m' ++ "-n" ++ str_z (ndim (s_mesh s')) ++ "-k" ++ str_z (s_k s') ++ "-" ++ String c' r').
  { destruct (s_cls s), (s_cls s'); cbn [class_text String.append] in T; try discriminate T; (split; [reflexivity|]); cbn [String.append]; now injection T as T; rewrite T. }
  clear T. destruct T' as [C T]. cbn [String.append] in T. injection T as T.
  apply (number_dash m m' "n" "n") in T; auto. destruct T as (-> & _ & T). apply (number_dash _ _ "k" "k") in T; auto. destruct T as (-> & _ & T). apply number_dash in T; auto. destruct T as (-> & -> & ->). auto.
Qed.
Lemma scalar_text_inj s s' : known (s_ori s) -> known (s_ori s') ->
  (scalar_text s = scalar_text s' <-> s_ori s = s_ori s' /\ s_k s = s_k s' /\ mani_text (s_mesh s) = mani_text (s_mesh s')).
Proof.
  intros Ho Ho'. split; [|intros (E1 & E2 & E3); unfold scalar_text; now rewrite E1, E2, E3].
  unfold scalar_text. cbn [String.append]. intros T. injection T as T.
  assert (G : forall o, known o -> all_chars (fun c => negb (Ascii.eqb c " ")) o) by (intros o [->|[->| ->]]; repeat (apply all_cons; split; [reflexivity|]); apply all_nil).
  apply (split_free (fun c => negb (Ascii.eqb c " "))) in T; auto. destruct T as (E & _ & T). split; auto.
  apply (number_dash _ _ "S" "S") in T; auto. destruct T as (-> & _ & T). split; auto. injection T as T. now apply tail_inj in T.
Qed.

(** ** equality of spaces in a session *)
Lemma text_key m m' W ok R s s' : closed W -> session m W ok R -> live R s -> live R s' ->
  (pure_lin_text m s = pure_lin_text m' s' <-> s_cls s = s_cls s' /\ m = m' /\ ndim (s_mesh s) = ndim (s_mesh s') /\ s_k s = s_k s' /\ s_ori s = s_ori s').
Proof.
  intros HW HS Hs Hs'. pose proof (session_wf _ _ _ _ HW HS) as H. destruct (live_legit W R s H Hs) as (_ & K & _). destruct (live_legit W R s' H Hs') as (_ & K' & _). now apply pure_lin_text_inj.
Qed.
Lemma key_is_object m W R s s' : closed W -> session m W tidy R -> live R s -> live R s' -> s_mesh s = s_mesh s' -> (pure_lin_text m s = pure_lin_text m s' <-> s = s').
Proof.
  intros HW HS Hs Hs' E. split; [|now intros ->]. intros T. apply (text_key m m W tidy R) in T; auto. destruct T as (T1 & _ & _ & T2 & T3). now apply (one_object m W R).
Qed.
Lemma space_eq_refl m W ok R s : closed W -> session m W ok R -> live R s -> space_eq s s = true.
Proof. intros _ _ _. unfold space_eq. destruct (s_cls s); auto using String.eqb_refl, PeanoNat.Nat.eqb_refl. Qed.
Lemma space_eq_spec m W R s s' : closed W -> session m W tidy R -> live R s -> live R s' ->
  (space_eq s s' = true <-> s = s' \/ s_cls s = Lambda /\ s_cls s' = Lambda /\ s_k s = s_k s' /\ s_ori s = s_ori s' /\ s_mesh s <> s_mesh s' /\ mani_text (s_mesh s) = mani_text (s_mesh s')).
Proof.
  intros HW HS Hs Hs'. pose proof (session_wf _ _ _ _ HW HS) as H. destruct (live_legit W R s H Hs) as (L1 & K & _). destruct (live_legit W R s' H Hs') as (L2 & K' & _). split.
  - intros E. assert (Hid : s_id s = s_id s' -> s = s') by (eapply same_identity; eauto). unfold space_eq in E.
    destruct (s_cls s) eqn:Ec; destruct (s_cls s') eqn:Ec'; try (left; apply Hid; now apply PeanoNat.Nat.eqb_eq). apply String.eqb_eq in E. apply scalar_text_inj in E; auto. destruct E as (E1 & E2 & E3).
    destruct (String.eqb_spec (mesh_text (s_mesh s)) (mesh_text (s_mesh s'))) as [Em|Em].
    + left. apply (one_object m W R); auto; unfold legit in *; congruence.
    + right. assert (s_mesh s <> s_mesh s') by congruence. auto 8.
  - intros [<-|(E1 & E2 & E3 & E4 & _ & E5)]; [eapply space_eq_refl; eauto|]. unfold space_eq. rewrite E1, E2. apply String.eqb_eq. apply scalar_text_inj; auto.
Qed.
Lemma project_to_spec m W R s s' : closed W -> session m W tidy R -> live R s -> live R s' -> (s_cls s <> Lambda \/ s_cls s' <> Lambda \/ s_mesh s = s_mesh s') -> project_to s s' = if Nat.eq_dec (s_id s) (s_id s') then None else Some s'.
Proof.
  intros HW HS Hs Hs' Hc. unfold project_to. destruct (space_eq s s') eqn:E.
  - apply (space_eq_spec m W R) in E; auto. destruct E as [<-|(E1 & E2 & _ & _ & E3 & _)]; [|tauto]. now destruct (Nat.eq_dec _ _).
  - destruct (Nat.eq_dec (s_id s) (s_id s')) as [Ei|]; auto. assert (s = s') by (eapply same_identity; eauto). subst s'. unfold space_eq in E. destruct (s_cls s); [rewrite String.eqb_refl in E|rewrite PeanoNat.Nat.eqb_refl in E|rewrite PeanoNat.Nat.eqb_refl in E]; discriminate.
Qed.

(** ** a session with one mesh of the plane and its boundary *)
Definition M2 : mesh := Mesh "\mathfrak{M}" "\mathcal{M}" 2 false.
Definition Bd2 : mesh := match boundary M2 with Some B => B | None => M2 end.
Definition W2 (t : string) : mesh := if String.eqb t (mesh_text Bd2) then Bd2 else M2.
Lemma W2_closed : closed W2.
Proof.
  intros M B HM HB. unfold legit, W2 in *. destruct (String.eqb (mesh_text M) (mesh_text Bd2)).
  - subst M. vm_compute in HB. discriminate.
  - subst M. assert (B = Bd2) by (unfold Bd2; now rewrite HB). subst B. now rewrite String.eqb_refl.
Qed.
Lemma W2_M2 : legit W2 M2.
Proof. reflexivity. Qed.
Definition calls (m : Z) (l : list call) : registry := fold_left (run m) l empty.
Lemma calls_session m W ok l : (forall a c b, l = a ++ c :: b -> arguments_ok W (calls m a) c /\ ok c)%list -> session m W ok (calls m l).
Proof.
  induction l as [|c l IH] using rev_ind; intros H; [apply later_here|]. unfold calls. rewrite fold_left_app. cbn [fold_left]. destruct (H l c [] eq_refl). apply later_step; auto. apply IH.
  intros a c' b E. apply (H a c' (b ++ [c])%list). rewrite E. now rewrite <- app_assoc.
Qed.
Definition In0 : space := Space Lambda M2 0 "inner" 0.
Definition In1 : space := Space Lambda M2 1 "inner" 1.
Definition Out1 : space := Space Lambda M2 1 "outer" 2.
Definition calls3 : list call := [CNew "Lambda" 0 (Some M2) (Some "inner"); CNew "Lambda" 1 (Some M2) (Some "inner"); CNew "Lambda" 1 (Some M2) (Some "outer")].
Lemma session3 : session 2 W2 tidy (calls 2 calls3).
Proof.
  repeat (refine (later_step _ _ _ _ _ (CNew _ _ _ _) _ _ _); [|exact W2_M2|cbv; tauto]). apply later_here.
Qed.
Lemma live3 : live (calls 2 calls3) In0 /\ live (calls 2 calls3) In1 /\ live (calls 2 calls3) Out1.
Proof.
  repeat split; exists (mesh_text M2).
  - exists (sym_text Lambda false 0 (mani_text M2)). reflexivity.
  - exists (sym_text Lambda false 1 (mani_text M2)). reflexivity.
  - exists (sym_text Lambda true 1 (mani_text M2)). reflexivity.
Qed.
Lemma o_gives_inner : exists R1 R2 s, session 2 W2 tidy R1 /\ legit W2 M2 /\ new R1 "Lambda" 1 (Some M2) (Some "o") = (R2, Some s) /\ s_ori s = "inner".
Proof. exists (calls 2 calls3), (calls 2 calls3), In1. split; [exact session3|]. repeat split. Qed.
Lemma o_alone_gives_outer : exists R2 s, session 2 W2 anything R2 /\ new empty "Lambda" 1 (Some M2) (Some "o") = (R2, Some s) /\ s_ori s = "outer" /\ new R2 "Lambda" 1 (Some M2) (Some "inner") = (R2, Some s).
Proof.
  eexists. eexists. split; [|split; [reflexivity|split; reflexivity]]. apply (later_step 2 W2 anything empty empty (CNew "Lambda" 1 (Some M2) (Some "o"))); [apply later_here|reflexivity|exact I].
Qed.
Lemma wedge_spoils : exists R R1 s, session 2 W2 tidy R /\ live R In1 /\ live R Out1 /\ wedge R In1 Out1 = (R1, Some s) /\ s_k s = 2 /\ s_ori s = "unknown" /\
  new R1 "Lambda" 2 (Some M2) (Some "inner") = (R1, Some s) /\ snd (hodge R1 s) = None /\ snd (codifferential R1 s) = None.
Proof. exists (calls 2 calls3). eexists. eexists. split; [exact session3|]. split; [apply live3|]. split; [apply live3|]. repeat split. Qed.
(** the wedge product of the same two spaces before and after the inner space is asked for: two different objects *)
Lemma wedge_depends_on_history : exists R R' s s', session 2 W2 tidy R /\ later 2 W2 tidy R R' /\ live R In1 /\ live R Out1 /\ snd (wedge R In1 Out1) = Some s /\ snd (wedge R' In1 Out1) = Some s' /\ s_ori s = "unknown" /\ s_ori s' = "inner".
Proof.
  exists (calls 2 calls3), (run 2 (calls 2 calls3) (CNew "Lambda" 2 (Some M2) (Some "inner"))). eexists. eexists. split; [exact session3|]. split; [apply later_step; [apply later_here|reflexivity|now left]|]. split; [apply live3|]. split; [apply live3|]. repeat split.
Qed.
