(** Proofs about the registry of abstract spaces. *)
From Coq Require Import List ZArith String Bool Ascii Lia.
From Verif Require Import MemoModel MemoProofs SpaceModel SpaceSpec.
Import ListNotations.
Local Open Scope string_scope.
Local Open Scope Z_scope.

(** ** dictionaries *)
Lemma look_put {A} key (v : A) l x : look x (put key v l) = if String.eqb x key then Some v else look x l.
Proof.
  induction l as [|[y w] r IH]; cbn.
  - now destruct (String.eqb x key).
  - destruct (String.eqb key y) eqn:E; cbn.
    + apply String.eqb_eq in E. subst y. now destruct (String.eqb x key).
    + rewrite IH. destruct (String.eqb x y) eqn:E2; auto. apply String.eqb_eq in E2. subst y. rewrite String.eqb_sym in E. now rewrite E.
Qed.

(** ** texts *)
Lemma sapp_inv (a : string) : forall b c, a ++ b = a ++ c -> b = c.
Proof. induction a; cbn; intros; auto. injection H. auto. Qed.
Lemma num_no_paren k : all_chars num_char (str_z k).
Proof. apply str_z_chars. Qed.
Lemma sym_text_inj c w k M c' w' k' M' : sym_text c w k M = sym_text c' w' k' M' -> c = c' /\ w = w' /\ k = k'.
Proof.
  unfold sym_text. intros E.
  assert (H : c = c' /\ w = w' /\ (str_z k ++ ")}" ++ "(" ++ M ++ ")" = str_z k' ++ ")}" ++ "(" ++ M' ++ ")")).
  { destruct c, w, c', w'; cbn in E; try discriminate; injection E as E; auto. }
  destruct H as (-> & -> & H). repeat split. cbn [append] in H. apply (split_free num_char) in H; auto using num_no_paren. destruct H as (H & _). now apply str_z_inj.
Qed.

(** ** the invariant of every session *)
Definition known (o : string) : Prop := o = "inner" \/ o = "outer" \/ o = "unknown".
Record good (W : string -> mesh) (t : string) (M : mesh) (key : string) (s : space) : Prop :=
  { g_mesh : s_mesh s = M;
    g_key : exists wide, key = sym_text (s_cls s) wide (s_k s) (mani_text M) /\ (wide = true -> s_ori s = "outer");
    g_k : k_allowed (s_cls s) (ndim M) (s_k s) = true;
    g_ori : known (s_ori s) }.
Record wf (W : string -> mesh) (R : registry) : Prop :=
  { wf_mesh : forall t M l, look t (sets R) = Some (M, l) -> mesh_text M = t /\ legit W M;
    wf_good : forall t M l key s, look t (sets R) = Some (M, l) -> look key l = Some s -> good W t M key s;
    wf_id : forall t key s, find R t key = Some s -> (s_id s < next_id R)%nat;
    wf_ids : forall t key s t' key' s', find R t key = Some s -> find R t' key' = Some s' -> s_id s = s_id s' -> t = t' /\ key = key' /\ s = s' }.
Definition extends (R R' : registry) : Prop :=
  (forall t key s, find R t key = Some s -> find R' t key = Some s) /\ (forall t M l, look t (sets R) = Some (M, l) -> exists l', look t (sets R') = Some (M, l')).
Lemma extends_refl R : extends R R.
Proof. split; eauto. Qed.
Lemma extends_trans R1 R2 R3 : extends R1 R2 -> extends R2 R3 -> extends R1 R3.
Proof. intros [A B] [C D]. split; auto. intros t M l H. destruct (B _ _ _ H) as [l' H']. eauto. Qed.
Definition clean (R : registry) : Prop :=
  forall t key s, find R t key = Some s -> oriented s /\ key = sym_text (s_cls s) (String.eqb (s_ori s) "outer") (s_k s) (mani_text (s_mesh s)).

Lemma wf_empty W : wf W empty.
Proof. split; unfold find; cbn; intros; discriminate. Qed.
Lemma clean_empty : clean empty.
Proof. intros t key s H. discriminate. Qed.

Lemma find_register R M t key : find (register R M) t key = find R t key.
Proof.
  unfold register. destruct (look (mesh_text M) (sets R)) as [[M' l]|] eqn:E; auto. unfold find. cbn. rewrite look_put.
  destruct (String.eqb t (mesh_text M)) eqn:Et; auto. apply String.eqb_eq in Et. subst t. now rewrite E.
Qed.
Lemma register_look R M : exists M' l, look (mesh_text M) (sets (register R M)) = Some (M', l).
Proof.
  unfold register. destruct (look (mesh_text M) (sets R)) as [[M' l]|] eqn:E; [eauto|]. cbn. rewrite look_put, String.eqb_refl. eauto.
Qed.
Lemma next_register R M : next_id (register R M) = next_id R.
Proof. unfold register. now destruct (look (mesh_text M) (sets R)). Qed.
Lemma register_wf W R M : wf W R -> legit W M -> wf W (register R M) /\ extends R (register R M).
Proof.
  intros H HM. assert (F := find_register R M). split.
  - split.
    + intros t N l. unfold register. destruct (look (mesh_text M) (sets R)) as [[M' l']|] eqn:E; [apply (wf_mesh _ _ H)|]. cbn. rewrite look_put.
      destruct (String.eqb t (mesh_text M)) eqn:Et; [|apply (wf_mesh _ _ H)]. apply String.eqb_eq in Et. intros [= <- <-]. auto.
    + intros t N l key s. unfold register. destruct (look (mesh_text M) (sets R)) as [[M' l']|] eqn:E; [apply (wf_good _ _ H)|]. cbn. rewrite look_put.
      destruct (String.eqb t (mesh_text M)) eqn:Et; [|apply (wf_good _ _ H)]. intros [= <- <-]. discriminate.
    + intros t key s. rewrite F, next_register. apply (wf_id _ _ H).
    + intros t key s t' key' s'. rewrite !F. apply (wf_ids _ _ H).
  - split; [intros; now rewrite F|]. intros t N l Hl. unfold register. destruct (look (mesh_text M) (sets R)) as [[M' l']|] eqn:E; [eauto|]. cbn. rewrite look_put.
    destruct (String.eqb t (mesh_text M)) eqn:Et; [|eauto]. apply String.eqb_eq in Et. congruence.
Qed.
Lemma register_clean R M : clean R -> clean (register R M).
Proof. intros H t key s. rewrite find_register. apply H. Qed.
Lemma register_id R M M' l : look (mesh_text M) (sets R) = Some (M', l) -> register R M = R.
Proof. intros H. unfold register. now rewrite H. Qed.

Lemma set_mesh_find R M t key : find (set_mesh R M) t key = find R t key.
Proof. exact (find_register R M t key). Qed.
Lemma set_mesh_wf W R M : wf W R -> legit W M -> wf W (set_mesh R M) /\ extends R (set_mesh R M).
Proof.
  intros H HM. destruct (register_wf W R M H HM) as [[A B C D] [E F]]. split; [split; auto|split; auto].
Qed.
Lemma set_mesh_clean R M : clean R -> clean (set_mesh R M).
Proof. intros H t key s. rewrite set_mesh_find. apply H. Qed.

(** ** making a space *)
Lemma parse_known raw o : parse_orientation raw = Some o -> known o /\ (is_outer raw = true -> o = "outer").
Proof.
  unfold known. destruct raw as [s|]; cbn [parse_orientation is_outer]; [|intros [= <-]; split; [auto|discriminate]].
  cbn [existsb].
  destruct (String.eqb_spec s "inner") as [->|N1]; [cbn; intros [= <-]; split; [auto|discriminate]|].
  destruct (String.eqb_spec s "outer") as [->|N2]; [cbn; intros [= <-]; auto|].
  destruct (String.eqb_spec s "i") as [->|N3]; [cbn; intros [= <-]; split; [auto|discriminate]|].
  destruct (String.eqb_spec s "o") as [->|N4]; [cbn; intros [= <-]; auto|].
  destruct (String.eqb_spec s "None") as [->|N5]; [cbn; intros [= <-]; split; [auto|discriminate]|].
  cbn. discriminate.
Qed.
Lemma construct_some id c M k raw s srp : construct id c M k raw = Some (s, srp) ->
  exists o, parse_orientation raw = Some o /\ k_allowed c (ndim M) k = true /\ s = Space c M k o id /\ srp = sym_text c (is_outer raw) k (mani_text M).
Proof. unfold construct. destruct (parse_orientation raw) as [o|]; [|discriminate]. destruct (k_allowed c (ndim M) k) eqn:E; [|discriminate]. intros [= <- <-]. exists o. auto. Qed.

Lemma find_put R t0 M0 l0 key0 s0 n t key : look t0 (sets R) = Some (M0, l0) -> look key0 l0 = None ->
  find (Registry (current R) (put t0 (M0, put key0 s0 l0) (sets R)) n) t key = if String.eqb t t0 && String.eqb key key0 then Some s0 else find R t key.
Proof.
  intros H H0. unfold find. cbn. rewrite look_put. destruct (String.eqb t t0) eqn:E; cbn [andb]; auto. apply String.eqb_eq in E. subst t. rewrite H, look_put. reflexivity.
Qed.

Lemma new_on_spec W R abbr k M raw R' r : wf W R -> legit W M -> (exists M' l, look (mesh_text M) (sets R) = Some (M', l)) -> new_on R abbr k M raw = (R', r) ->
  wf W R' /\ extends R R' /\
  match r with
  | Some s => exists c o, class_of abbr = Some c /\ parse_orientation raw = Some o /\ k_allowed c (ndim M) k = true /\
      s_cls s = c /\ s_mesh s = M /\ s_k s = k /\ find R' (mesh_text M) (sym_text c (is_outer raw) k (mani_text M)) = Some s /\
      ((find R (mesh_text M) (sym_text c (is_outer raw) k (mani_text M)) = Some s /\ R' = R) \/
       (find R (mesh_text M) (sym_text c (is_outer raw) k (mani_text M)) = None /\ s = Space c M k o (next_id R) /\
        forall t key, find R' t key = if String.eqb t (mesh_text M) && String.eqb key (sym_text c (is_outer raw) k (mani_text M)) then Some s else find R t key))
  | None => R' = R /\ (class_of abbr = None \/ parse_orientation raw = None \/ exists c, class_of abbr = Some c /\ k_allowed c (ndim M) k = false)
  end.
Proof.
  intros H HM (M' & l & Hl). unfold new_on. rewrite Hl. destruct (wf_mesh _ _ H _ _ _ Hl) as [Et HM']. assert (M' = M) by (unfold legit in *; congruence). subst M'.
  destruct (class_of abbr) as [c|] eqn:Ec; [|intros [= <- <-]; auto using extends_refl].
  destruct (construct (next_id R) c M k raw) as [[s srp]|] eqn:Es.
  - apply construct_some in Es. destruct Es as (o & Eo & Ek & -> & ->). set (key := sym_text c (is_outer raw) k (mani_text M)).
    destruct (look key l) as [s'|] eqn:El.
    + intros [= <- <-]. split; [auto|]. split; [apply extends_refl|]. assert (F : find R (mesh_text M) key = Some s') by (unfold find; now rewrite Hl).
      destruct (wf_good _ _ H _ _ _ _ _ Hl El) as [G1 (w & G2 & G3) G4 G5]. apply sym_text_inj in G2. destruct G2 as (G2 & _ & G6). exists c, o. repeat split; auto.
    + intros [= <- <-]. assert (F : find R (mesh_text M) key = None) by (unfold find; now rewrite Hl).
      pose proof (fun t x => find_put R _ _ _ _ (Space c M k o (next_id R)) (S (next_id R)) t x Hl El) as P.
      destruct (parse_known _ _ Eo) as [Ko Wo].
      assert (Hnew : find (Registry (current R) (put (mesh_text M) (M, put key (Space c M k o (next_id R)) l) (sets R)) (S (next_id R))) (mesh_text M) key = Some (Space c M k o (next_id R))) by (now rewrite P, !String.eqb_refl).
      split; [|split].
      * split.
        -- intros t N q. cbn. rewrite look_put. destruct (String.eqb t (mesh_text M)) eqn:E; [|apply (wf_mesh _ _ H)]. apply String.eqb_eq in E. intros [= <- <-]. auto.
        -- intros t N q x s. cbn. rewrite look_put. destruct (String.eqb t (mesh_text M)) eqn:E; [|apply (wf_good _ _ H)]. apply String.eqb_eq in E. subst t. intros [= <- <-]. rewrite look_put.
           destruct (String.eqb x key) eqn:Ex; [|apply (wf_good _ _ H _ _ _ _ _ Hl)]. apply String.eqb_eq in Ex. subst x. intros [= <-]. split; cbn; auto. exists (is_outer raw). auto.
        -- intros t x s. rewrite P. destruct (String.eqb t (mesh_text M) && String.eqb x key); [intros [= <-]; cbn; lia|]. intros Hx. apply (wf_id _ _ H) in Hx. cbn. lia.
        -- intros t x s t' x' s'. rewrite !P. destruct (String.eqb t (mesh_text M) && String.eqb x key) eqn:E1; destruct (String.eqb t' (mesh_text M) && String.eqb x' key) eqn:E2.
           ++ apply andb_prop in E1, E2. rewrite !String.eqb_eq in E1, E2. destruct E1, E2; subst. intros [= <-] [= <-]; auto.
           ++ intros [= <-] Hs Hi. apply (wf_id _ _ H) in Hs. cbn in Hi. lia.
           ++ intros Hs [= <-] Hi. apply (wf_id _ _ H) in Hs. cbn in Hi. lia.
           ++ apply (wf_ids _ _ H).
      * split.
        -- intros t x s Hs. rewrite P. destruct (String.eqb t (mesh_text M) && String.eqb x key) eqn:E; auto. apply andb_prop in E. rewrite !String.eqb_eq in E. destruct E; subst. congruence.
        -- intros t N q Hq. cbn. rewrite look_put. destruct (String.eqb t (mesh_text M)) eqn:E; [|eauto]. apply String.eqb_eq in E. subst t. rewrite Hl in Hq. injection Hq as <- <-. eauto.
      * exists c, o. repeat split; auto.
  - intros [= <- <-]. split; [auto|]. split; [apply extends_refl|]. split; [auto|]. unfold construct in Es. destruct (parse_orientation raw); auto. destruct (k_allowed c (ndim M) k) eqn:Ek; [discriminate|]. right. right. eauto.
Qed.

Lemma new_spec W R abbr k M raw R' r : wf W R -> legit W M -> new R abbr k (Some M) raw = (R', r) ->
  wf W R' /\ extends R R' /\
  match r with
  | Some s => exists c o, class_of abbr = Some c /\ parse_orientation raw = Some o /\ k_allowed c (ndim M) k = true /\
      s_cls s = c /\ s_mesh s = M /\ s_k s = k /\ find R' (mesh_text M) (sym_text c (is_outer raw) k (mani_text M)) = Some s /\
      ((find R (mesh_text M) (sym_text c (is_outer raw) k (mani_text M)) = Some s /\ R' = R) \/
       (find R (mesh_text M) (sym_text c (is_outer raw) k (mani_text M)) = None /\ s_ori s = o /\
        forall t key, find R' t key = if String.eqb t (mesh_text M) && String.eqb key (sym_text c (is_outer raw) k (mani_text M)) then Some s else find R t key))
  | None => (forall t key, find R' t key = find R t key) /\ (class_of abbr = None \/ parse_orientation raw = None \/ exists c, class_of abbr = Some c /\ k_allowed c (ndim M) k = false)
  end.
Proof.
  intros H HM E. cbn [new] in E. destruct (register_wf W R M H HM) as [H1 X1]. destruct (new_on_spec W (register R M) abbr k M raw R' r H1 HM (register_look R M) E) as (A & B & C).
  split; auto. split; [eapply extends_trans; eauto|]. destruct r as [s|].
  - destruct C as (c & o & C1 & C2 & C3 & C4 & C5 & C6 & C7 & C8). exists c, o. repeat (split; [assumption|]). rewrite !find_register in C8. destruct C8 as [[C8 C9]|(C8 & C9 & C10)].
    + left. split; auto. subst R'. unfold find in C8. destruct (look (mesh_text M) (sets R)) as [[M' l]|] eqn:El; [|discriminate]. eapply register_id; eauto.
    + right. split; auto. split; [now subst s|]. intros t key. rewrite C10. now rewrite find_register.
  - destruct C as [C1 C2]. subst R'. split; auto. intros. apply find_register.
Qed.
Lemma new_none_spec W R abbr k raw R' r : wf W R -> new R abbr k None raw = (R', r) ->
  (R' = R /\ r = None) \/ exists M, legit W M /\ new R abbr k (Some M) raw = (R', r).
Proof.
  intros H E. cbn [new] in E. destruct (String.eqb (current R) ""); [injection E as <- <-; auto|]. destruct (look (current R) (sets R)) as [[M l]|] eqn:El; [|injection E as <- <-; auto].
  destruct (wf_mesh _ _ H _ _ _ El) as [Et HM]. right. exists M. split; auto. cbn [new]. rewrite (register_id R M M l); [exact E|]. now rewrite Et.
Qed.

Lemma abbr_class c : class_of (abbr_of c) = Some c.
Proof. now destruct c. Qed.
Lemma parse_full o : o = "inner" \/ o = "outer" -> parse_orientation (Some o) = Some o /\ is_outer (Some o) = String.eqb o "outer".
Proof. intros [-> | ->]; split; reflexivity. Qed.

Lemma new_clean W R abbr k M raw R' r : wf W R -> clean R -> legit W M -> full_word raw -> new R abbr k (Some M) raw = (R', r) -> clean R' /\ match r with Some s => raw = Some (s_ori s) | None => True end.
Proof.
  intros H HC HM Hw E. destruct (new_spec W R abbr k M raw R' r H HM E) as (A & B & C). destruct r as [s|].
  - destruct C as (c & o & C1 & C2 & C3 & C4 & C5 & C6 & C7 & C8).
    assert (Ho : exists o', raw = Some o' /\ (o' = "inner" \/ o' = "outer")) by (destruct Hw; eauto). destruct Ho as (o' & -> & Ho'). destruct (parse_full o' Ho') as [P1 P2]. rewrite P1 in C2. injection C2 as <-.
    destruct C8 as [[C8 ->]|(C8 & C9 & C10)].
    + split; auto. destruct (HC _ _ _ C8) as [Or Ek]. apply sym_text_inj in Ek. destruct Ek as (_ & Ek & _). rewrite P2 in Ek. destruct Or as [Or|Or]; rewrite Or in *; destruct Ho' as [-> | ->]; auto; discriminate.
    + split; [|now rewrite C9]. intros t key s'. rewrite C10. destruct (String.eqb t (mesh_text M) && String.eqb key (sym_text c (is_outer (Some o')) k (mani_text M))) eqn:E1; [|apply HC].
      intros [= <-]. apply andb_prop in E1. rewrite !String.eqb_eq in E1. destruct E1; subst. split; [exact Ho'|]. now rewrite P2.
  - destruct C as [C _]. split; auto. intros t key s. rewrite C. apply HC.
Qed.

(** a space of the registry is what [new] gives for its own data *)
Lemma live_find W R s : wf W R -> clean R -> live R s -> find R (mesh_text (s_mesh s)) (sym_text (s_cls s) (String.eqb (s_ori s) "outer") (s_k s) (mani_text (s_mesh s))) = Some s.
Proof.
  intros H HC (t & key & F). destruct (HC _ _ _ F) as [_ E]. pose proof F as F'. unfold find in F'. destruct (look t (sets R)) as [[M l]|] eqn:El; [|discriminate].
  destruct (wf_mesh _ _ H _ _ _ El) as [Et HM]. destruct (wf_good _ _ H _ _ _ _ _ El F') as [G _ _ _]. rewrite G, Et. rewrite G in E. now rewrite <- E.
Qed.
Lemma live_legit W R s : wf W R -> live R s -> legit W (s_mesh s) /\ known (s_ori s) /\ k_allowed (s_cls s) (ndim (s_mesh s)) (s_k s) = true.
Proof.
  intros H (t & key & F). unfold find in F. destruct (look t (sets R)) as [[M l]|] eqn:El; [|discriminate].
  destruct (wf_mesh _ _ H _ _ _ El) as [Et HM]. destruct (wf_good _ _ H _ _ _ _ _ El F) as [G1 _ G3 G4]. rewrite G1. auto.
Qed.
Lemma live_known R W s : wf W R -> live R s -> look (mesh_text (s_mesh s)) (sets R) <> None.
Proof.
  intros H (t & key & F). unfold find in F. destruct (look t (sets R)) as [[M l]|] eqn:El; [|discriminate].
  destruct (wf_mesh _ _ H _ _ _ El) as [Et HM]. destruct (wf_good _ _ H _ _ _ _ _ El F) as [G1 _ _ _]. rewrite G1, Et. congruence.
Qed.
Lemma clean_oriented R s : clean R -> live R s -> oriented s.
Proof. intros H (t & key & F). apply (H _ _ _ F). Qed.

Lemma new_hit W R c k M o s : wf W R -> legit W M -> find R (mesh_text M) (sym_text c (String.eqb o "outer") k (mani_text M)) = Some s -> o = "inner" \/ o = "outer" -> k_allowed c (ndim M) k = true ->
  new R (abbr_of c) k (Some M) (Some o) = (R, Some s).
Proof.
  intros H HM F Ho Hk. cbn [new]. unfold find in F. destruct (look (mesh_text M) (sets R)) as [[M' l]|] eqn:El; [|discriminate]. rewrite (register_id _ _ _ _ El). unfold new_on. rewrite El, abbr_class.
  unfold construct. destruct (parse_full o Ho) as [P1 P2]. rewrite P1, Hk, P2. now rewrite F.
Qed.
Lemma new_make W R c k M o : wf W R -> clean R -> legit W M -> o = "inner" \/ o = "outer" -> k_allowed c (ndim M) k = true ->
  exists R' s, new R (abbr_of c) k (Some M) (Some o) = (R', Some s) /\ s_cls s = c /\ s_mesh s = M /\ s_k s = k /\ s_ori s = o /\ wf W R' /\ clean R' /\ extends R R' /\ live R' s.
Proof.
  intros H HC HM Ho Hk. destruct (new R (abbr_of c) k (Some M) (Some o)) as [R' r] eqn:E. destruct (new_spec W R _ _ _ _ _ _ H HM E) as (A & B & C).
  assert (Hw : full_word (Some o)) by (destruct Ho as [-> | ->]; red; auto). destruct (new_clean W R _ _ _ _ _ _ H HC HM Hw E) as [D1 D2]. destruct r as [s|].
  - destruct C as (c' & o' & C1 & C2 & C3 & C4 & C5 & C6 & C7 & C8). rewrite abbr_class in C1. injection C1 as <-. exists R', s. injection D2 as D2. repeat (split; [congruence || auto|]). eexists; eexists; eauto.
  - destruct C as [_ [C|[C|(c' & C1 & C2)]]].
    + rewrite abbr_class in C. discriminate.
    + destruct (parse_full o Ho) as [P1 _]. congruence.
    + rewrite abbr_class in C1. injection C1 as <-. congruence.
Qed.

(** ** sessions *)
Lemma mesh_eqb_eq a b : mesh_eqb a b = true <-> a = b.
Proof.
  unfold mesh_eqb. rewrite !andb_true_iff, !String.eqb_eq, Z.eqb_eq, Bool.eqb_true_iff. destruct a, b; cbn. split; [intros (((-> & ->) & ->) & ->); auto|intros [= -> -> -> ->]; auto].
Qed.
(** every operator either does nothing or makes a space on a mesh of the session *)
Inductive effect (W : string -> mesh) (R : registry) (tidy_ : Prop) : registry * option space -> Prop :=
| effect_none : effect W R tidy_ (R, None)
| effect_new abbr k M raw p : legit W M -> (tidy_ -> full_word raw) -> new R abbr k (Some M) raw = p -> effect W R tidy_ p.
Lemma oriented_word o : o = "inner" \/ o = "outer" -> full_word (Some o).
Proof. intros [-> | ->]; red; auto. Qed.
Lemma by_table_full t2 t3 : forallb (fun r => match r with (_, _, _, _, _, o) => String.eqb o "inner" || String.eqb o "outer" end) (t2 ++ t3) = true ->
  forall m n k1 o1 k2 o2 k o, find_row (if (m =? n) && (n =? 2) then t2 else if (m =? n) && (n =? 3) then t3 else []) k1 o1 k2 o2 = Some (k, o) -> o = "inner" \/ o = "outer".
Proof.
  intros H m n k1 o1 k2 o2 k o. rewrite forallb_app, andb_true_iff in H. destruct H as [H2 H3].
  assert (G : forall t, forallb (fun r => match r with (_, _, _, _, _, o) => String.eqb o "inner" || String.eqb o "outer" end) t = true -> find_row t k1 o1 k2 o2 = Some (k, o) -> o = "inner" \/ o = "outer").
  { induction t as [|[[[[[a p] b] q] c] r] t IH]; cbn; [discriminate|]. intros E. apply andb_prop in E. destruct E as [E1 E2]. destruct ((k1 =? a) && String.eqb o1 p && (k2 =? b) && String.eqb o2 q); auto.
    intros [= <- <-]. apply orb_prop in E1. now rewrite !String.eqb_eq in E1. }
  destruct ((m =? n) && (n =? 2)); [exact (G t2 H2)|]. destruct ((m =? n) && (n =? 3)); [exact (G t3 H3)|]. cbn. discriminate.
Qed.
Section Effects.
  Variables (m : Z) (W : string -> mesh) (R : registry) (cl : Prop).
  Hypothesis (HW : closed W) (H : wf W R) (Hc : cl -> clean R).
  Lemma effect_hodge s : live R s -> effect W R cl (hodge R s).
  Proof.
    intros Hs. unfold hodge. destruct (live_legit W R s H Hs) as (HM & Ho & _). destruct (scalar_or_bundle (s_cls s)); [|constructor]. destruct (opposite_orientation (s_ori s)) as [o|] eqn:Eo; [|constructor].
    eapply effect_new; [exact HM| |reflexivity]. intros C. destruct (clean_oriented R s (Hc C) Hs) as [E|E]; rewrite E in Eo; cbn in Eo; injection Eo as <-; red; auto.
  Qed.
  Lemma effect_d s : live R s -> effect W R cl (d R s).
  Proof.
    intros Hs. unfold d. destruct (live_legit W R s H Hs) as (HM & Ho & _). destruct (scalar_or_bundle (s_cls s)); [|constructor]. destruct (s_k s <? ndim (s_mesh s)); [|constructor].
    eapply effect_new; [exact HM| |reflexivity]. intros C. apply oriented_word. exact (clean_oriented R s (Hc C) Hs).
  Qed.
  Lemma effect_cod s : live R s -> effect W R cl (codifferential R s).
  Proof.
    intros Hs. unfold codifferential. destruct (live_legit W R s H Hs) as (HM & Ho & _). destruct (scalar_or_bundle (s_cls s)); [|constructor]. destruct (0 <? s_k s); [|constructor].
    eapply effect_new; [exact HM| |reflexivity]. intros C. apply oriented_word. exact (clean_oriented R s (Hc C) Hs).
  Qed.
  Lemma effect_trace s : live R s -> effect W R cl (trace R s).
  Proof.
    intros Hs. unfold trace. destruct (live_legit W R s H Hs) as (HM & Ho & _). destruct (s_cls s); try constructor. destruct ((0 <=? s_k s) && (s_k s <? ndim (s_mesh s))); [|constructor].
    destruct (boundary (s_mesh s)) as [B|] eqn:EB; [|constructor]. eapply effect_new; [exact (HW _ _ HM EB)| |reflexivity]. intros C. apply oriented_word. exact (clean_oriented R s (Hc C) Hs).
  Qed.
  Lemma effect_wedge s1 s2 : live R s1 -> live R s2 -> effect W R (cl /\ s_ori s1 = s_ori s2) (wedge R s1 s2).
  Proof.
    intros Hs1 Hs2. unfold wedge. destruct (live_legit W R s1 H Hs1) as (HM & Ho & _). destruct (mesh_eqb (s_mesh s1) (s_mesh s2)); [|constructor]. destruct (cls_eqb (s_cls s1) (s_cls s2) && scalar_or_bundle (s_cls s1)); [|constructor].
    destruct (s_k s1 + s_k s2 <=? ndim (s_mesh s1)); [|constructor]. eapply effect_new; [exact HM| |reflexivity]. intros [C E]. rewrite E, String.eqb_refl. apply oriented_word. exact (clean_oriented R s2 (Hc C) Hs2).
  Qed.
  Lemma effect_table t2 t3 s1 s2 : forallb (fun r => match r with (_, _, _, _, _, o) => String.eqb o "inner" || String.eqb o "outer" end) (t2 ++ t3) = true -> live R s1 -> live R s2 -> effect W R cl (by_table t2 t3 m R s1 s2).
  Proof.
    intros Ht Hs1 Hs2. unfold by_table. destruct (live_legit W R s1 H Hs1) as (HM & Ho & _). destruct (s_cls s1); try constructor. destruct (s_cls s2); try constructor. destruct (mesh_eqb (s_mesh s1) (s_mesh s2)); [|constructor]. cbv zeta.
    destruct (find_row _ (s_k s1) (s_ori s1) (s_k s2) (s_ori s2)) as [[k o]|] eqn:E; [|constructor]. eapply effect_new; [exact HM| |reflexivity]. intros _. apply oriented_word. eapply by_table_full; eauto.
  Qed.
  Lemma effect_tensor s1 s2 : live R s1 -> live R s2 -> exists r, effect W R cl (fst (tensor_product m R s1 s2), r).
  Proof.
    intros Hs1 Hs2. unfold tensor_product. destruct (live_legit W R s1 H Hs1) as (HM & Ho & _). destruct (s_cls s1); try (exists None; constructor). destruct (s_cls s2); try (exists None; constructor). destruct (mesh_eqb (s_mesh s1) (s_mesh s2)); [|exists None; constructor].
    destruct ((m =? ndim (s_mesh s1)) && (m =? 2)); [|exists None; constructor]. destruct ((s_k s1 =? 0) && (s_k s2 =? 0) && String.eqb (s_ori s1) "inner" && String.eqb (s_ori s2) "inner"); [|exists None; constructor].
    destruct (new R "bundle" 1 (Some (s_mesh s1)) (Some "inner")) as [R' r] eqn:E. exists r. cbn. eapply effect_new; [exact HM| |exact E]. intros _. red. auto.
  Qed.
End Effects.
Lemma effect_wf W R cl p : wf W R -> effect W R cl p -> wf W (fst p) /\ extends R (fst p).
Proof. intros H [|abbr k M raw q HM Hw E]; [split; auto using extends_refl|]. destruct q as [R' r]. destruct (new_spec W R _ _ _ _ _ _ H HM E) as (A & B & _). auto. Qed.
Lemma effect_clean W R (cl : Prop) p : wf W R -> clean R -> cl -> effect W R cl p -> clean (fst p).
Proof. intros H HC Hcl [|abbr k M raw q HM Hw E]; [auto|]. destruct q as [R' r]. eapply new_clean in E; eauto. tauto. Qed.

Lemma step_spec m W R c : closed W -> wf W R -> arguments_ok W R c -> wf W (run m R c) /\ extends R (run m R c) /\ (clean R -> tidy c -> clean (run m R c)).
Proof.
  intros HW H Ha. pose proof (fun p cl Hp => effect_wf W R cl p H Hp) as EW. pose proof (fun p cl HC Hcl Hp => effect_clean W R cl p H HC Hcl Hp) as EC.
  assert (Hc : clean R -> clean R) by auto.
  destruct c as [M|abbr k om raw|s1 s2|s|s|s|s|s1 s2|s1 s2|s1 s2|s1 s2]; cbn [run arguments_ok tidy] in *.
  - destruct (set_mesh_wf W R M H Ha). split; [auto|]. split; [auto|]. auto using set_mesh_clean.
  - destruct (new R abbr k om raw) as [R' r] eqn:E. cbn [fst]. destruct om as [M|].
    + destruct (new_spec W R _ _ _ _ _ _ H Ha E) as (A & B & _). split; auto. split; auto. intros HC Hw. eapply new_clean in E; eauto. tauto.
    + destruct (new_none_spec W R _ _ _ _ _ H E) as [[-> _]|(M & HM & E')]; [split; auto; split; auto using extends_refl|].
      destruct (new_spec W R _ _ _ _ _ _ H HM E') as (A & B & _). split; auto. split; auto. intros HC Hw. eapply new_clean in E'; eauto. tauto.
  - destruct Ha as [H1 H2]. pose proof (effect_wedge W R (clean R) H Hc s1 s2 H1 H2) as E. destruct (EW _ _ E). split; auto. split; auto. intros HC Ho. eapply EC; [| |exact E]; auto.
  - pose proof (effect_hodge W R (clean R) H Hc s Ha) as E. destruct (EW _ _ E). split; auto. split; auto. intros HC Ho. eapply EC; [| |exact E]; auto.
  - pose proof (effect_d W R (clean R) H Hc s Ha) as E. destruct (EW _ _ E). split; auto. split; auto. intros HC Ho. eapply EC; [| |exact E]; auto.
  - pose proof (effect_cod W R (clean R) H Hc s Ha) as E. destruct (EW _ _ E). split; auto. split; auto. intros HC Ho. eapply EC; [| |exact E]; auto.
  - pose proof (effect_trace W R (clean R) HW H Hc s Ha) as E. destruct (EW _ _ E). split; auto. split; auto. intros HC Ho. eapply EC; [| |exact E]; auto.
  - destruct Ha as [H1 H2]. pose proof (effect_table m W R (clean R) H cross_2d cross_3d s1 s2 eq_refl H1 H2) as E. destruct (EW _ _ E). split; auto. split; auto. intros HC Ho. eapply EC; [| |exact E]; auto.
  - destruct Ha as [H1 H2]. pose proof (effect_table m W R (clean R) H Cross_2d Cross_3d s1 s2 eq_refl H1 H2) as E. destruct (EW _ _ E). split; auto. split; auto. intros HC Ho. eapply EC; [| |exact E]; auto.
  - destruct Ha as [H1 H2]. pose proof (effect_table m W R (clean R) H [] CrossP_3d s1 s2 eq_refl H1 H2) as E. destruct (EW _ _ E). split; auto. split; auto. intros HC Ho. eapply EC; [| |exact E]; auto.
  - destruct Ha as [H1 H2]. destruct (effect_tensor m W R (clean R) H s1 s2 H1 H2) as [r E]. destruct (EW _ _ E). split; auto. split; auto. intros HC Ho. apply (EC _ (clean R) HC HC E).
Qed.
Lemma later_spec m W ok R R' : closed W -> wf W R -> later m W ok R R' -> wf W R' /\ extends R R'.
Proof.
  intros HW H L. induction L as [|R' c L [I1 I2] Ha Hok]; [split; auto using extends_refl|]. destruct (step_spec m W R' c HW I1 Ha) as (A & B & _). split; eauto using extends_trans.
Qed.
Lemma later_clean m W R R' : closed W -> wf W R -> clean R -> later m W tidy R R' -> clean R'.
Proof.
  intros HW H HC L. induction L as [|R' c L I Ha Hok]; [auto|]. destruct (later_spec _ _ _ _ _ HW H L) as [A _]. destruct (step_spec m W R' c HW A Ha) as (_ & _ & C). auto.
Qed.
Lemma session_wf m W ok R : closed W -> session m W ok R -> wf W R.
Proof. intros HW L. eapply later_spec in L; eauto using wf_empty. tauto. Qed.
Lemma session_clean m W R : closed W -> session m W tidy R -> clean R.
Proof. intros HW L. eapply later_clean in L; eauto using wf_empty, clean_empty. Qed.
Lemma extends_live R R' s : extends R R' -> live R s -> live R' s.
Proof. intros [H _] (t & key & F). exists t, key. auto. Qed.
