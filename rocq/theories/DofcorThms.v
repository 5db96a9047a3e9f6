(** Proofs about the correspondence of dofs. *)
From Coq Require Import List Arith Bool Lia.
From Verif Require Import DofcorModel DofcorSpec.
Import ListNotations.

(** ** dicts *)
Lemma dget_in : forall {V} (d : list (nat * V)) k v, dget d k = Some v -> In (k, v) d.
Proof.
  intros V d k v; induction d as [|[k' v'] d IH]; [discriminate|]. cbn [dget].
  destruct (k =? k') eqn:E; [|intros H; right; exact (IH H)].
  apply Nat.eqb_eq in E. intros [= <-]; subst; left; reflexivity.
Qed.

Lemma dget_key : forall {V} (d : list (nat * V)) k, dget d k <> None <-> In k (map fst d).
Proof.
  intros V d k; induction d as [|[k' v'] d IH]; [cbn; tauto|]. cbn [dget map fst].
  destruct (k =? k') eqn:E.
  - apply Nat.eqb_eq in E. split; [left; congruence|discriminate].
  - apply Nat.eqb_neq in E. rewrite IH. split; [right; assumption|intros [H|H]; [congruence|exact H]].
Qed.

Lemma dget_some_in : forall {V} (d : list (nat * V)) k v, NoDup (map fst d) -> In (k, v) d -> dget d k = Some v.
Proof.
  intros V d k v; induction d as [|[k' v'] d IH]; intros N H; [destruct H|].
  inversion N; subst. cbn [dget]. destruct H as [E|H].
  - injection E as -> ->. rewrite Nat.eqb_refl; reflexivity.
  - destruct (k =? k') eqn:E; [|exact (IH H3 H)].
    apply Nat.eqb_eq in E; subst. exfalso; apply H2. apply (in_map fst _ _ H).
Qed.

Lemma dget_app : forall {V} (d e : list (nat * V)) k, dget (d ++ e) k = match dget d k with Some v => Some v | None => dget e k end.
Proof.
  intros V d e k; induction d as [|[k' v'] d IH]; [reflexivity|]. cbn [app dget].
  destruct (k =? k'); [reflexivity|exact IH].
Qed.

Lemma dput_keys : forall {V} (d : list (nat * V)) k v, map fst (dput d k v) = map fst d.
Proof.
  intros V d k v; induction d as [|[k' v'] d IH]; [reflexivity|]. cbn [dput].
  destruct (k =? k'); cbn [map fst]; [reflexivity|rewrite IH; reflexivity].
Qed.

Lemma dget_dput : forall {V} (d : list (nat * V)) k v k', dget d k <> None ->
  dget (dput d k v) k' = if k' =? k then Some v else dget d k'.
Proof.
  intros V d k v k'; induction d as [|[a w] d IH]; intros H; [exfalso; apply H; reflexivity|].
  cbn [dput dget] in *. destruct (k =? a) eqn:E.
  - apply Nat.eqb_eq in E; subst a. cbn [dget]. destruct (k' =? k); reflexivity.
  - cbn [dget]. destruct (k' =? a) eqn:E'.
    + apply Nat.eqb_eq in E'; subst a. apply Nat.eqb_neq in E.
      destruct (k' =? k) eqn:E2; [apply Nat.eqb_eq in E2; congruence|reflexivity].
    + exact (IH H).
Qed.

Lemma dget_ddel : forall {V} (d : list (nat * V)) k k', dget (ddel d k) k' = if k' =? k then None else dget d k'.
Proof.
  intros V d k k'; induction d as [|[a w] d IH].
  - cbn. destruct (k' =? k); reflexivity.
  - unfold ddel in *. cbn [filter fst]. destruct (a =? k) eqn:E; cbn [negb].
    + rewrite IH. apply Nat.eqb_eq in E; subst a. cbn [dget]. destruct (k' =? k); reflexivity.
    + cbn [dget]. rewrite IH. destruct (k' =? a) eqn:E'; [|reflexivity].
      apply Nat.eqb_eq in E'; subst. rewrite E. reflexivity.
Qed.

Lemma dget_ddels : forall {V} l (d : list (nat * V)) k', dget (fold_left ddel l d) k' = if existsb (Nat.eqb k') l then None else dget d k'.
Proof.
  intros V l; induction l as [|k l IH]; intros d k'; [reflexivity|].
  cbn [fold_left existsb]. rewrite IH, dget_ddel.
  destruct (k' =? k); cbn [orb]; [destruct (existsb (Nat.eqb k') l); reflexivity|reflexivity].
Qed.

Lemma ddel_keys : forall {V} (d : list (nat * V)) k, NoDup (map fst d) -> NoDup (map fst (ddel d k)).
Proof.
  intros V d k; induction d as [|[a w] d IH]; intros N; [constructor|]. inversion N; subst.
  unfold ddel in *; cbn [filter fst]. destruct (a =? k); cbn [negb]; [exact (IH H2)|].
  cbn [map fst]. constructor; [|exact (IH H2)]. intros H. apply H1.
  apply in_map_iff in H. destruct H as (e & <- & He). apply filter_In in He. apply in_map; exact (proj1 He).
Qed.

Lemma ddels_keys : forall {V} l (d : list (nat * V)), NoDup (map fst d) -> NoDup (map fst (fold_left ddel l d)).
Proof. intros V l; induction l as [|k l IH]; intros d N; [exact N|]. cbn [fold_left]. apply IH, ddel_keys, N. Qed.

Section Proofs.
  Context {G K : Type} (X : geometry G K).
  Notation dict := (list (nat * list G)).

  (** ** geometries collected *)
  Inductive chain (occ : G -> Prop) : G -> G -> Prop :=
  | chain_refl : forall g, chain occ g g
  | chain_step : forall g h k, occ h -> g_eq X g h = true -> chain occ h k -> chain occ g k.

  Lemma chain_trans : forall occ g h k, chain occ g h -> chain occ h k -> chain occ g k.
  Proof. intros occ g h k H; induction H; intros H'; [exact H'|]. econstructor; eauto. Qed.

  Section Collect.
    Variable occ : nat -> G -> Prop.

    Definition coll (d : dict) (done : nat -> G -> Prop) : Prop :=
      NoDup (map fst d) /\
      (forall dof gs, dget d dof = Some gs -> gs <> [] /\ forall g, In g gs -> occ dof g) /\
      (forall dof g, done dof g -> exists gs g', dget d dof = Some gs /\ In g' gs /\ chain (occ dof) g g').

    (** one step of any of the loops *)
    Definition gstep (ext : list G -> list G -> list G) (d : dict) (e : nat * list G) : dict :=
      match dget d (fst e) with
      | Some gs => dput d (fst e) (gs ++ ext gs (snd e))
      | None => d ++ [e]
      end.

    Definition ext_ok (ext : list G -> list G -> list G) : Prop :=
      forall gs new, (forall g, In g (ext gs new) -> In g new) /\
                     (forall g, In g new -> In g (ext gs new) \/ exists g', In g' gs /\ g_eq X g g' = true).

    Lemma coll_step : forall ext d done dof new, ext_ok ext -> coll d done -> new <> [] -> (forall g, In g new -> occ dof g) ->
      coll (gstep ext d (dof, new)) (fun d' g => done d' g \/ (d' = dof /\ exists n, In n new /\ chain (occ dof) g n)).
    Proof.
      intros ext d done dof new Hext (N & B & C) Hn Ho. unfold gstep; cbn [fst snd].
      destruct (dget d dof) as [gs|] eqn:E.
      - assert (K0 : dget d dof <> None) by congruence.
        destruct (Hext gs new) as (X1 & X2). destruct (B dof gs E) as (B1 & B2).
        split; [rewrite dput_keys; exact N|]. split.
        + intros dof' gs'. rewrite (dget_dput d dof _ dof' K0). destruct (dof' =? dof) eqn:E'; [|apply B].
          apply Nat.eqb_eq in E'; subst dof'. intros [= <-]. split; [destruct gs; [congruence|discriminate]|].
          intros g Hg. apply in_app_or in Hg. destruct Hg as [Hg|Hg]; [exact (B2 g Hg)|exact (Ho g (X1 g Hg))].
        + intros dof' g H. rewrite (dget_dput d dof _ dof' K0). destruct (dof' =? dof) eqn:E'.
          * apply Nat.eqb_eq in E'; subst dof'. exists (gs ++ ext gs new).
            destruct H as [H|(_ & n & Hn' & Cn)].
            -- destruct (C dof g H) as (gs' & g' & E1 & E2 & E3). rewrite E in E1; injection E1 as <-.
               exists g'. split; [reflexivity|]. split; [apply in_or_app; left; exact E2|exact E3].
            -- destruct (X2 n Hn') as [Y|(g' & Y1 & Y2)].
               ++ exists n. split; [reflexivity|]. split; [apply in_or_app; right; exact Y|exact Cn].
               ++ exists g'. split; [reflexivity|]. split; [apply in_or_app; left; exact Y1|].
                  apply (chain_trans _ _ _ _ Cn). apply (chain_step _ _ g' _ (B2 g' Y1) Y2). apply chain_refl.
          * apply Nat.eqb_neq in E'. destruct H as [H|(H & _)]; [|congruence]. exact (C dof' g H).
      - split.
        + rewrite map_app. cbn [map fst]. apply NoDup_Add with (a := dof) (l := map fst d).
          * replace (map fst d ++ [dof]) with (map fst d ++ dof :: []) by reflexivity.
            rewrite <- (app_nil_r (map fst d)) at 1. apply Add_app.
          * split; [exact N|]. rewrite <- dget_key. congruence.
        + split.
          * intros dof' gs'. rewrite dget_app. destruct (dget d dof') as [v|] eqn:E'; [intros [= <-]; exact (B dof' v E')|].
            cbn [dget]. destruct (dof' =? dof) eqn:E2; [|discriminate].
            apply Nat.eqb_eq in E2; subst. intros [= <-]. split; assumption.
          * intros dof' g H. rewrite dget_app. destruct H as [H|(-> & n & Hn' & Cn)].
            -- destruct (C dof' g H) as (gs' & g' & E1 & E2 & E3). rewrite E1. exists gs', g'. auto.
            -- rewrite E. cbn [dget]. rewrite Nat.eqb_refl. exists new, n. auto.
    Qed.

    Lemma coll_fold : forall ext l d done, ext_ok ext -> coll d done ->
      (forall e, In e l -> snd e <> [] /\ forall g, In g (snd e) -> occ (fst e) g) ->
      coll (fold_left (gstep ext) l d)
           (fun d' g => done d' g \/ exists e n, In e l /\ fst e = d' /\ In n (snd e) /\ chain (occ d') g n).
    Proof.
      intros ext l; induction l as [|[dof new] l IH]; intros d done Hext C H.
      - cbn [fold_left]. destruct C as (N & B & C). split; [exact N|]. split; [exact B|].
        intros d' g [Hd|(e & n & [] & _)]. exact (C d' g Hd).
      - cbn [fold_left]. destruct (H (dof, new) (or_introl eq_refl)) as (H1 & H2); cbn [fst snd] in *.
        pose proof (coll_step ext d done dof new Hext C H1 H2) as C1.
        specialize (IH _ _ Hext C1 (fun e He => H e (or_intror He))).
        destruct IH as (N & B & C2). split; [exact N|]. split; [exact B|].
        intros d' g Hd. apply C2. destruct Hd as [Hd|(e & n & [<-|He] & E1 & E2 & E3)].
        + left; left; exact Hd.
        + cbn [fst snd] in *; subst d'. left; right. split; [reflexivity|]. exists n; split; assumption.
        + right. exists e, n. auto.
    Qed.

    Lemma coll_weak : forall d (done done' : nat -> G -> Prop), (forall x g, done' x g -> done x g) -> coll d done -> coll d done'.
    Proof. intros d done done' H (N & B & C). split; [exact N|]. split; [exact B|]. intros x g Hx. exact (C x g (H x g Hx)). Qed.
  End Collect.

  Definition ext0 (gs new : list G) : list G := fresh_geos X gs new.
  Definition ext1 (gs new : list G) : list G := fresh_geos X gs new ++ fresh_geos X gs new.

  Lemma ext0_ok : ext_ok ext0.
  Proof.
    intros gs new; unfold ext0, fresh_geos. split.
    - intros g Hg. apply filter_In in Hg. exact (proj1 Hg).
    - intros g Hg. destruct (geo_in X g gs) eqn:E.
      + right. apply existsb_exists in E. destruct E as (g' & E1 & E2). exists g'; auto.
      + left. apply filter_In. rewrite E; auto.
  Qed.

  Lemma ext1_ok : ext_ok ext1.
  Proof.
    intros gs new; unfold ext1. destruct (ext0_ok gs new) as (H1 & H2). unfold ext0 in *. split.
    - intros g Hg. apply in_app_or in Hg. destruct Hg; apply H1; assumption.
    - intros g Hg. destruct (H2 g Hg) as [H|H]; [left; apply in_or_app; left; exact H|right; exact H].
  Qed.

  Lemma gather0_step_ext : forall d e, gather0_step X d e = gstep ext0 d e.
  Proof. intros; reflexivity. Qed.
  Lemma gather1_step_ext : forall d e, gather1_step X d e = gstep ext1 d e.
  Proof. intros d e; unfold gather1_step, gstep, ext1. destruct (dget d (fst e)); [rewrite app_assoc|]; reflexivity. Qed.

  Lemma dput_same : forall {V} (d : list (nat * V)) k v, dget d k = Some v -> dput d k v = d.
  Proof.
    intros V d k v; induction d as [|[a w] d IH]; [discriminate|]. cbn [dget dput].
    destruct (k =? a); [intros [= ->]; reflexivity|intros H; rewrite (IH H); reflexivity].
  Qed.

  Lemma rank_step_ext : forall d e, rank_step X d e = gstep ext0 d (fst e, [snd e]).
  Proof.
    intros d [dof g]; unfold rank_step, gstep, ext0, fresh_geos; cbn [fst snd filter].
    destruct (dget d dof) as [gs|] eqn:E; [|reflexivity].
    destruct (geo_in X g gs); cbn [negb]; [|reflexivity]. rewrite app_nil_r, (dput_same d dof gs E); reflexivity.
  Qed.

  Lemma fold_ext : forall {A B} (f g : A -> B -> A) l a, (forall a b, f a b = g a b) -> fold_left f l a = fold_left g l a.
  Proof. intros A B f g l; induction l as [|b l IH]; intros a H; [reflexivity|]. cbn [fold_left]. rewrite H; apply IH, H. Qed.

  Lemma fold_map : forall {A B C} (f : A -> C -> A) (h : B -> C) l a, fold_left (fun a b => f a (h b)) l a = fold_left f (map h l) a.
  Proof. intros A B C f h l; induction l as [|b l IH]; intros a; [reflexivity|]. cbn [map fold_left]. apply IH. Qed.

  Lemma coll_rank : forall (occ : nat -> G -> Prop) l, (forall dof g, In (dof, g) l -> occ dof g) ->
    coll occ (rank_geos X l) (fun dof g => In (dof, g) l).
  Proof.
    intros occ l H. unfold rank_geos.
    rewrite (fold_ext _ (fun d e => gstep ext0 d (fst e, [snd e])) l []) by (intros; apply rank_step_ext).
    rewrite (fold_map (gstep ext0) (fun e => (fst e, [snd e]))).
    assert (C0 : coll occ [] (fun _ _ => False)).
    { split; [constructor|]. split; [discriminate|]. intros dof g []. }
    refine (coll_weak occ _ _ _ _ (coll_fold occ ext0 _ [] _ ext0_ok C0 _)).
    - intros dof g Hg. right. exists (dof, [g]), g. split; [|split; [reflexivity|split; [left; reflexivity|apply chain_refl]]].
      apply in_map_iff. exists (dof, g). split; [reflexivity|exact Hg].
    - intros e He. apply in_map_iff in He. destruct He as ([dof g] & <- & Hg). cbn [fst snd].
      split; [discriminate|]. intros g' [<-|[]]. exact (H dof g Hg).
  Qed.

  Lemma coll_gather : forall ext (occ : nat -> G -> Prop) ranks, ext_ok ext ->
    (forall r dof g, In r ranks -> In (dof, g) r -> occ dof g) ->
    coll occ (fold_left (fun d r => fold_left (gstep ext) r d) (map (rank_geos X) ranks) [])
             (fun dof g => exists r, In r ranks /\ In (dof, g) r).
  Proof.
    intros ext occ ranks Hext. 
    assert (GEN : forall ranks d done, coll occ d done -> (forall r dof g, In r ranks -> In (dof, g) r -> occ dof g) ->
      coll occ (fold_left (fun d r => fold_left (gstep ext) r d) (map (rank_geos X) ranks) d)
               (fun dof g => done dof g \/ exists r, In r ranks /\ In (dof, g) r)).
    { clear ranks. intros ranks; induction ranks as [|r ranks IH]; intros d done C H.
      - cbn [map fold_left]. refine (coll_weak occ _ _ _ _ C). intros x g [Hx|(r & [] & _)]; exact Hx.
      - cbn [map fold_left].
        assert (CR : coll occ (rank_geos X r) (fun dof g => In (dof, g) r)).
        { apply coll_rank. intros dof g Hg. exact (H r dof g (or_introl eq_refl) Hg). }
        destruct CR as (N & B & CR).
        assert (C1 : coll occ (fold_left (gstep ext) (rank_geos X r) d)
                          (fun dof g => done dof g \/ In (dof, g) r)).
        { refine (coll_weak occ _ _ _ _ (coll_fold occ ext (rank_geos X r) d done Hext C _)).
          - intros dof g [Hd|Hd]; [left; exact Hd|right].
            destruct (CR dof g Hd) as (gs & g' & E1 & E2 & E3).
            exists (dof, gs), g'. split; [exact (dget_in _ _ _ E1)|]. auto.
          - intros [dof gs] He. apply (B dof gs). apply dget_some_in; assumption. }
        refine (coll_weak occ _ _ _ _ (IH _ _ C1 (fun r' dof g Hr => H r' dof g (or_intror Hr)))).
        intros dof g [Hd|(r' & [<-|Hr] & Hg)]; [left; left; exact Hd|left; right; exact Hg|right; exists r'; auto]. }
    intros H.
    assert (C0 : coll occ [] (fun _ _ => False)).
    { split; [constructor|]. split; [discriminate|]. intros dof g []. }
    refine (coll_weak occ _ _ _ _ (GEN ranks [] _ C0 H)). intros dof g Hg; right; exact Hg.
  Qed.

  Lemma coll0 : forall ranks, coll (lies ranks) (gather0 X (map (rank_geos X) ranks)) (lies ranks).
  Proof.
    intros ranks. refine (coll_weak _ _ _ _ _ (coll_gather ext0 (lies ranks) ranks ext0_ok _)).
    - intros dof g H; exact H.
    - intros r dof g Hr Hg. exists r; auto.
  Qed.

  Lemma coll1 : forall ranks, coll (lies ranks) (gather1 X (map (rank_geos X) ranks)) (lies ranks).
  Proof.
    intros ranks. unfold gather1.
    rewrite (fold_ext _ (fun d r => fold_left (gstep ext1) r d)).
    - refine (coll_weak _ _ _ _ _ (coll_gather ext1 (lies ranks) ranks ext1_ok _)).
      + intros dof g H; exact H.
      + intros r dof g Hr Hg. exists r; auto.
    - intros a b. apply fold_ext. intros; apply gather1_step_ext.
  Qed.

  (** ** groups *)
  Definition keyok : Prop := forall k k', g_keyeq X k k' = true <-> k = k'.

  Lemma group_get_add : forall k k' dof g, keyok ->
    group_get X k (group_add X k' dof g) = if g_keyeq X k k' then group_get X k g ++ [dof] else group_get X k g.
  Proof.
    intros k k' dof g OK; induction g as [|[a l] g IH].
    - cbn [group_add group_get]. destruct (g_keyeq X k k'); reflexivity.
    - cbn [group_add]. destruct (g_keyeq X k' a) eqn:E.
      + cbn [group_get]. apply OK in E; subst a. destruct (g_keyeq X k k'); reflexivity.
      + cbn [group_get]. rewrite IH. destruct (g_keyeq X k a) eqn:E2; [|reflexivity].
        apply OK in E2; subst a. destruct (g_keyeq X k k') eqn:E3; [|reflexivity].
        apply OK in E3; subst k'. assert (T : g_keyeq X k k = true) by (apply OK; reflexivity). congruence.
  Qed.

  Definition has_key (f : G -> K) (k : K) (e : nat * list G) : bool :=
    match snd e with g :: _ => g_keyeq X k (f g) | [] => false end.

  Lemma group_get_groups : forall f k D, keyok ->
    group_get X k (groups X f D) = map fst (filter (has_key f k) D).
  Proof.
    intros f k D OK. unfold groups.
    assert (GEN : forall D g, group_get X k (fold_left (group_step X f) D g) = group_get X k g ++ map fst (filter (has_key f k) D)).
    { clear D; induction D as [|[dof gs] D IH]; intros g; [cbn; rewrite app_nil_r; reflexivity|].
      cbn [fold_left filter]. rewrite IH. unfold group_step, has_key at 2; cbn [fst snd].
      destruct gs as [|g1 gs]; [reflexivity|]. rewrite group_get_add by exact OK.
      destruct (g_keyeq X k (f g1)); [|reflexivity]. rewrite <- app_assoc; reflexivity. }
    rewrite GEN. reflexivity.
  Qed.

  Lemma groups_nil : forall f D, (forall e, In e D -> snd e <> []) -> groups X f D = [] -> D = [].
  Proof.
    intros f D H E. destruct D as [|[dof gs] D]; [reflexivity|exfalso].
    unfold groups in E. cbn [fold_left] in E. unfold group_step at 2 in E; cbn [fst snd] in E.
    pose proof (H (dof, gs) (or_introl eq_refl)) as Hn; cbn [snd] in Hn. destruct gs as [|g1 gs]; [congruence|].
    assert (GEN : forall D g, g <> [] -> fold_left (group_step X f) D g <> []).
    { clear. induction D as [|[d' gs] D IH]; intros g Hg; [exact Hg|]. cbn [fold_left]. apply IH.
      unfold group_step; cbn [fst snd]. destruct gs as [|g1 gs]; [exact Hg|].
      destruct g as [|[a l] g]; [congruence|]. cbn [group_add]. destruct (g_keyeq X (f g1) a); discriminate. }
    revert E. apply GEN. discriminate.
  Qed.

  (** dofs that are searched through for given geometries *)
  Definition in_range (D1 : dict) (gs0 : list G) (dof1 : nat) : Prop :=
    match g_key X, gs0 with
    | Some f, g0 :: _ => exists g1 gs1, dget D1 dof1 = Some (g1 :: gs1) /\ f g0 = f g1
    | _, _ => True
    end.

  Lemma search_range_spec : forall D1 rest gs0, keyok -> NoDup (map fst D1) -> NoDup (map fst rest) ->
    (forall e, In e D1 -> snd e <> []) -> (forall k, dget rest k <> None -> dget D1 k <> None) ->
    NoDup (search_range X D1 rest gs0) /\
    forall dof1, dget rest dof1 <> None -> (In dof1 (search_range X D1 rest gs0) <-> in_range D1 gs0 dof1).
  Proof.
    intros D1 rest gs0 OK N1 N2 NE SUB. unfold search_range, in_range.
    assert (ALL : NoDup (map fst rest) /\ forall dof1, dget rest dof1 <> None -> (In dof1 (map fst rest) <-> True)).
    { split; [exact N2|]. intros dof1 H. rewrite <- dget_key. tauto. }
    destruct (g_key X) as [f|]; [|exact ALL]. destruct gs0 as [|g0 gs0]; [exact ALL|].
    destruct (groups X f D1) as [|x g] eqn:E.
    - apply groups_nil in E; [|exact NE]. subst D1. split; [exact N2|]. intros dof1 H. exfalso. exact (SUB dof1 H eq_refl).
    - rewrite <- E, group_get_groups by exact OK. split.
      + clear -N1. induction D1 as [|e D1 IH]; [constructor|]. inversion N1; subst. cbn [filter].
        destruct (has_key f (f g0) e); [|exact (IH H2)]. cbn [map]. constructor; [|exact (IH H2)].
        intros H. apply H1. apply in_map_iff in H. destruct H as (y & <- & Hy). apply filter_In in Hy. apply in_map; exact (proj1 Hy).
      + intros dof1 _. rewrite in_map_iff. split.
        * intros ([d gs] & <- & H). apply filter_In in H. destruct H as (H1 & H2). unfold has_key in H2; cbn [fst snd] in *.
          destruct gs as [|g1 gs]; [discriminate|]. apply OK in H2. exists g1, gs. split; [apply dget_some_in; assumption|exact H2].
        * intros (g1 & gs1 & H1 & H2). exists (dof1, g1 :: gs1). split; [reflexivity|].
          apply filter_In. split; [exact (dget_in _ _ _ H1)|]. unfold has_key; cbn [snd]. apply OK; exact H2.
  Qed.

  (** ** the search *)
  Definition taken (cor : list (nat * list nat)) (dof1 : nat) : bool := existsb (fun e => existsb (Nat.eqb dof1) (snd e)) cor.

  Lemma taken_listed : forall cor dof1, taken cor dof1 = true <-> exists dof0, listed cor dof0 dof1.
  Proof.
    intros cor dof1; unfold taken, listed. rewrite existsb_exists. split.
    - intros ([dof0 l] & H1 & H2). apply existsb_exists in H2. destruct H2 as (y & Hy & E). apply Nat.eqb_eq in E; subst y.
      exists dof0, l; auto.
    - intros (dof0 & l & H1 & H2). exists (dof0, l). split; [exact H1|]. apply existsb_exists. exists dof1. split; [exact H2|apply Nat.eqb_refl].
  Qed.

  Definition sinv (D1 : dict) (P : dict) (st : list (nat * list nat) * dict * bool) : Prop :=
    let '(cor, rest, possible) := st in
    NoDup (map fst rest) /\
    (forall k, dget rest k = if taken cor k then None else dget D1 k) /\
    (forall dof0 l, In (dof0, l) cor -> l <> [] /\ exists gs0, In (dof0, gs0) P /\
       forall dof1, In dof1 l -> exists gs1, dget D1 dof1 = Some gs1 /\ some_part X gs0 gs1 = true) /\
    NoDup (concat (map snd cor)) /\
    (exists p, map fst cor = map fst (filter p P)) /\
    (forall dof0 gs0 dof1 gs1, In (dof0, gs0) P -> dget D1 dof1 = Some gs1 -> some_part X gs0 gs1 = true -> in_range D1 gs0 dof1 ->
       taken cor dof1 = true) /\
    (possible = true <-> forall dof0, In dof0 (map fst P) -> In dof0 (map fst cor)).

  Lemma nodup_app : forall {T} (l m : list T), NoDup l -> NoDup m -> (forall x, In x l -> ~ In x m) -> NoDup (l ++ m).
  Proof.
    intros T l m N; induction N as [|x l Hx N IH]; intros M D; [exact M|]. cbn [app]. constructor.
    - intros H. apply in_app_or in H. destruct H as [H|H]; [exact (Hx H)|exact (D x (or_introl eq_refl) H)].
    - apply IH; [exact M|]. intros y Hy; apply D; right; exact Hy.
  Qed.

  Lemma sinv_step : forall D1 P st dof0 gs0, keyok -> NoDup (map fst D1) -> (forall e, In e D1 -> snd e <> []) ->
    ~ In dof0 (map fst P) -> sinv D1 P st -> sinv D1 (P ++ [(dof0, gs0)]) (find_step X D1 st (dof0, gs0)).
  Proof.
    intros D1 P [[cor rest] possible] dof0 gs0 OK N1 NE Hnew (I1 & I2 & I3 & I4 & (p & I5) & I6 & I7).
    unfold find_step; cbn [fst snd].
    assert (SUB : forall k, dget rest k <> None -> dget D1 k <> None).
    { intros k Hk. rewrite I2 in Hk. destruct (taken cor k); congruence. }
    destruct (search_range_spec D1 rest gs0 OK N1 I1 NE SUB) as (R1 & R2).
    assert (F : forall dof1, In dof1 (found X rest (search_range X D1 rest gs0) gs0) <->
                taken cor dof1 = false /\ in_range D1 gs0 dof1 /\ exists gs1, dget D1 dof1 = Some gs1 /\ some_part X gs0 gs1 = true).
    { intros dof1. unfold found. rewrite filter_In. split.
      - intros (H1 & H2). destruct (dget rest dof1) as [gs1|] eqn:E; [|discriminate].
        pose proof E as E'. rewrite I2 in E'. destruct (taken cor dof1); [discriminate|]. split; [reflexivity|].
        split; [apply R2; [congruence|exact H1]|]. exists gs1; auto.
      - intros (H1 & H2 & gs1 & H3 & H4).
        assert (E : dget rest dof1 = Some gs1) by (rewrite I2, H1; exact H3).
        split; [apply R2; [congruence|exact H2]|]. rewrite E; exact H4. }
    assert (ND : NoDup (found X rest (search_range X D1 rest gs0) gs0)) by (apply NoDup_filter; exact R1).
    destruct (found X rest (search_range X D1 rest gs0) gs0) as [|x l] eqn:E.
    - unfold sinv. split; [exact I1|]. split; [exact I2|]. split.
      { intros d l0 H. destruct (I3 d l0 H) as (H1 & gs & H2 & H3). split; [exact H1|]. exists gs. split; [apply in_or_app; left; exact H2|exact H3]. }
      split; [exact I4|]. split.
      { exists (fun e => p e && existsb (Nat.eqb (fst e)) (map fst P)). rewrite filter_app, map_app. cbn [filter fst].
        assert (T0 : existsb (Nat.eqb dof0) (map fst P) = false).
        { destruct (existsb (Nat.eqb dof0) (map fst P)) eqn:T; [|reflexivity]. apply existsb_exists in T. destruct T as (y & Hy & Ey).
          apply Nat.eqb_eq in Ey; subst; contradiction. }
        rewrite T0, andb_false_r. cbn [map]. rewrite app_nil_r, I5. f_equal. apply filter_ext_in. intros e He.
        assert (T1 : existsb (Nat.eqb (fst e)) (map fst P) = true).
        { apply existsb_exists. exists (fst e). split; [apply in_map; exact He|apply Nat.eqb_refl]. }
        rewrite T1, andb_true_r; reflexivity. }
      split.
      { intros d gs dof1 gs1 H H1 H2 H3. apply in_app_or in H. destruct H as [H|[H|[]]]; [exact (I6 d gs dof1 gs1 H H1 H2 H3)|].
        injection H as <- <-. destruct (taken cor dof1) eqn:T; [reflexivity|].
        assert (B : In dof1 []) by (apply F; split; [exact T|split; [exact H3|exists gs1; auto]]). destruct B. }
      split; [discriminate|]. intros H. exfalso.
      assert (B : In dof0 (map fst cor)). { apply H. rewrite map_app. apply in_or_app; right; left; reflexivity. }
      rewrite I5 in B. apply in_map_iff in B. destruct B as (e & <- & He). apply filter_In in He. apply Hnew. apply in_map; exact (proj1 He).
    - assert (HX : In x (found X rest (search_range X D1 rest gs0) gs0)) by (rewrite E; left; reflexivity).
      rewrite <- E in *. clear E. set (L := found X rest (search_range X D1 rest gs0) gs0) in *.
      assert (TK : forall k, taken (cor ++ [(dof0, L)]) k = taken cor k || existsb (Nat.eqb k) L).
      { intros k. unfold taken. rewrite existsb_app. cbn [existsb snd]. rewrite orb_false_r; reflexivity. }
      unfold sinv. split; [apply ddels_keys; exact I1|]. split.
      { intros k. rewrite dget_ddels, TK, I2. destruct (taken cor k), (existsb (Nat.eqb k) L); reflexivity. }
      split.
      { intros d l0 H. apply in_app_or in H. destruct H as [H|[H|[]]].
        - destruct (I3 d l0 H) as (H1 & gs & H2 & H3). split; [exact H1|]. exists gs. split; [apply in_or_app; left; exact H2|exact H3].
        - injection H as <- <-. split.
          + intros Z. rewrite Z in HX; destruct HX.
          + exists gs0. split; [apply in_or_app; right; left; reflexivity|].
            intros dof1 H. apply F in H. exact (proj2 (proj2 H)). }
      split.
      { rewrite map_app, concat_app. cbn [map snd concat]. rewrite app_nil_r. apply nodup_app; [exact I4|exact ND|].
        intros k Hk Hk'. apply F in Hk'. destruct Hk' as (H & _).
        assert (B : taken cor k = true).
        { apply existsb_exists. apply in_concat in Hk. destruct Hk as (l0 & H1 & H2). apply in_map_iff in H1. destruct H1 as (e & <- & He).
          exists e. split; [exact He|]. apply existsb_exists. exists k. split; [exact H2|apply Nat.eqb_refl]. }
        congruence. }
      split.
      { exists (fun e => p e || negb (existsb (Nat.eqb (fst e)) (map fst P))). rewrite filter_app, !map_app. cbn [filter fst map].
        assert (T0 : existsb (Nat.eqb dof0) (map fst P) = false).
        { destruct (existsb (Nat.eqb dof0) (map fst P)) eqn:T; [|reflexivity]. apply existsb_exists in T. destruct T as (y & Hy & Ey).
          apply Nat.eqb_eq in Ey; subst; contradiction. }
        rewrite T0, orb_true_r. cbn [map fst]. rewrite I5. f_equal. f_equal. apply filter_ext_in. intros e He.
        assert (T1 : existsb (Nat.eqb (fst e)) (map fst P) = true).
        { apply existsb_exists. exists (fst e). split; [apply in_map; exact He|apply Nat.eqb_refl]. }
        rewrite T1, orb_false_r; reflexivity. }
      split.
      { intros d gs dof1 gs1 H H1 H2 H3. rewrite TK. apply in_app_or in H. destruct H as [H|[H|[]]].
        - rewrite (I6 d gs dof1 gs1 H H1 H2 H3); reflexivity.
        - injection H as <- <-. destruct (taken cor dof1) eqn:T; [reflexivity|]. cbn [orb]. apply existsb_exists.
          exists dof1. split; [|apply Nat.eqb_refl]. apply F. split; [exact T|]. split; [exact H3|]. exists gs1; auto. }
      rewrite I7. rewrite !map_app. cbn [map fst]. split.
      { intros H d Hd. apply in_app_or in Hd. apply in_or_app. destruct Hd as [Hd|Hd]; [left; exact (H d Hd)|right; exact Hd]. }
      { intros H d Hd. specialize (H d (in_or_app _ _ _ (or_introl Hd))). apply in_app_or in H. destruct H as [H|[H|[]]]; [exact H|].
        subst d. contradiction. }
  Qed.

  Lemma sinv_all : forall D0 D1, keyok -> NoDup (map fst D0) -> NoDup (map fst D1) -> (forall e, In e D1 -> snd e <> []) ->
    sinv D1 D0 (find_all X D0 D1).
  Proof.
    intros D0 D1 OK N0 N1 NE. unfold find_all.
    assert (GEN : forall R P st, NoDup (map fst (P ++ R)) -> sinv D1 P st -> sinv D1 (P ++ R) (fold_left (find_step X D1) R st)).
    { induction R as [|[d gs] R IH]; intros P st N I; [rewrite app_nil_r; exact I|]. cbn [fold_left].
      replace (P ++ (d, gs) :: R) with ((P ++ [(d, gs)]) ++ R) in * by (rewrite <- app_assoc; reflexivity).
      apply IH; [exact N|]. apply sinv_step; try assumption.
      rewrite !map_app in N. cbn [map fst] in N. rewrite <- app_assoc in N. cbn [app] in N.
      intros B. apply NoDup_remove_2 in N. apply N. apply in_or_app; left; exact B. }
    apply (GEN D0 [] _ N0). unfold sinv. split; [exact N1|]. split; [reflexivity|]. split; [intros d l []|].
    split; [constructor|]. split; [exists (fun _ => true); reflexivity|]. split; [intros d gs d1 gs1 []|].
    split; [intros _ d []|reflexivity].
  Qed.

  (** ** what is found *)
  Lemma check_complete_true : forall D0 D1 cor, check_complete X D0 D1 cor = Some true <->
    forall d0 l, In (d0, l) cor -> exists g0 gs0, dget D0 d0 = Some (g0 :: gs0) /\ g_union X g0 (union_args X D1 l) = Some true.
  Proof.
    intros D0 D1 cor; induction cor as [|[d0 l] cor IH].
    - split; [intros _ d0 l []|reflexivity].
    - cbn [check_complete]. split.
      + intros H. destruct (dget D0 d0) as [[|g0 gs0]|] eqn:E; [discriminate| |discriminate].
        destruct (g_union X g0 (union_args X D1 l)) as [[|]|] eqn:E'; [|discriminate|discriminate].
        intros d l' [H'|H']; [injection H' as <- <-; exists g0, gs0; auto|]. exact (proj1 IH H d l' H').
      + intros H. destruct (H d0 l (or_introl eq_refl)) as (g0 & gs0 & E1 & E2). rewrite E1, E2. apply IH.
        intros d l' H'. exact (H d l' (or_intror H')).
  Qed.

  Section Of.
    Variables (ranks0 ranks1 : list (list (nat * G))).
    Let D0 := gather0 X (map (rank_geos X) ranks0).
    Let D1 := gather1 X (map (rank_geos X) ranks1).

    Lemma D0_nodup : NoDup (map fst D0).  Proof. exact (proj1 (coll0 ranks0)). Qed.
    Lemma D1_nodup : NoDup (map fst D1).  Proof. exact (proj1 (coll1 ranks1)). Qed.
    Lemma D1_ne : forall e, In e D1 -> snd e <> [].
    Proof.
      intros [d gs] H. cbn [snd]. apply (proj1 (proj2 (coll1 ranks1)) d gs).
      apply dget_some_in; [exact D1_nodup|exact H].
    Qed.
    Lemma D0_lies : forall d gs g, dget D0 d = Some gs -> In g gs -> lies ranks0 d g.
    Proof. intros d gs g H. exact (proj2 (proj1 (proj2 (coll0 ranks0)) d gs H) g). Qed.
    Lemma D0_nonempty : forall d gs, dget D0 d = Some gs -> gs <> [].
    Proof. intros d gs H. exact (proj1 (proj1 (proj2 (coll0 ranks0)) d gs H)). Qed.
    Lemma D1_nonempty : forall d gs, dget D1 d = Some gs -> gs <> [].
    Proof. intros d gs H. exact (proj1 (proj1 (proj2 (coll1 ranks1)) d gs H)). Qed.
    Lemma D1_lies : forall d gs g, dget D1 d = Some gs -> In g gs -> lies ranks1 d g.
    Proof. intros d gs g H. exact (proj2 (proj1 (proj2 (coll1 ranks1)) d gs H) g). Qed.
    Lemma D0_rep : forall d g, lies ranks0 d g -> exists gs g', dget D0 d = Some gs /\ In g' gs /\ chain (lies ranks0 d) g g'.
    Proof. exact (proj2 (proj2 (coll0 ranks0))). Qed.
    Lemma D1_rep : forall d g, lies ranks1 d g -> exists gs g', dget D1 d = Some gs /\ In g' gs /\ chain (lies ranks1 d) g g'.
    Proof. exact (proj2 (proj2 (coll1 ranks1))). Qed.

    Lemma some_part_sound : forall d0 gs0 d1 gs1, dget D0 d0 = Some gs0 -> dget D1 d1 = Some gs1 ->
      some_part X gs0 gs1 = true -> part_of X ranks0 ranks1 d0 d1.
    Proof.
      intros d0 gs0 d1 gs1 E0 E1 H. unfold some_part in H. apply existsb_exists in H. destruct H as (g1 & H1 & H).
      unfold geo_part in H. apply existsb_exists in H. destruct H as (g0 & H0 & H).
      exists g0, g1. split; [exact (D0_lies d0 gs0 g0 E0 H0)|]. split; [exact (D1_lies d1 gs1 g1 E1 H1)|exact H].
    Qed.

    Lemma chain_left : forall d g g' h e, coherent X ranks0 ranks1 -> lies ranks0 d g -> lies ranks1 e h -> chain (lies ranks0 d) g g' ->
      g_contain X g h = g_contain X g' h.
    Proof.
      intros d g g' h e (C1 & _) Hg Hh H. revert Hg. induction H as [|g k k' Hk E H IH]; intros Hg; [reflexivity|].
      rewrite (C1 d g k h e Hg Hk Hh E). exact (IH Hk).
    Qed.
    Lemma chain_right : forall d g h h' e, coherent X ranks0 ranks1 -> lies ranks0 d g -> lies ranks1 e h -> chain (lies ranks1 e) h h' ->
      g_contain X g h = g_contain X g h'.
    Proof.
      intros d g h h' e (_ & C2) Hg Hh H. revert Hh. induction H as [|h k k' Hk E H IH]; intros Hh; [reflexivity|].
      rewrite (C2 d g h k e Hg Hh Hk E). exact (IH Hk).
    Qed.

    Lemma chain_lies : forall ranks d g g', lies ranks d g -> chain (lies ranks d) g g' -> lies ranks d g'.
    Proof. intros ranks d g g' H C. induction C; auto. Qed.

    Lemma some_part_complete : forall d0 d1, coherent X ranks0 ranks1 -> part_of X ranks0 ranks1 d0 d1 ->
      exists gs0 gs1, dget D0 d0 = Some gs0 /\ dget D1 d1 = Some gs1 /\ some_part X gs0 gs1 = true.
    Proof.
      intros d0 d1 C (g0 & g1 & L0 & L1 & H).
      destruct (D0_rep d0 g0 L0) as (gs0 & h0 & E0 & I0 & C0). destruct (D1_rep d1 g1 L1) as (gs1 & h1 & E1 & I1 & C1).
      exists gs0, gs1. split; [exact E0|]. split; [exact E1|].
      apply existsb_exists. exists h1. split; [exact I1|]. apply existsb_exists. exists h0. split; [exact I0|].
      rewrite <- (chain_right d0 h0 g1 h1 d1 C (D0_lies _ _ _ E0 I0) L1 C1), <- (chain_left d0 g0 h0 g1 d1 C L0 L1 C0). exact H.
    Qed.

    Theorem cor_sound : forall c cor d0 d1, keyok -> computer X ranks0 ranks1 = Some (c, cor) ->
      listed cor d0 d1 -> part_of X ranks0 ranks1 d0 d1.
    Proof.
      intros c cor d0 d1 OK H (l & L1 & L2). unfold computer in H. fold D0 D1 in H.
      pose proof (sinv_all D0 D1 OK D0_nodup D1_nodup D1_ne) as I. destruct (find_all X D0 D1) as [[cor' rest] possible].
      assert (cor' = cor) as ->. { destruct possible; [destruct (check_complete X D0 D1 cor')|]; congruence. }
      destruct I as (_ & _ & I3 & _). destruct (I3 d0 l L1) as (_ & gs0 & I0 & P). destruct (P d1 L2) as (gs1 & E1 & S).
      exact (some_part_sound d0 gs0 d1 gs1 (dget_some_in _ _ _ D0_nodup I0) E1 S).
    Qed.

    Theorem cor_once : forall c cor, keyok -> computer X ranks0 ranks1 = Some (c, cor) ->
      NoDup (map fst cor) /\ NoDup (concat (map snd cor)) /\ forall d0 l, In (d0, l) cor -> l <> [].
    Proof.
      intros c cor OK H. unfold computer in H. fold D0 D1 in H.
      pose proof (sinv_all D0 D1 OK D0_nodup D1_nodup D1_ne) as I. destruct (find_all X D0 D1) as [[cor' rest] possible].
      assert (cor' = cor) as ->. { destruct possible; [destruct (check_complete X D0 D1 cor')|]; congruence. }
      destruct I as (_ & _ & I3 & I4 & (p & I5) & _). split.
      - rewrite I5. pose proof D0_nodup as N. clear -N. induction D0 as [|e D IH]; [constructor|]. inversion N; subst. cbn [filter].
        destruct (p e); [|exact (IH H2)]. cbn [map]. constructor; [|exact (IH H2)].
        intros H. apply H1. apply in_map_iff in H. destruct H as (y & <- & Hy). apply filter_In in Hy. apply in_map; exact (proj1 Hy).
      - split; [exact I4|]. intros d0 l Hl. exact (proj1 (I3 d0 l Hl)).
    Qed.

    Lemma listed_one : forall cor d0 d0' d1, NoDup (concat (map snd cor)) -> listed cor d0 d1 -> listed cor d0' d1 -> d0 = d0'.
    Proof.
      intros cor d0 d0' d1; induction cor as [|[d l] cor IH]; intros N (l0 & H1 & H2) (l1 & H3 & H4); [destruct H1|].
      cbn [map snd concat] in N.
      assert (DIS : forall x, In x l -> ~ In x (concat (map snd cor))).
      { clear -N. intros x Hx H. apply in_split in Hx. destruct Hx as (a & b & ->). rewrite <- app_assoc in N. cbn [app] in N.
        apply NoDup_remove_2 in N. apply N. rewrite app_assoc. apply in_or_app; right; exact H. }
      assert (NT : NoDup (concat (map snd cor))). { clear -N. induction l; [exact N|]. inversion N; subst; auto. }
      assert (INC : forall d l x, In (d, l) cor -> In x l -> In x (concat (map snd cor))).
      { intros d' l' x Hd Hx. apply in_concat. exists l'. split; [exact (in_map snd _ _ Hd)|exact Hx]. }
      destruct H1 as [H1|H1], H3 as [H3|H3].
      - congruence.
      - injection H1 as <- <-. exfalso. exact (DIS d1 H2 (INC _ _ _ H3 H4)).
      - injection H3 as <- <-. exfalso. exact (DIS d1 H4 (INC _ _ _ H1 H2)).
      - apply IH; [exact NT|exists l0; auto|exists l1; auto].
    Qed.

    Theorem cor_some : forall c cor d0 d1, keyok -> coherent X ranks0 ranks1 -> computer X ranks0 ranks1 = Some (c, cor) ->
      part_of X ranks0 ranks1 d0 d1 -> keys_agree X ranks0 ranks1 d0 d1 -> exists d0', listed cor d0' d1.
    Proof.
      intros c cor d0 d1 OK C H P KA. unfold computer in H. fold D0 D1 in H.
      pose proof (sinv_all D0 D1 OK D0_nodup D1_nodup D1_ne) as I. destruct (find_all X D0 D1) as [[cor' rest] possible].
      assert (cor' = cor) as ->. { destruct possible; [destruct (check_complete X D0 D1 cor')|]; congruence. }
      destruct I as (_ & _ & _ & _ & _ & I6 & _).
      destruct (some_part_complete d0 d1 C P) as (gs0 & gs1 & E0 & E1 & S).
      apply taken_listed. apply (I6 d0 gs0 d1 gs1 (dget_in _ _ _ E0) E1 S).
      unfold in_range. destruct (g_key X) as [f|] eqn:Ef; [|exact Logic.I].
      destruct gs0 as [|g0 gs0]; [exact Logic.I|]. destruct gs1 as [|g1 gs1]; [exfalso; exact (D1_nonempty d1 [] E1 eq_refl)|].
      exists g1, gs1. split; [exact E1|]. apply (KA f Ef).
      - exact (D0_lies d0 _ g0 E0 (or_introl eq_refl)).
      - exact (D1_lies d1 _ g1 E1 (or_introl eq_refl)).
    Qed.

    Theorem cor_iff : forall c cor, keyok -> coherent X ranks0 ranks1 ->
      (forall d0 d1, part_of X ranks0 ranks1 d0 d1 -> keys_agree X ranks0 ranks1 d0 d1) ->
      (forall d0 d0' d1, part_of X ranks0 ranks1 d0 d1 -> part_of X ranks0 ranks1 d0' d1 -> d0 = d0') ->
      computer X ranks0 ranks1 = Some (c, cor) -> forall d0 d1, listed cor d0 d1 <-> part_of X ranks0 ranks1 d0 d1.
    Proof.
      intros c cor OK C KA U H d0 d1. split; [exact (cor_sound c cor d0 d1 OK H)|]. intros P.
      destruct (cor_some c cor d0 d1 OK C H P (KA d0 d1 P)) as (d0' & L).
      rewrite (U d0 d0' d1 P (cor_sound c cor d0' d1 OK H L)). exact L.
    Qed.

    (** ** completeness *)
    Lemma union_args_in : forall l g, In g (union_args X D1 l) -> exists d1, In d1 l /\ lies ranks1 d1 g.
    Proof.
      intros l. unfold union_args.
      assert (A : forall gs acc g, In g (fold_left (add_geo X) gs acc) -> In g acc \/ In g gs).
      { clear. induction gs as [|x gs IH]; intros acc g H; [left; exact H|]. cbn [fold_left] in H. apply IH in H.
        destruct H as [H|H]; [|right; right; exact H]. unfold add_geo in H. destruct (geo_in X x acc); [left; exact H|].
        apply in_app_or in H. destruct H as [H|[H|[]]]; [left; exact H|right; left; exact H]. }
      assert (B : forall l acc g, In g (fold_left (fun acc dof1 => fold_left (add_geo X) (match dget D1 dof1 with Some gs => gs | None => [] end) acc) l acc) ->
        In g acc \/ exists d1, In d1 l /\ lies ranks1 d1 g).
      { clear l. induction l as [|d l IH]; intros acc g H; [left; exact H|]. cbn [fold_left] in H. apply IH in H.
        destruct H as [H|(d1 & H1 & H2)]; [|right; exists d1; split; [right; exact H1|exact H2]].
        apply A in H. destruct H as [H|H]; [left; exact H|right]. destruct (dget D1 d) as [gs|] eqn:E; [|destruct H].
        exists d. split; [left; reflexivity|]. exact (D1_lies d gs g E H). }
      intros g H. destruct (B l [] g H) as [[]|H']; exact H'.
    Qed.

    Lemma union_args_rep : forall l d1 g, In d1 l -> lies ranks1 d1 g ->
      exists g' g'', chain (lies ranks1 d1) g g' /\ In g'' (union_args X D1 l) /\ (g' = g'' \/ g_eq X g' g'' = true).
    Proof.
      intros l. unfold union_args.
      assert (S : forall gs acc g, In g acc -> In g (fold_left (add_geo X) gs acc)).
      { clear. induction gs as [|x gs IH]; intros acc g H; [exact H|]. cbn [fold_left]. apply IH. unfold add_geo.
        destruct (geo_in X x acc); [exact H|apply in_or_app; left; exact H]. }
      assert (A : forall gs acc g, In g gs -> exists g'', In g'' (fold_left (add_geo X) gs acc) /\ (g = g'' \/ g_eq X g g'' = true)).
      { clear -S. induction gs as [|x gs IH]; intros acc g H; [destruct H|]. cbn [fold_left]. destruct H as [->|H]; [|apply IH; exact H].
        unfold add_geo at 2. destruct (geo_in X g acc) eqn:E.
        - apply existsb_exists in E. destruct E as (y & Hy & E). exists y. split; [apply S; exact Hy|right; exact E].
        - exists g. split; [apply S, in_or_app; right; left; reflexivity|left; reflexivity]. }
      assert (S2 : forall l acc g, In g acc -> In g (fold_left (fun acc dof1 => fold_left (add_geo X) (match dget D1 dof1 with Some gs => gs | None => [] end) acc) l acc)).
      { clear -S. induction l as [|d l IH]; intros acc g H; [exact H|]. cbn [fold_left]. apply IH, S, H. }
      assert (GEN : forall l acc d1 g, In d1 l -> lies ranks1 d1 g ->
        exists g' g'', chain (lies ranks1 d1) g g' /\ In g'' (fold_left (fun acc dof1 => fold_left (add_geo X) (match dget D1 dof1 with Some gs => gs | None => [] end) acc) l acc) /\ (g' = g'' \/ g_eq X g' g'' = true)); [|apply GEN].
      clear l. induction l as [|d l IH]; intros acc d1 g H L; [destruct H|]. cbn [fold_left]. destruct H as [H|H]; [|apply IH; assumption].
      subst d1. destruct (D1_rep d g L) as (gs & g' & E & I & C). rewrite E.
      destruct (A gs acc g' I) as (g'' & H1 & H2). exists g', g''. split; [exact C|]. split; [apply S2; exact H1|exact H2].
    Qed.

    Lemma union_args_apart : forall l, ForallOrdPairs (fun x y => g_eq X y x = false) (union_args X D1 l).
    Proof.
      intros l. unfold union_args.
      assert (A1 : forall g acc, ForallOrdPairs (fun x y => g_eq X y x = false) acc -> (forall x, In x acc -> g_eq X g x = false) ->
        ForallOrdPairs (fun x y => g_eq X y x = false) (acc ++ [g])).
      { intros g acc F; induction F as [|x acc Hx F IH]; intros H; [constructor; constructor|]. cbn [app]. constructor.
        - apply Forall_app. split; [exact Hx|]. constructor; [apply H; left; reflexivity|constructor].
        - apply IH. intros y Hy; apply H; right; exact Hy. }
      assert (A : forall gs acc, ForallOrdPairs (fun x y => g_eq X y x = false) acc -> ForallOrdPairs (fun x y => g_eq X y x = false) (fold_left (add_geo X) gs acc)).
      { induction gs as [|x gs IH]; intros acc F; [exact F|]. cbn [fold_left]. apply IH. unfold add_geo.
        destruct (geo_in X x acc) eqn:E; [exact F|]. apply A1; [exact F|]. intros y Hy.
        destruct (g_eq X x y) eqn:E'; [|reflexivity]. unfold geo_in in E. exfalso.
        assert (T : existsb (fun GEO => g_eq X x GEO) acc = true) by (apply existsb_exists; exists y; auto). congruence. }
      assert (F0 : ForallOrdPairs (fun x y => g_eq X y x = false) (@nil G)) by constructor. 
      assert (GEN : forall l acc, ForallOrdPairs (fun x y => g_eq X y x = false) acc -> ForallOrdPairs (fun x y => g_eq X y x = false) (fold_left (fun acc dof1 => fold_left (add_geo X) (match dget D1 dof1 with Some gs => gs | None => [] end) acc) l acc)); [|apply GEN; exact F0].
      clear l. induction l as [|d l IH]; intros acc F; [exact F|]. cbn [fold_left]. apply IH, A, F.
    Qed.

    Lemma computer_true : forall cor, keyok -> computer X ranks0 ranks1 = Some (true, cor) ->
      (forall d0 g, lies ranks0 d0 g -> In d0 (map fst cor)) /\
      (forall d0 l, In (d0, l) cor -> exists g0 gs0, dget D0 d0 = Some (g0 :: gs0) /\ g_union X g0 (union_args X D1 l) = Some true).
    Proof.
      intros cor OK H. unfold computer in H. fold D0 D1 in H.
      pose proof (sinv_all D0 D1 OK D0_nodup D1_nodup D1_ne) as I. destruct (find_all X D0 D1) as [[cor' rest] possible].
      destruct possible; [|discriminate]. destruct (check_complete X D0 D1 cor') as [c|] eqn:E; [|discriminate]. injection H as -> ->.
      destruct I as (_ & _ & _ & _ & _ & _ & I7). split.
      - intros d0 g L. apply (proj1 I7 eq_refl). destruct (D0_rep d0 g L) as (gs & g' & E0 & _). apply dget_key. congruence.
      - apply check_complete_true. exact E.
    Qed.

    Lemma computer_false : forall cor, keyok -> computer X ranks0 ranks1 = Some (false, cor) ->
      (exists d0 g, lies ranks0 d0 g /\ ~ In d0 (map fst cor)) \/
      (exists d0 l g0 gs0, In (d0, l) cor /\ dget D0 d0 = Some (g0 :: gs0) /\ g_union X g0 (union_args X D1 l) = Some false).
    Proof.
      intros cor OK H. unfold computer in H. fold D0 D1 in H.
      pose proof (sinv_all D0 D1 OK D0_nodup D1_nodup D1_ne) as I. destruct (find_all X D0 D1) as [[cor' rest] possible].
      destruct I as (_ & _ & _ & _ & _ & _ & I7). destruct possible.
      - destruct (check_complete X D0 D1 cor') as [c|] eqn:E; [|discriminate]. injection H as -> ->. right.
        clear I7. induction cor as [|[d0 l] cor IH]; [discriminate|]. cbn [check_complete] in E.
        destruct (dget D0 d0) as [[|g0 gs0]|] eqn:E0; [discriminate| |discriminate].
        destruct (g_union X g0 (union_args X D1 l)) as [[|]|] eqn:E1; [| |discriminate].
        + destruct (IH E) as (d & l' & g & gs & H1 & H2). exists d, l', g, gs. split; [right; exact H1|exact H2].
        + exists d0, l, g0, gs0. split; [left; reflexivity|]. split; assumption.
      - injection H as ->. left.
        destruct (forallb (fun d => existsb (Nat.eqb d) (map fst cor)) (map fst D0)) eqn:E.
        + exfalso. rewrite forallb_forall in E. assert (T : false = true); [|discriminate T]. apply I7. intros d Hd.
          specialize (E d Hd). apply existsb_exists in E. destruct E as (y & Hy & Ey). apply Nat.eqb_eq in Ey; subst; exact Hy.
        + assert (N : exists d, In d (map fst D0) /\ existsb (Nat.eqb d) (map fst cor) = false).
          { clear -E. induction (map fst D0) as [|d L IH]; [discriminate|]. cbn [forallb] in E.
            destruct (existsb (Nat.eqb d) (map fst cor)) eqn:E'; [|exists d; split; [left; reflexivity|exact E']].
            destruct (IH E) as (d' & H1 & H2). exists d'. split; [right; exact H1|exact H2]. }
          destruct N as (d & Hd & E'). apply dget_key in Hd. destruct (dget D0 d) as [[|g gs]|] eqn:E0; [|  |congruence].
          { exfalso. exact (D0_nonempty d [] E0 eq_refl). }
          exists d, g. split; [exact (D0_lies d _ g E0 (or_introl eq_refl))|]. intros B.
          assert (T : existsb (Nat.eqb d) (map fst cor) = true) by (apply existsb_exists; exists d; split; [exact B|apply Nat.eqb_refl]). congruence.
    Qed.

    Theorem cor_complete : forall cor, keyok -> computer X ranks0 ranks1 = Some (true, cor) ->
      (forall d0 g, lies ranks0 d0 g -> exists l, In (d0, l) cor) /\
      (forall d0 l, In (d0, l) cor -> exists g0 gs, lies ranks0 d0 g0 /\ g_union X g0 gs = Some true /\
         forall g, In g gs -> exists d1, In d1 l /\ lies ranks1 d1 g).
    Proof.
      intros cor OK H. destruct (computer_true cor OK H) as (A & B). split.
      - intros d0 g L. specialize (A d0 g L). apply in_map_iff in A. destruct A as ([d l] & E & Hl). cbn [fst] in E; subst d. exists l; exact Hl.
      - intros d0 l Hl. destruct (B d0 l Hl) as (g0 & gs0 & E0 & U). exists g0, (union_args X D1 l).
        split; [exact (D0_lies d0 _ g0 E0 (or_introl eq_refl))|]. split; [exact U|]. apply union_args_in.
    Qed.
  End Of.

  (** ** the part of a rank *)
  Lemma rank_has : forall l d, (exists gs, dget (rank_geos X l) d = Some gs) <-> exists g, In (d, g) l.
  Proof.
    intros l d. destruct (coll_rank (fun d g => In (d, g) l) l (fun d g H => H)) as (_ & B & C). split.
    - intros (gs & E). destruct (B d gs E) as (N & I). destruct gs as [|g gs]; [congruence|]. exists g. apply I; left; reflexivity.
    - intros (g & H). destruct (C d g H) as (gs & g' & E & _). exists gs; exact E.
  Qed.

  Lemma rank_hasb : forall l d, match dget (rank_geos X l) d with Some _ => true | None => false end = true <-> exists g, In (d, g) l.
  Proof.
    intros l d. rewrite <- rank_has. destruct (dget (rank_geos X l) d) as [gs|].
    - split; [intros _; exists gs; reflexivity|reflexivity].
    - split; [discriminate|intros (gs & H); discriminate].
  Qed.

  Theorem rank_part_some : forall own0 own1 cor m, rank_part X own0 own1 cor = Some m ->
    (forall d0 l, In (d0, l) m <-> In (d0, l) cor /\ exists g, In (d0, g) own0) /\
    (forall d0 l d1, In (d0, l) m -> In d1 l -> exists g, In (d1, g) own1).
  Proof.
    intros own0 own1 cor m H. unfold rank_part in H.
    match type of H with (if ?c then _ else _) = _ => destruct c eqn:E; [|discriminate] end. injection H as <-. split.
    - intros d0 l. rewrite filter_In. cbn [fst]. rewrite rank_hasb. reflexivity.
    - intros d0 l d1 Hm Hl. rewrite forallb_forall in E. specialize (E _ Hm). cbn [snd] in E. rewrite forallb_forall in E.
      apply rank_hasb. exact (E d1 Hl).
  Qed.

  Theorem rank_part_none : forall own0 own1 cor, rank_part X own0 own1 cor = None <->
    exists d0 l d1, In (d0, l) cor /\ (exists g, In (d0, g) own0) /\ In d1 l /\ ~ exists g, In (d1, g) own1.
  Proof.
    intros own0 own1 cor. unfold rank_part.
    set (mine := filter _ cor).
    match goal with |- (if ?c then _ else _) = _ <-> _ => destruct c eqn:E end.
    - split; [discriminate|]. intros (d0 & l & d1 & H1 & H2 & H3 & H4). exfalso. apply H4. apply rank_hasb.
      rewrite forallb_forall in E. assert (M : In (d0, l) mine) by (apply filter_In; split; [exact H1|apply rank_hasb; exact H2]).
      specialize (E _ M). cbn [snd] in E. rewrite forallb_forall in E. exact (E d1 H3).
    - split; [intros _|reflexivity].
      assert (NF : forall {T} (f : T -> bool) l, forallb f l = false -> exists x, In x l /\ f x = false).
      { clear. intros T f l; induction l as [|x l IH]; [discriminate|]. cbn [forallb]. destruct (f x) eqn:E.
        - intros H. destruct (IH H) as (y & H1 & H2). exists y; split; [right; exact H1|exact H2].
        - intros _. exists x. split; [left; reflexivity|exact E]. }
      destruct (NF _ _ _ E) as ([d0 l] & M & F). destruct (NF _ _ _ F) as (d1 & M1 & F1). cbn [snd] in M1.
      apply filter_In in M. destruct M as (M0 & M2). cbn [fst] in M2. apply rank_hasb in M2.
      exists d0, l, d1. split; [exact M0|]. split; [exact M2|]. split; [exact M1|]. intros B. apply rank_hasb in B. congruence.
  Qed.
End Proofs.

Lemma part_of_ext : forall {G K} (X : geometry G K) ranks0 ranks1 ranks0' ranks1' d0 d1,
  (forall d g, lies ranks0 d g <-> lies ranks0' d g) -> (forall d g, lies ranks1 d g <-> lies ranks1' d g) ->
  (part_of X ranks0 ranks1 d0 d1 <-> part_of X ranks0' ranks1' d0 d1).
Proof.
  intros G K X ranks0 ranks1 ranks0' ranks1' d0 d1 E0 E1. split; intros (g0 & g1 & L0 & L1 & H); exists g0, g1;
    (split; [apply E0; exact L0|split; [apply E1; exact L1|exact H]]).
Qed.

Theorem cor_ranks : forall {G K} (X : geometry G K) ranks0 ranks1 ranks0' ranks1' c cor c' cor', keyok X ->
  (forall d g, lies ranks0 d g <-> lies ranks0' d g) -> (forall d g, lies ranks1 d g <-> lies ranks1' d g) ->
  coherent X ranks0 ranks1 ->
  (forall d0 d1, part_of X ranks0 ranks1 d0 d1 -> keys_agree X ranks0 ranks1 d0 d1) ->
  (forall d0 d0' d1, part_of X ranks0 ranks1 d0 d1 -> part_of X ranks0 ranks1 d0' d1 -> d0 = d0') ->
  computer X ranks0 ranks1 = Some (c, cor) -> computer X ranks0' ranks1' = Some (c', cor') ->
  forall d0 d1, listed cor d0 d1 <-> listed cor' d0 d1.
Proof.
  intros G K X ranks0 ranks1 ranks0' ranks1' c cor c' cor' OK E0 E1 C KA U H H' d0 d1.
  rewrite (cor_iff X ranks0 ranks1 c cor OK C KA U H d0 d1), (part_of_ext X ranks0 ranks1 ranks0' ranks1' d0 d1 E0 E1).
  symmetry. apply (cor_iff X ranks0' ranks1' c' cor' OK); [| | |exact H'].
  - destruct C as (C1 & C2). split.
    + intros d g g' h e L L' Lh. apply (C1 d g g' h e); [apply E0; exact L|apply E0; exact L'|apply E1; exact Lh].
    + intros d g h h' e L Lh Lh'. apply (C2 d g h h' e); [apply E0; exact L|apply E1; exact Lh|apply E1; exact Lh'].
  - intros e0 e1 P f Hf g0 g1 L0 L1.
    apply (KA e0 e1 (proj2 (part_of_ext X _ _ _ _ e0 e1 E0 E1) P) f Hf g0 g1); [apply E0; exact L0|apply E1; exact L1].
  - intros e0 e0' e1 P P'. apply (U e0 e0' e1); apply (part_of_ext X _ _ _ _ _ e1 E0 E1); assumption.
Qed.

Theorem rank_parts_all : forall {G K} (X : geometry G K) ranks0 ranks1 c cor d0 l, keyok X ->
  computer X ranks0 ranks1 = Some (c, cor) -> In (d0, l) cor ->
  exists own0, In own0 ranks0 /\ forall own1 m, rank_part X own0 own1 cor = Some m -> In (d0, l) m.
Proof.
  intros G K X ranks0 ranks1 c cor d0 l OK H Hl.
  destruct (cor_once X ranks0 ranks1 c cor OK H) as (_ & _ & NE). specialize (NE d0 l Hl). destruct l as [|d1 l]; [congruence|].
  destruct (cor_sound X ranks0 ranks1 c cor d0 d1 OK H) as (g0 & g1 & (own0 & H1 & H2) & _).
  { exists (d1 :: l). split; [exact Hl|left; reflexivity]. }
  exists own0. split; [exact H1|]. intros own1 m Hm. apply (proj1 (rank_part_some X own0 own1 cor m Hm)). split; [exact Hl|exists g0; exact H2].
Qed.
