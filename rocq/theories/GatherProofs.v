From Coq Require Import Arith List ZArith Bool Lia.
From Verif Require Import NdArray IncidenceModel GatherCore GatherModel.
Import ListNotations.

Lemma slot_eqb_eq a b : slot_eqb a b = true <-> a = b.
Proof.
  revert b; induction a as [|x a IH]; intros [|y b]; simpl; split; try discriminate; auto.
  - intros H. apply andb_prop in H as [H1 H2]. apply Nat.eqb_eq in H1. apply IH in H2. congruence.
  - intros [= -> ->]. rewrite Nat.eqb_refl. now apply IH.
Qed.

Lemma look_write d w e avs x :
  (fst x = e /\ exists v, In (snd x, v) avs /\ look d (write w e avs) (fst x) (snd x) = v) \/
  (look d (write w e avs) (fst x) (snd x) = look d w (fst x) (snd x) /\ (fst x = e -> ~ In (snd x) (map fst avs))).
Proof.
  destruct x as [ex ax]. simpl. unfold write. induction avs as [|[a v] avs IH]; simpl.
  - right. auto.
  - destruct ((ex =? e) && slot_eqb ax a) eqn:E.
    + apply andb_prop in E as [E1 E2]. apply Nat.eqb_eq in E1. apply slot_eqb_eq in E2. subst. left. eauto.
    + destruct IH as [(H1 & v' & H2 & H3)|(H1 & H2)].
      * left. split; auto. exists v'. auto.
      * right. split; auto. intros -> [->|H]; [|apply H2; auto].
        rewrite Nat.eqb_refl in E. simpl in E. assert (slot_eqb ax ax = true) by now apply slot_eqb_eq. congruence.
Qed.

Lemma in_combine_nth {A B} (l : list A) (s : list B) a b :
  In (a, b) (combine l s) <-> exists i, nth_error l i = Some a /\ nth_error s i = Some b.
Proof.
  revert s; induction l as [|x l IH]; intros [|y s]; simpl.
  - split; [tauto|]. intros ([|] & H & _); discriminate.
  - split; [tauto|]. intros ([|] & H & _); discriminate.
  - split; [tauto|]. intros ([|] & _ & H); discriminate.
  - rewrite IH. split.
    + intros [[= -> ->]|(i & H)]; [exists 0; auto|exists (S i); auto].
    + intros ([|i] & H1 & H2); simpl in *; [left; congruence|right; eauto].
Qed.

Lemma nth_error_seq s n i : nth_error (seq s n) i = if i <? n then Some (s + i) else None.
Proof.
  revert s i; induction n as [|n IH]; intros s [|i]; cbn [seq nth_error]; auto.
  - simpl. f_equal. lia.
  - rewrite IH. destruct (Nat.ltb_spec i n), (Nat.ltb_spec (S i) (S n)); try lia; auto. f_equal. lia.
Qed.

Lemma in_fresh l cur a v : In (a, v) (fresh l cur) <-> exists i, nth_error l i = Some a /\ v = Z.of_nat (cur + i).
Proof.
  unfold fresh. rewrite in_combine_nth. split.
  - intros (i & H1 & H2). exists i. split; auto. rewrite nth_error_map, nth_error_seq in H2.
    destruct (i <? length l); [|discriminate]. simpl in H2. congruence.
  - intros (i & H1 & ->). exists i. split; auto. rewrite nth_error_map, nth_error_seq.
    assert (i < length l) as H by (apply nth_error_Some; congruence). apply Nat.ltb_lt in H. now rewrite H.
Qed.
Lemma map_fst_fresh l cur : map fst (fresh l cur) = l.
Proof.
  unfold fresh. revert cur; induction l as [|a l IH]; intros cur; simpl; auto. f_equal. apply IH.
Qed.

Lemma look_writes d bs cur att : forall w x,
  (exists eg i, In eg att /\ fst x = fst eg /\ nth_error (bs (snd eg)) i = Some (snd x) /\
     look d (fold_left (fun w (eg : nat * nat) => write w (fst eg) (fresh (bs (snd eg)) cur)) att w) (fst x) (snd x) = Z.of_nat (cur + i)) \/
  (look d (fold_left (fun w (eg : nat * nat) => write w (fst eg) (fresh (bs (snd eg)) cur)) att w) (fst x) (snd x) = look d w (fst x) (snd x) /\
   forall eg, In eg att -> fst x = fst eg -> ~ In (snd x) (bs (snd eg))).
Proof.
  induction att as [|eg att IH]; intros w x; simpl.
  - right. split; auto.
  - destruct (IH (write w (fst eg) (fresh (bs (snd eg)) cur)) x) as [(eg' & i & H1 & H2 & H3 & H4)|(H1 & H2)].
    + left. exists eg', i. auto.
    + rewrite H1. destruct (look_write d w (fst eg) (fresh (bs (snd eg)) cur) x) as [(H3 & v & H4 & H5)|(H3 & H4)].
      * left. apply in_fresh in H4 as (i & H4 & ->). exists eg, i. auto.
      * right. split; auto. rewrite map_fst_fresh in H4. intros eg' [<-|H]; auto.
Qed.

Lemma flat_map_unique {A B} (f : A -> list B) l t t' i j a :
  NoDup (flat_map f l) -> In t l -> In t' l -> nth_error (f t) i = Some a -> nth_error (f t') j = Some a -> t = t' /\ i = j.
Proof.
  induction l as [|x l IH]; simpl; intros Hnd Ht Ht' Hi Hj; [tauto|].
  assert (Hnd2 : NoDup (flat_map f l) /\ NoDup (f x) /\ forall b, In b (f x) -> ~ In b (flat_map f l)).
  { clear - Hnd. induction (f x) as [|b bs IHb]; simpl in *.
    - split; auto. split; [constructor|]. intros b [].
    - inversion Hnd; subst. destruct (IHb H2) as (U & V & W). split; auto. split.
      + constructor; auto. intros Hin. apply H1. apply in_or_app; auto.
      + intros c [->|Hc] Hc'; [apply H1; apply in_or_app; auto|eapply W; eauto]. }
  destruct Hnd2 as (H1 & H2 & H3).
  assert (forall t0 k, In t0 l -> nth_error (f t0) k = Some a -> In a (flat_map f l)) as Hfm.
  { intros t0 k Hin Hn. apply in_flat_map. exists t0. split; auto. eapply nth_error_In; eauto. }
  destruct Ht as [->|Ht], Ht' as [->|Ht'].
  - split; auto. apply (proj1 (NoDup_nth_error _) H2); [apply nth_error_Some|]; congruence.
  - exfalso. apply (H3 a); eauto using nth_error_In.
  - exfalso. apply (H3 a); eauto using nth_error_In.
  - auto.
Qed.

Definition is_group (t : task) : Prop := match t with Group _ => True | _ => False end.

Section Generic.
  Context {N : nat} {d : Z} {mp : nat -> nat -> option nat} {rule : nat -> option nat -> decision}
          {sl : nat -> list slot} {op : nat -> nat} {bs : nat -> list slot} {attach : nat -> nat -> list (nat * nat)}
          {ts : list task}.
  Definition slots_of (t : task) : list slot :=
    match t with Side s => sl s | Inner l => l | Group g => bs g end.

  Record loop_ok : Prop := {
    ok_nodup : NoDup (flat_map slots_of ts);
    ok_rule : forall e s, e < N -> In (Side s) ts ->
      match mp e s with
      | None => rule e None = New
      | Some m => (m < e -> rule e (Some m) = From m) /\ (e < m -> rule e (Some m) = New)
      end;
    ok_mp : forall e s m, e < N -> In (Side s) ts -> mp e s = Some m ->
      m < N /\ m <> e /\ In (Side (op s)) ts /\ mp m (op s) = Some e /\ op (op s) = s /\ length (sl (op s)) = length (sl s);
    ok_d : forall g, In (Group g) ts -> d = (-1)%Z;
    ok_att : forall e g, e < N -> In (Group g) ts ->
      In (e, g) (attach e g) /\
      forall e' g', In (e', g') (attach e g) -> e' < N /\ In (Group g') ts /\ length (bs g') = length (bs g) /\
        forall x, In x (attach e' g') <-> In x (attach e g) }.
  Context (OK : loop_ok).

  Definition pos := (nat * slot)%type.
  (** glued through a side *)
  Definition gl (x y : pos) : Prop := exists s i, fst x < N /\ In (Side s) ts /\ mp (fst x) s = Some (fst y) /\
    nth_error (sl s) i = Some (snd x) /\ nth_error (sl (op s)) i = Some (snd y).
  Definition gg (x y : pos) : Prop := exists g g' i, fst x < N /\ In (Group g) ts /\ In (fst y, g') (attach (fst x) g) /\
    nth_error (bs g) i = Some (snd x) /\ nth_error (bs g') i = Some (snd y).
  Definition eqv (x y : pos) : Prop := x = y \/ gl x y \/ gg x y.

  Lemma slot_unique t t' i j a : In t ts -> In t' ts -> nth_error (slots_of t) i = Some a ->
    nth_error (slots_of t') j = Some a -> t = t' /\ i = j.
  Proof. apply flat_map_unique, ok_nodup; auto. Qed.

  Lemma gl_sym x y : gl x y -> gl y x.
  Proof.
    intros (s & i & H1 & H2 & H3 & H4 & H5). destruct (ok_mp OK _ _ _ H1 H2 H3) as (A & B & C & D & E & F).
    exists (op s), i. rewrite E. auto.
  Qed.
  Lemma gg_sym x y : gg x y -> gg y x.
  Proof.
    intros (g & g' & i & H1 & H2 & H3 & H4 & H5). destruct (ok_att OK _ _ H1 H2) as (A & B).
    destruct (B _ _ H3) as (C & D & E & F). exists g', g, i. repeat split; auto. apply F. auto.
  Qed.
  Lemma eqv_sym x y : eqv x y -> eqv y x.
  Proof. intros [->|[H|H]]; [left; auto|right; left; now apply gl_sym|right; right; now apply gg_sym]. Qed.
  Lemma eqv_refl x : eqv x x.
  Proof. left. auto. Qed.
  Lemma gl_in x y : gl x y -> exists s s' i i', In (Side s) ts /\ In (Side s') ts /\
    nth_error (sl s) i = Some (snd x) /\ nth_error (sl s') i' = Some (snd y).
  Proof.
    intros (s & i & H1 & H2 & H3 & H4 & H5). destruct (ok_mp OK _ _ _ H1 H2 H3) as (A & B & C & _).
    exists s, (op s), i, i. auto.
  Qed.
  Lemma gg_in x y : gg x y -> exists s s' i i', In (Group s) ts /\ In (Group s') ts /\
    nth_error (bs s) i = Some (snd x) /\ nth_error (bs s') i' = Some (snd y).
  Proof.
    intros (g & g' & i & H1 & H2 & H3 & H4 & H5). destruct (ok_att OK _ _ H1 H2) as (A & B).
    destruct (B _ _ H3) as (C & D & _). exists g, g', i, i. auto.
  Qed.
  Lemma gl_gg x y z : gl x y -> gg y z -> False.
  Proof.
    intros H H'. apply gl_in in H as (s & s' & i & i' & A & B & C & D). apply gg_in in H' as (g & g' & j & j' & A' & B' & C' & D').
    destruct (slot_unique (Side s') (Group g) i' j (snd y)) as [E _]; auto. discriminate.
  Qed.
  Lemma eqv_trans x y z : eqv x y -> eqv y z -> eqv x z.
  Proof.
    intros [->|[H|H]]; auto.
    - intros [->|[H'|H']]; [right; left; auto| |exfalso; eapply gl_gg; eauto].
      destruct H as (s & i & H1 & H2 & H3 & H4 & H5). destruct (ok_mp OK _ _ _ H1 H2 H3) as (A & B & C & D & E & F).
      destruct H' as (s' & i' & H1' & H2' & H3' & H4' & H5').
      destruct (slot_unique (Side (op s)) (Side s') i i' (snd y)) as [[= <-] <-]; auto.
      rewrite E in H5'. left. destruct x as [ex ax], z as [ez az]; simpl in *. rewrite D in H3'. congruence.
    - intros [->|[H'|H']]; [right; right; auto| |].
      + exfalso. apply gl_sym in H'. apply gg_sym in H. eapply gl_gg; [|exact H].
        apply gl_sym in H'. destruct x as [ex ax]. 
        apply gl_sym. exact H'.
      + destruct H as (g & g' & i & H1 & H2 & H3 & H4 & H5). destruct (ok_att OK _ _ H1 H2) as (A & B).
        destruct (B _ _ H3) as (C & D & E & F).
        destruct H' as (k & k' & j & H1' & H2' & H3' & H4' & H5').
        destruct (slot_unique (Group g') (Group k) i j (snd y)) as [[= <-] <-]; auto.
        right. right. exists g, k', i. repeat split; auto. now apply F.
  Qed.

  Definition Dn (e : nat) (dn : list task) (x : pos) : Prop :=
    fst x < N /\
    ((exists g i, In (Group g) ts /\ nth_error (bs g) i = Some (snd x) /\
       exists e' g', In (e', g') (attach (fst x) g) /\ (e' < e \/ e' = e /\ In (Group g') dn)) \/
     (exists t i, ~ is_group t /\ In t ts /\ nth_error (slots_of t) i = Some (snd x) /\
       (fst x < e \/ fst x = e /\ In t dn))).

  Lemma not_in_done dn t todo i a : ts = dn ++ t :: todo -> nth_error (slots_of t) i = Some a -> In t dn -> False.
  Proof.
    intros E H Hin. pose proof (ok_nodup OK) as Hnd. rewrite E, flat_map_app in Hnd. simpl in Hnd.
    assert (In a (flat_map slots_of dn)) as H1 by (apply in_flat_map; exists t; split; auto; eapply nth_error_In; eauto).
    apply nth_error_In in H. clear - Hnd H H1.
    induction (flat_map slots_of dn) as [|b l IH]; simpl in *; [tauto|].
    inversion Hnd; subst. destruct H1 as [->|H1]; auto. apply H3. apply in_or_app. right. apply in_or_app. auto.
  Qed.

  Lemma nongroup_new e dn t todo i x : ts = dn ++ t :: todo -> ~ is_group t -> fst x = e ->
    nth_error (slots_of t) i = Some (snd x) -> ~ Dn e dn x.
  Proof.
    intros E Hg He Hi (Hx & H). assert (In t ts) as Ht by (rewrite E; apply in_or_app; simpl; auto).
    destruct H as [(g & j & Hgt & Hj & _)|(t' & j & Hn & Ht' & Hj & H)].
    - destruct (slot_unique t (Group g) i j (snd x)) as [-> _]; auto. apply Hg. exact I.
    - destruct (slot_unique t t' i j (snd x)) as [<- _]; auto. destruct H as [H|[_ H]]; [lia|].
      eapply not_in_done; eauto.
  Qed.

  Lemma nongroup_eqv t i x y : In t ts -> ~ is_group t -> nth_error (slots_of t) i = Some (snd x) -> eqv x y ->
    x = y \/ exists s, t = Side s /\ fst x < N /\ mp (fst x) s = Some (fst y) /\ nth_error (sl (op s)) i = Some (snd y).
  Proof.
    intros Ht Hg Hi [->|[H|H]]; auto.
    - destruct H as (s & j & H1 & H2 & H3 & H4 & H5). right. exists s.
      destruct (slot_unique t (Side s) i j (snd x)) as [-> ->]; auto.
    - apply gg_in in H as (g & g' & j & j' & A & B & C & D). exfalso.
      destruct (slot_unique t (Group g) i j (snd x)) as [-> _]; auto. apply Hg. exact I.
  Qed.

  (** numbering a block that belongs to the element alone or is met first *)
  Lemma fresh_step e dn t todo w cur : ts = dn ++ t :: todo -> e < N -> ~ is_group t ->
    (forall s m, t = Side s -> mp e s = Some m -> e < m) ->
    Inv eqv d (fun x => look d w (fst x) (snd x)) cur (Dn e dn) ->
    Inv eqv d (fun x => look d (write w e (fresh (slots_of t) cur)) (fst x) (snd x)) (cur + length (slots_of t)) (Dn e (dn ++ [t])).
  Proof.
    intros E He Hg Hs HI. assert (In t ts) as Ht by (rewrite E; apply in_or_app; simpl; auto).
    set (B := fun i (x : pos) => fst x = e /\ nth_error (slots_of t) i = Some (snd x)).
    eapply Inv_ext; [eapply (Inv_fresh eqv eqv_sym d _ cur (Dn e dn) (fun x => look d (write w e (fresh (slots_of t) cur)) (fst x) (snd x)) (length (slots_of t)) B HI)| |].
    - intros i x Hi [H1 H2]. eapply nongroup_new; eauto.
    - intros i Hi. apply nth_error_Some in Hi. destruct (nth_error (slots_of t) i) as [a|] eqn:Ei; [|congruence].
      exists (e, a). split; auto.
    - intros i [e1 a1] [e2 a2] Hi [H1 H2] [H3 H4]. simpl in *. left. congruence.
    - intros i j x y Hi Hj Hij [H1 H2] [H3 H4] Heq. destruct (nongroup_eqv t i x y Ht Hg H2 Heq) as [->|(s & -> & H5 & H6 & H7)].
      + apply Hij. eapply (slot_unique t t i j); eauto.
      + destruct (ok_mp OK _ _ _ H5 Ht H6) as (_ & Hne & _). congruence.
    - intros i x y Hi [H1 H2] HDy Heq. destruct (nongroup_eqv t i x y Ht Hg H2 Heq) as [->|(s & -> & H5 & H6 & H7)].
      + revert HDy. eapply nongroup_new; eauto.
      + destruct (ok_mp OK _ _ _ H5 Ht H6) as (A1 & A2 & A3 & A4 & A5 & A6). rewrite H1 in H6.
        pose proof (Hs s _ eq_refl H6) as Hlt. destruct HDy as (_ & [(g & j & Hgt & Hj & _)|(t' & j & Hn & Ht' & Hj & H)]).
        * destruct (slot_unique (Side (op s)) (Group g) i j (snd y)) as [? _]; auto. discriminate.
        * lia.
    - intros i x Hi [H1 H2].
      destruct (look_write d w e (fresh (slots_of t) cur) x) as [(H3 & v & H4 & ->)|(H3 & H4)].
      + apply in_fresh in H4 as (j & H4 & ->). do 2 f_equal. eapply (slot_unique t t j i); eauto.
      + exfalso. apply H4; auto. rewrite map_fst_fresh. eapply nth_error_In; eauto.
    - intros x. destruct (look_write d w e (fresh (slots_of t) cur) x) as [(H3 & v & H4 & H5)|(H3 & H4)]; auto.
      left. apply in_fresh in H4 as (j & H4 & _). exists j. split; [apply nth_error_Some; congruence|]. split; auto.
    - intros x. reflexivity.
    - intros x. unfold Dn. split.
      + intros (Hx & [(g & i & A1 & A2 & e' & g' & A3 & A4)|(t' & i & A1 & A2 & A3 & A4)]).
        * left. split; auto. left. exists g, i. split; auto. split; auto. exists e', g'. split; auto.
          destruct A4 as [A4|[A4 A5]]; auto. apply in_app_or in A5 as [A5|[->|[]]]; auto. exfalso. apply Hg. exact I.
        * destruct A4 as [A4|[A4 A5]].
          -- left. split; auto. right. exists t', i. repeat split; auto 6.
          -- apply in_app_or in A5 as [A5|[->|[]]].
             ++ left. split; auto. right. exists t', i. repeat split; auto 6.
             ++ right. exists i. split; [apply nth_error_Some; congruence|]. split; auto.
      + intros [(Hx & [(g & i & A1 & A2 & e' & g' & A3 & A4)|(t' & i & A1 & A2 & A3 & A4)])|(i & Hi & H1 & H2)].
        * split; auto. left. exists g, i. split; auto. split; auto. exists e', g'. split; auto.
          destruct A4 as [A4|[A4 A5]]; auto. right. split; auto. apply in_or_app; auto.
        * split; auto. right. exists t', i. repeat split; auto. destruct A4 as [A4|[A4 A5]]; auto. right. split; auto. apply in_or_app; auto.
        * split; [congruence|]. right. exists t, i. repeat split; auto. right. split; auto. apply in_or_app; simpl; auto.
  Qed.

  Lemma copy_step e dn s m todo w cur : ts = dn ++ Side s :: todo -> e < N -> mp e s = Some m -> m < e ->
    Inv eqv d (fun x => look d w (fst x) (snd x)) cur (Dn e dn) ->
    Inv eqv d (fun x => look d (write w e (combine (sl s) (map (look d w m) (sl (op s))))) (fst x) (snd x)) cur (Dn e (dn ++ [Side s])).
  Proof.
    intros E He Hm Hlt HI. assert (In (Side s) ts) as Ht by (rewrite E; apply in_or_app; simpl; auto).
    destruct (ok_mp OK _ _ _ He Ht Hm) as (A1 & A2 & A3 & A4 & A5 & A6).
    set (C := fun x y : pos => fst x = e /\ fst y = m /\ exists i, nth_error (sl s) i = Some (snd x) /\ nth_error (sl (op s)) i = Some (snd y)).
    assert (forall (x : pos) v, In (snd x, v) (combine (sl s) (map (look d w m) (sl (op s)))) <->
      exists i a, nth_error (sl s) i = Some (snd x) /\ nth_error (sl (op s)) i = Some a /\ v = look d w m a) as Hc.
    { intros x v. rewrite in_combine_nth. split.
      - intros (i & H1 & H2). rewrite nth_error_map in H2. destruct (nth_error (sl (op s)) i) as [a|] eqn:Ea; [|discriminate].
        simpl in H2. exists i, a. repeat split; congruence.
      - intros (i & a & H1 & H2 & ->). exists i. rewrite nth_error_map, H2. auto. }
    eapply Inv_ext; [eapply (Inv_copy eqv eqv_refl eqv_sym eqv_trans d _ cur (Dn e dn) (fun x => look d (write w e (combine (sl s) (map (look d w m) (sl (op s))))) (fst x) (snd x)) C HI)| |].
    - intros x y (H1 & H2 & i & H3 & H4). split; [|split; [|split]].
      + eapply (nongroup_new e dn (Side s)); eauto.
      + split; [congruence|]. right. exists (Side (op s)), i. simpl. repeat split; auto. left. lia.
      + right. left. exists s, i. repeat split; auto; congruence.
      + destruct (look_write d w e (combine (sl s) (map (look d w m) (sl (op s)))) x) as [(H5 & v & H6 & ->)|(H5 & H6)].
        * apply Hc in H6 as (j & a & H6 & H7 & ->).
          assert (j = i) as -> by (eapply (slot_unique (Side s) (Side s) j i); eauto). congruence.
        * exfalso. apply H6; auto. apply in_map_iff. exists (snd x, look d w m (snd y)). split; auto.
          apply Hc. eauto.
    - intros x. destruct (look_write d w e (combine (sl s) (map (look d w m) (sl (op s)))) x) as [(H5 & v & H6 & _)|(H5 & H6)]; auto.
      left. apply Hc in H6 as (i & a & H6 & H7 & _). exists (m, a). split; auto. simpl. split; auto. exists i. auto.
    - intros x. reflexivity.
    - intros x. unfold Dn. split.
      + intros (Hx & [(g & i & B1 & B2 & e' & g' & B3 & B4)|(t' & i & B1 & B2 & B3 & B4)]).
        * left. split; auto. left. exists g, i. split; auto. split; auto. exists e', g'. split; auto.
          destruct B4 as [B4|[B4 B5]]; auto. apply in_app_or in B5 as [B5|[B5|[]]]; auto. discriminate.
        * destruct B4 as [B4|[B4 B5]].
          -- left. split; auto. right. exists t', i. repeat split; auto 6.
          -- apply in_app_or in B5 as [B5|[<-|[]]].
             ++ left. split; auto. right. exists t', i. repeat split; auto 6.
             ++ right. simpl in B3. assert (i < length (sl (op s))) as Hi by (rewrite A6; apply nth_error_Some; congruence).
                apply nth_error_Some in Hi. destruct (nth_error (sl (op s)) i) as [a|] eqn:Ea; [|congruence].
                exists (m, a). split; auto. split; auto. exists i. auto.
      + intros [(Hx & [(g & i & B1 & B2 & e' & g' & B3 & B4)|(t' & i & B1 & B2 & B3 & B4)])|(y & H1 & H2 & i & H3 & H4)].
        * split; auto. left. exists g, i. split; auto. split; auto. exists e', g'. split; auto.
          destruct B4 as [B4|[B4 B5]]; auto. right. split; auto. apply in_or_app; auto.
        * split; auto. right. exists t', i. repeat split; auto. destruct B4 as [B4|[B4 B5]]; auto. right. split; auto. apply in_or_app; auto.
        * split; [congruence|]. right. exists (Side s), i. simpl. repeat split; auto. right. split; auto. apply in_or_app; simpl; auto.
  Qed.

  Lemma Dn_group_more e dn g x : e < N -> In (Group g) ts -> Dn e (dn ++ [Group g]) x <->
    Dn e dn x \/ exists g' i, fst x < N /\ In (fst x, g') (attach e g) /\ nth_error (bs g') i = Some (snd x).
  Proof.
    intros He Hg. destruct (ok_att OK _ _ He Hg) as (Hself & Hatt). unfold Dn. split.
    - intros (Hx & [(k & i & A1 & A2 & e' & g' & A3 & A4)|(t' & i & A1 & A2 & A3 & A4)]).
      + destruct A4 as [A4|[-> A5]].
        * left. split; auto. left. exists k, i. repeat split; auto. exists e', g'. auto.
        * apply in_app_or in A5 as [A5|[[= ->]|[]]].
          -- left. split; auto. left. exists k, i. repeat split; auto. exists e, g'. auto.
          -- right. exists k, i. repeat split; auto. destruct (ok_att OK _ _ Hx A1) as (B1 & B2).
             destruct (B2 _ _ A3) as (_ & _ & _ & B3). apply B3. auto.
      + left. split; auto. right. exists t', i. repeat split; auto. destruct A4 as [A4|[A4 A5]]; auto. right. split; auto.
        apply in_app_or in A5 as [A5|[<-|[]]]; auto. exfalso. apply A1. exact I.
    - intros [(Hx & [(k & i & A1 & A2 & e' & g' & A3 & A4)|(t' & i & A1 & A2 & A3 & A4)])|(g' & i & Hx & A1 & A2)].
      + split; auto. left. exists k, i. repeat split; auto. exists e', g'. split; auto. destruct A4 as [A4|[A4 A5]]; auto. right. split; auto. apply in_or_app; auto.
      + split; auto. right. exists t', i. repeat split; auto. destruct A4 as [A4|[A4 A5]]; auto. right. split; auto. apply in_or_app; auto.
      + split; auto. left. destruct (Hatt _ _ A1) as (_ & B2 & _ & B4). exists g', i. repeat split; auto.
        exists e, g. split; [apply B4; auto|]. right. split; auto. apply in_or_app; simpl; auto.
  Qed.

  (** a class is numbered as a whole *)
  Lemma Dn_class e dn x y : gg x y -> Dn e dn x -> Dn e dn y.
  Proof.
    intros (g & g' & i & H1 & H2 & H3 & H4 & H5) (_ & H). destruct (ok_att OK _ _ H1 H2) as (A & B).
    destruct (B _ _ H3) as (C & D & E & F). split; auto. left. exists g', i. repeat split; auto.
    destruct H as [(k & j & B1 & B2 & e' & k' & B3 & B4)|(t' & j & B1 & B2 & B3 & _)].
    - destruct (slot_unique (Group g) (Group k) i j (snd x)) as [[= <-] <-]; auto. exists e', k'. split; auto. now apply F.
    - exfalso. destruct (slot_unique (Group g) t' i j (snd x)) as [<- <-]; auto. apply B1. exact I.
  Qed.

  Lemma group_step e dn g todo w cur : ts = dn ++ Group g :: todo -> e < N ->
    Inv eqv d (fun x => look d w (fst x) (snd x)) cur (Dn e dn) ->
    exists w' cur', do_task d mp rule sl op bs attach e (Group g) (w, cur) = Some (w', cur') /\
    Inv eqv d (fun x => look d w' (fst x) (snd x)) cur' (Dn e (dn ++ [Group g])).
  Proof.
    intros E He HI. assert (In (Group g) ts) as Ht by (rewrite E; apply in_or_app; simpl; auto).
    destruct (ok_att OK _ _ He Ht) as (Hself & Hatt). pose proof (ok_d OK _ Ht) as Hd.
    simpl. remember (bs g) as bsg eqn:Eb in |- *. symmetry in Eb. destruct bsg as [|a0 rest].
    - exists w, cur. split; auto. eapply Inv_ext; [exact HI|auto|]. intros x. rewrite (Dn_group_more e dn g x He Ht).
      split; [|auto]. intros [H|(g' & i & H1 & H2 & H3)]; auto. exfalso. destruct (Hatt _ _ H2) as (_ & _ & Hl & _).
      assert (i < length (bs g')) as Hi by (apply nth_error_Some; congruence). rewrite Hl in Hi; try rewrite Eb in Hi; simpl in Hi; lia.
    - assert (forall x g' i, In (fst x, g') (attach e g) -> nth_error (bs g') i = Some (snd x) -> fst x < N /\
         forall j a, nth_error (bs g) j = Some a -> i = j -> gg x (e, a)) as Hcls.
      { intros x g' i H1 H2. destruct (Hatt _ _ H1) as (A & B & C & D). split; auto.
        intros j a Hj <-. exists g', g, i. repeat split; auto. apply D. auto. }
      destruct (Z.eqb_spec (look d w e a0) (-1)) as [Hm|Hm].
      + eexists. eexists. split; [reflexivity|].
        assert (forall x, Dn e dn x -> forall g' i, In (fst x, g') (attach e g) -> nth_error (bs g') i = Some (snd x) -> False) as Hnew.
        { intros x Hx g' i H1 H2.
          assert (Dn e dn (e, a0)) as Hx0.
          { destruct Hx as (HxN & [(k & j & B1 & B2 & e' & k' & B3 & B4)|(t' & j & B1 & B2 & B3 & _)]).
            - destruct (Hatt _ _ H1) as (A1 & A2 & A3 & A4).
              destruct (slot_unique (Group g') (Group k) i j (snd x)) as [[= <-] <-]; auto.
              split; auto. left. exists g, 0. rewrite Eb. simpl. repeat split; auto. exists e', k'. split; auto. now apply A4.
            - exfalso. destruct (Hatt _ _ H1) as (A1 & A2 & A3 & A4).
              destruct (slot_unique (Group g') t' i j (snd x)) as [<- _]; auto. apply B1. exact I. }
          destruct (inv_num _ _ _ _ _ HI _ Hx0) as (k & _ & Hk). simpl in Hk. lia. }
        set (B := fun i (x : pos) => exists g', In (fst x, g') (attach e g) /\ nth_error (bs g') i = Some (snd x)).
        eapply Inv_ext; [eapply (Inv_fresh eqv eqv_sym d _ cur (Dn e dn) (fun x => look d (fold_left (fun w (eg : nat * nat) => write w (fst eg) (fresh (bs (snd eg)) cur)) (attach e g) w) (fst x) (snd x)) (length (a0 :: rest)) B HI)| |].
        * intros i x Hi (g' & H1 & H2) HD. eauto.
        * intros i Hi. rewrite <- Eb in Hi. apply nth_error_Some in Hi. destruct (nth_error (bs g) i) as [a|] eqn:Ea; [|congruence].
          exists (e, a), g. auto.
        * intros i x y Hi (g1 & H1 & H2) (g2 & H3 & H4). right. right.
          destruct (Hatt _ _ H1) as (A1 & A2 & A3 & A4). exists g1, g2, i. repeat split; auto. now apply A4.
        * intros i j x y Hi Hj Hij (g1 & H1 & H2) (g2 & H3 & H4) Heq.
          destruct (Hatt _ _ H1) as (A1 & A2 & A3 & A4). destruct (Hatt _ _ H3) as (A1' & A2' & A3' & A4').
          destruct Heq as [->|[Heq|Heq]].
          -- apply Hij. eapply (slot_unique (Group g1) (Group g2) i j); eauto.
          -- apply gl_in in Heq as (s & s' & k & k' & C1 & C2 & C3 & C4).
             destruct (slot_unique (Group g1) (Side s) i k (snd x)) as [? _]; auto. discriminate.
          -- destruct Heq as (k1 & k2 & k & C1 & C2 & C3 & C4 & C5).
             destruct (slot_unique (Group g1) (Group k1) i k (snd x)) as [[= <-] <-]; auto.
             apply A4 in C3. destruct (Hatt _ _ C3) as (_ & C6 & _).
             destruct (slot_unique (Group k2) (Group g2) i j (snd y)) as [_ ?]; auto.
        * intros i x y Hi (g1 & H1 & H2) HDy Heq. destruct (Hatt _ _ H1) as (A1 & A2 & A3 & A4).
          destruct Heq as [<-|[Heq|Heq]].
          -- eauto.
          -- apply gl_in in Heq as (s & s' & k & k' & C1 & C2 & C3 & C4).
             destruct (slot_unique (Group g1) (Side s) i k (snd x)) as [? _]; auto. discriminate.
          -- apply gg_sym in Heq. eapply Hnew; [eapply Dn_class; eauto| |]; eauto.
        * intros i x Hi (g1 & H1 & H2). destruct (Hatt _ _ H1) as (A1 & A2 & A3 & A4).
          destruct (look_writes d bs cur (attach e g) w x) as [([e2 g2] & j & B1 & B2 & B3 & ->)|(B1 & B2)].
          -- simpl in *. subst e2. destruct (Hatt _ _ B1) as (C1 & C2 & _).
             do 2 f_equal. eapply (slot_unique (Group g2) (Group g1) j i); eauto.
          -- exfalso. apply (B2 _ H1 eq_refl). eapply nth_error_In; eauto.
        * intros x. destruct (look_writes d bs cur (attach e g) w x) as [([e2 g2] & j & B1 & B2 & B3 & _)|(B1 & B2)]; auto.
          left. simpl in *. subst e2. destruct (Hatt _ _ B1) as (C1 & C2 & C3 & _). exists j. split; [|exists g2; auto].
          try change (S (length rest)) with (length (a0 :: rest)); rewrite <- Eb, <- C3. apply nth_error_Some. congruence.
        * reflexivity.
        * intros x. rewrite (Dn_group_more e dn g x He Ht). split; intros [H|H]; auto.
          -- right. destruct H as (g' & i & H1 & H2 & H3). destruct (Hatt _ _ H2) as (C1 & C2 & C3 & _). exists i. split; [|exists g'; auto].
             try change (S (length rest)) with (length (a0 :: rest)); rewrite <- Eb, <- C3. apply nth_error_Some. congruence.
          -- right. destruct H as (i & _ & g' & H1 & H2). exists g', i. destruct (Hatt _ _ H1) as (C1 & _). auto.
      + exists w, cur. split; auto. eapply Inv_ext; [exact HI|auto|]. intros x. rewrite (Dn_group_more e dn g x He Ht).
        split; [|auto]. intros [H|(g' & i & H1 & H2 & H3)]; auto.
        assert (Dn e dn (e, a0)) as H0.
        { destruct (inv_out _ _ _ _ _ HI (e, a0)) as [H|H]; auto. simpl in H. congruence. }
        destruct (Hatt _ _ H2) as (C1 & C2 & C3 & C4).
        destruct H0 as (_ & [(k & j & B1 & B2 & e' & k' & B3 & B4)|(t' & j & B1 & B2 & B3 & _)]).
        * destruct (slot_unique (Group g) (Group k) 0 j a0) as [[= <-] _]; auto. { simpl. now rewrite Eb. }
          split; auto. left. exists g', i. repeat split; auto. exists e', k'. split; auto. now apply C4.
        * exfalso. destruct (slot_unique (Group g) t' 0 j a0) as [<- _]; auto. { simpl. now rewrite Eb. } apply B1. exact I.
  Qed.

  Lemma task_step e dn t todo w cur : ts = dn ++ t :: todo -> e < N ->
    Inv eqv d (fun x => look d w (fst x) (snd x)) cur (Dn e dn) ->
    exists w' cur', do_task d mp rule sl op bs attach e t (w, cur) = Some (w', cur') /\
    Inv eqv d (fun x => look d w' (fst x) (snd x)) cur' (Dn e (dn ++ [t])).
  Proof.
    intros E He HI. assert (In t ts) as Ht by (rewrite E; apply in_or_app; simpl; auto). destruct t as [s|l|g].
    - simpl. pose proof (ok_rule OK e s He Ht) as Hr. destruct (mp e s) as [m|] eqn:Em.
      + destruct (ok_mp OK _ _ _ He Ht Em) as (A1 & A2 & _). destruct Hr as [R1 R2].
        destruct (Nat.lt_ge_cases m e) as [Hlt|Hge].
        * rewrite (R1 Hlt). eexists. eexists. split; [reflexivity|]. eapply copy_step; eauto.
        * rewrite R2 by lia. eexists. eexists. split; [reflexivity|].
          apply (fresh_step e dn (Side s) todo); auto. intros s' m' [= <-] Hm'. rewrite Em in Hm'. injection Hm' as <-. lia.
      + rewrite Hr. eexists. eexists. split; [reflexivity|].
        apply (fresh_step e dn (Side s) todo); auto. intros s' m' [= <-] Hm'. congruence.
    - simpl. eexists. eexists. split; [reflexivity|]. apply (fresh_step e dn (Inner l) todo); auto. intros s' m' [=].
    - eapply group_step; eauto.
  Qed.

  Lemma tasks_step e todo : forall dn w cur, ts = dn ++ todo -> e < N ->
    Inv eqv d (fun x => look d w (fst x) (snd x)) cur (Dn e dn) ->
    exists w' cur', do_tasks d mp rule sl op bs attach e todo (w, cur) = Some (w', cur') /\
    Inv eqv d (fun x => look d w' (fst x) (snd x)) cur' (Dn e ts).
  Proof.
    induction todo as [|t todo IH]; intros dn w cur E He HI.
    - exists w, cur. split; auto. rewrite app_nil_r in E. now rewrite E.
    - destruct (task_step e dn t todo w cur E He HI) as (w1 & c1 & E1 & H1).
      destruct (IH (dn ++ [t]) w1 c1) as (w2 & c2 & E2 & H2); auto.
      { rewrite <- app_assoc. exact E. }
      exists w2, c2. split; auto. cbn [do_tasks]. now rewrite E1.
  Qed.

  Lemma Dn_next e x : Dn e ts x <-> Dn (S e) [] x.
  Proof.
    unfold Dn. split; intros (Hx & [(g & i & A1 & A2 & e' & g' & A3 & A4)|(t & i & A1 & A2 & A3 & A4)]); split; auto.
    - left. exists g, i. repeat split; auto. exists e', g'. split; auto. left. destruct A4 as [|[]]; lia.
    - right. exists t, i. repeat split; auto. left. destruct A4 as [|[]]; lia.
    - left. exists g, i. repeat split; auto. exists e', g'. split; auto. destruct A4 as [A4|[_ []]].
      destruct (Nat.eq_dec e' e) as [->|]; [right|left; lia]. split; auto.
      destruct (ok_att OK _ _ Hx A1) as (_ & B). now destruct (B _ _ A3) as (_ & ? & _).
    - right. exists t, i. repeat split; auto. destruct A4 as [A4|[_ []]].
      destruct (Nat.eq_dec (fst x) e); [right; auto|left; lia].
  Qed.

  Lemma elements_step n : forall s w cur, s + n = N ->
    Inv eqv d (fun x => look d w (fst x) (snd x)) cur (Dn s []) ->
    exists w' cur', do_elements d mp rule sl op bs attach (seq s n) ts (w, cur) = Some (w', cur') /\
    Inv eqv d (fun x => look d w' (fst x) (snd x)) cur' (Dn N []).
  Proof.
    induction n as [|n IH]; intros s w cur E HI; simpl.
    - exists w, cur. split; auto. now rewrite Nat.add_0_r in E; subst s.
    - destruct (tasks_step s ts [] w cur eq_refl) as (w1 & c1 & E1 & H1); [lia|auto|].
      rewrite E1. apply IH; [lia|]. eapply Inv_ext; [exact H1|auto|]. intros x. symmetry. apply Dn_next.
  Qed.

  (** the whole loop numbers the classes of positions one to one by 0..cur-1 *)
  Definition all_pos (x : pos) : Prop := fst x < N /\ In (snd x) (flat_map slots_of ts).
  Lemma loop_correct :
    exists w cur, do_elements d mp rule sl op bs attach (seq 0 N) ts ([], 0) = Some (w, cur) /\
      Inv eqv d (fun x => look d w (fst x) (snd x)) cur all_pos.
  Proof.
    destruct (elements_step N 0 [] 0 eq_refl) as (w & cur & E & H).
    - eapply Inv_ext; [apply (Inv_init eqv d)|auto|]. intros x. split; [|tauto]. intros (_ & [(g & i & A1 & A2 & e' & g' & A3 & A4)|(t & i & A1 & A2 & A3 & A4)]).
      + destruct A4 as [|[_ []]]; lia.
      + destruct A4 as [|[_ []]]; lia.
    - exists w, cur. split; auto. eapply Inv_ext; [exact H|auto|]. intros x. unfold all_pos, Dn. split.
      + intros (Hx & Hin). split; auto. apply in_flat_map in Hin as (t & Ht & Hin). apply In_nth_error in Hin as (i & Hi).
        destruct t as [s|l|g].
        * right. exists (Side s), i. simpl. auto.
        * right. exists (Inner l), i. simpl. auto.
        * left. exists g, i. repeat split; auto. destruct (ok_att OK _ _ Hx Ht) as (B1 & _). exists (fst x), g. auto.
      + intros (Hx & [(g & i & A1 & A2 & _)|(t & i & A1 & A2 & A3 & _)]); split; auto; apply in_flat_map.
        * exists (Group g). split; auto. eapply nth_error_In; eauto.
        * exists t. split; auto. eapply nth_error_In; eauto.
  Qed.
End Generic.
