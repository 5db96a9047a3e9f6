From Coq Require Import List Arith Bool Lia Permutation.
From Verif Require Import Dict MiscModel MiscSpec GmProofs.
Import ListNotations.

Lemma filter_len {X} (f : X -> bool) l : length (filter f l) <= length l.
Proof. induction l as [|x l IH]; cbn; auto. destruct (f x); cbn; lia. Qed.

Section Graph.
  Context {K : Type} (eqb : K -> K -> bool) (eqb_spec : forall a b, eqb a b = true <-> a = b).
  Notation nodes := gnodes. Notation edges := gedges.
  Lemma mem_spec l k : existsb (eqb k) l = true <-> In k l.
  Proof. rewrite existsb_exists. split; [intros (x & Hx & E); apply eqb_spec in E as ->; auto|]. intros H. exists k. split; auto. now apply eqb_spec. Qed.
  Lemma eq_dec (a b : K) : {a = b} + {a <> b}.
  Proof. destruct (eqb a b) eqn:E; [left; now apply eqb_spec|right; intros ->; rewrite (proj2 (eqb_spec b b) eq_refl) in E; discriminate]. Qed.
  Definition nbrs (g : graph K) (a : K) : list K := match get eqb (edges g) a with Some l => l | None => [] end.
  (* links *)
  Definition dn (d : dict K (list K)) (a : K) : list K := match get eqb d a with Some l => l | None => [] end.
  Lemma touch_dn d k a : dn (touch eqb d k) a = dn d a.
  Proof.
    unfold touch, dn. destruct (has eqb d k) eqn:E; auto. rewrite (get_put eqb eqb_spec). destruct (eqb a k) eqn:Ea; auto. apply eqb_spec in Ea as ->.
    replace (get eqb d k) with (@None (list K)); auto. symmetry. apply (get_none eqb eqb_spec). intros H. apply (mem_spec (keys d)) in H. unfold has in E. congruence.
  Qed.
  Lemma touch_keys d k : NoDup (keys d) -> NoDup (keys (touch eqb d k)) /\ In k (keys (touch eqb d k)) /\ incl (keys d) (keys (touch eqb d k)).
  Proof.
    intros N. unfold touch. destruct (has eqb d k) eqn:E; [repeat split; auto; [now apply mem_spec|apply incl_refl]|].
    assert (Hk : ~ In k (keys d)) by (intros H; apply mem_spec in H; unfold has in E; congruence).
    rewrite (keys_put_out eqb eqb_spec) by auto. split; [|split; [apply in_or_app; right; now left|apply incl_appl, incl_refl]].
    apply NoDup_app_intro; auto; [repeat constructor; auto|]. intros x Hx [<-|[]]. contradiction.
  Qed.
  Lemma link_keys d a b : keys (link eqb d a b) = keys d.
  Proof. unfold link. destruct (get eqb d a) as [l|] eqn:E; auto. destruct (existsb (eqb b) l); auto. apply (keys_put_in eqb eqb_spec). apply (get_keys eqb eqb_spec). eauto. Qed.
  Lemma link_dn d a b x : In a (keys d) -> dn (link eqb d a b) x = if eqb x a then (if existsb (eqb b) (dn d a) then dn d a else dn d a ++ [b]) else dn d x.
  Proof.
    intros Ha. apply (get_keys eqb eqb_spec) in Ha as [l E]. unfold link, dn. rewrite E. destruct (existsb (eqb b) l) eqn:Eb.
    - destruct (eqb x a) eqn:Ex; auto. apply eqb_spec in Ex as ->. now rewrite E.
    - rewrite (get_put eqb eqb_spec). destruct (eqb x a); auto.
  Qed.
  Lemma link_in d a b x y : In a (keys d) -> In y (dn (link eqb d a b) x) <-> In y (dn d x) \/ (x = a /\ y = b).
  Proof.
    intros Ha. rewrite (link_dn d a b x Ha). destruct (eqb x a) eqn:Ex.
    - apply eqb_spec in Ex as ->. destruct (existsb (eqb b) (dn d a)) eqn:Eb.
      + apply mem_spec in Eb. split; auto. intros [?|[_ ->]]; auto.
      + rewrite in_app_iff. cbn. intuition.
    - split; auto. intros [?|[-> _]]; auto. rewrite (proj2 (eqb_spec a a) eq_refl) in Ex. discriminate.
  Qed.
  Lemma link_nodup d a b x : In a (keys d) -> NoDup (dn d x) -> NoDup (dn d a) -> NoDup (dn (link eqb d a b) x).
  Proof.
    intros Ha N Na. rewrite (link_dn d a b x Ha). destruct (eqb x a); auto. destruct (existsb (eqb b) (dn d a)) eqn:Eb; auto.
    apply NoDup_app_intro; auto; [repeat constructor; auto|]. intros z Hz [<-|[]]. apply mem_spec in Hz. congruence.
  Qed.
  (** the invariant *)
  Definition ginv (l : list (gop K)) (g : graph K) : Prop :=
    (forall k, In k (nodes g) <-> In (AddNode k) l) /\ NoDup (keys (edges g)) /\ (forall a b, In b (nbrs g a) <-> neighbour l a b) /\ forall a, NoDup (nbrs g a).
  Lemma joined_snoc (l : list (gop K)) p a b : joined (l ++ [p]) a b <-> joined l a b \/ (p = AddEdge a b /\ In (AddNode a) l /\ In (AddNode b) l).
  Proof.
    split.
    - intros (l1 & l2 & E & Ha & Hb). destruct l2 as [|x l2 _] using rev_ind.
      + apply app_inj_tail in E as [-> ->]. auto.
      + left. exists l1, l2. rewrite app_comm_cons, app_assoc in E. apply app_inj_tail in E as [-> _]. auto.
    - intros [(l1 & l2 & -> & Ha & Hb)|(-> & Ha & Hb)].
      + exists l1, (l2 ++ [p]). rewrite <- app_assoc. auto.
      + exists l, []. auto.
  Qed.
  Lemma ginv_step l g p : ginv l g -> ginv (l ++ [p]) (gdo eqb g p).
  Proof.
    intros (I1 & I2 & I3 & I4). unfold gdo. destruct p as [k|a b].
    - assert (J : forall x y, neighbour (l ++ [AddNode k]) x y <-> neighbour l x y) by (intros; unfold neighbour; rewrite !joined_snoc; intuition discriminate).
      unfold add_node. destruct (existsb (eqb k) (nodes g)) eqn:E.
      + apply mem_spec in E. repeat split; auto.
        * intros H. apply in_or_app. left. now apply I1.
        * intros H. apply in_app_iff in H as [H|[[= <-]|[]]]; auto. now apply I1.
        * intros H. apply J. now apply I3.
        * intros H. apply J in H. now apply I3.
      + repeat split; cbn [gnodes gedges]; auto.
        * intros H. apply in_or_app. apply in_app_iff in H as [H|[<-|[]]]; [left; now apply I1|right; now left].
        * intros H. apply in_or_app. apply in_app_iff in H as [H|[[= <-]|[]]]; [left; now apply I1|right; now left].
        * intros H. apply J. now apply I3.
        * intros H. apply J in H. now apply I3.
    - unfold add_edge. destruct (existsb (eqb a) (nodes g)) eqn:Ea; cbn [andb]; [destruct (existsb (eqb b) (nodes g)) eqn:Eb|].
      + apply mem_spec in Ea, Eb. apply I1 in Ea, Eb. set (d1 := touch eqb (edges g) a). set (d2 := touch eqb d1 b).
        destruct (touch_keys (edges g) a I2) as (N1 & A1 & _). fold d1 in N1, A1. destruct (touch_keys d1 b N1) as (N2 & B2 & C2). fold d2 in N2, B2, C2.
        assert (A2 : In a (keys d2)) by auto. assert (B3 : In b (keys (link eqb d2 a b))) by now rewrite link_keys.
        assert (D2 : forall x, dn d2 x = nbrs g x) by (intros x; unfold d2, d1; rewrite !touch_dn; reflexivity).
        repeat split; cbn [gnodes gedges].
        * intros H. apply in_or_app. left. now apply I1.
        * intros H. apply in_app_iff in H as [H|[|[]]]; [now apply I1|discriminate].
        * now rewrite !link_keys.
        * intros H. unfold nbrs in H. cbn [gedges] in H. change (In b0 (dn (link eqb (link eqb d2 a b) b a) a0)) in H. rewrite (link_in _ b a) in H by auto. rewrite (link_in d2 a b) in H by auto. rewrite D2, I3 in H. unfold neighbour in *. rewrite !joined_snoc. intuition (subst; auto).
        * intros H. unfold nbrs. cbn [gedges]. change (In b0 (dn (link eqb (link eqb d2 a b) b a) a0)). rewrite (link_in _ b a) by auto. rewrite (link_in d2 a b) by auto. rewrite D2, I3. unfold neighbour in *. rewrite !joined_snoc in H. intuition (try match goal with E : AddEdge _ _ = AddEdge _ _ |- _ => injection E as -> -> end; auto).
        * intros x. unfold nbrs. cbn [gedges]. change (NoDup (dn (link eqb (link eqb d2 a b) b a) x)). assert (N : forall y, NoDup (dn (link eqb d2 a b) y)) by (intros y; apply link_nodup; auto; rewrite D2; auto). apply link_nodup; auto.
      + assert (Hn : ~ In (AddNode b) l) by (intros H; apply I1, mem_spec in H; congruence). repeat split; auto.
        * intros H. apply in_or_app. left. now apply I1.
        * intros H. apply in_app_iff in H as [H|[|[]]]; [now apply I1|discriminate].
        * intros H. apply I3 in H. unfold neighbour in *. rewrite !joined_snoc. tauto.
        * intros H. apply I3. unfold neighbour in *. rewrite !joined_snoc in H. intuition (try match goal with E : AddEdge _ _ = AddEdge _ _ |- _ => injection E as -> -> end; tauto).
      + assert (Hn : ~ In (AddNode a) l) by (intros H; apply I1, mem_spec in H; congruence). repeat split; auto.
        * intros H. apply in_or_app. left. now apply I1.
        * intros H. apply in_app_iff in H as [H|[|[]]]; [now apply I1|discriminate].
        * intros H. apply I3 in H. unfold neighbour in *. rewrite !joined_snoc. tauto.
        * intros H. apply I3. unfold neighbour in *. rewrite !joined_snoc in H. intuition (try match goal with E : AddEdge _ _ = AddEdge _ _ |- _ => injection E as -> -> end; tauto).
  Qed.
  Lemma ginv_run l : ginv l (grun eqb l).
  Proof.
    induction l as [|p l IH] using rev_ind.
    - unfold grun, nbrs. cbn. repeat split; cbn; try tauto; try constructor. intros [(l1 & l2 & E & _)|(l1 & l2 & E & _)]; destruct l1; discriminate.
    - unfold grun. rewrite fold_left_app. cbn [fold_left]. apply ginv_step. exact IH.
  Qed.
  (** ** drawing *)
  Notation dstep := (draw_step eqb).
  Notation flat := (fun d : dict K (list K) => List.concat (map (fun nl => map (pair (fst nl)) (snd nl)) d)).
  Lemma draw_flat d : forall st, fold_left (fun st nl => fold_left (fun st c => dstep st (fst nl, c)) (snd nl) st) d st = fold_left dstep (flat d) st.
  Proof.
    induction d as [|[a l] d IH]; intros st; cbn [fold_left map List.concat fst snd]; auto. rewrite fold_left_app, IH. f_equal. clear. revert st. induction l as [|c l IH]; intros st; cbn [map fold_left]; auto.
  Qed.
  Definition swap (e : K * K) : K * K := (snd e, fst e).
  Lemma seen_spec pl a b : existsb (fun p => eqb b (fst p) && eqb a (snd p)) pl = true <-> In (b, a) pl.
  Proof.
    rewrite existsb_exists. split.
    - intros ([x y] & Hx & E). cbn in E. apply andb_true_iff in E as [E1 E2]. apply eqb_spec in E1, E2. congruence.
    - intros H. exists (b, a). split; auto. cbn. rewrite !(proj2 (eqb_spec _ _)); auto.
  Qed.
  Lemma draw_inv P : forall Q T S, (exists sk, fold_left dstep P (T, S, length T) = (fst (fst sk), snd (fst sk), snd sk) /\ True) /\
    (NoDup (Q ++ P) -> forall Sl, length Sl = S -> NoDup T -> NoDup Sl -> incl T Q -> incl Sl Q -> (forall e, In e Q -> In e T \/ In e Sl) -> (forall e, In e Sl -> In (swap e) T /\ ~ In e T) -> (forall e, In e T -> In (swap e) T -> e = swap e) ->
     exists T' Sl', fold_left dstep P (T, S, length T) = (T', length Sl', length T') /\ NoDup T' /\ NoDup Sl' /\ (forall e, In e (Q ++ P) <-> In e T' \/ In e Sl') /\ (forall e, In e Sl' -> In (swap e) T' /\ ~ In e T') /\ (forall e, In e T' -> In (swap e) T' -> e = swap e)).
  Proof.
    induction P as [|[a b] P IH]; intros Q T S0; (split; [destruct (fold_left dstep _ _) as [[x y] z]; exists ((x, y), z); auto|]); intros N Sl L NT NS IT IS Cov HS HT.
    - rewrite app_nil_r in *. exists T, Sl. cbn [fold_left]. rewrite L. repeat split; auto; try (apply HS; auto). intros [H|H]; auto.
    - replace (Q ++ (a, b) :: P) with ((Q ++ [(a, b)]) ++ P) in * by (rewrite <- app_assoc; reflexivity).
      assert (Hab : ~ In (a, b) Q).
      { apply NoDup_app_elim in N as (N & _ & _). apply NoDup_app_elim in N as (_ & _ & N). intros H. apply (N _ H). now left. }
      cbn [fold_left draw_step]. destruct (existsb _ T) eqn:E.
      + apply seen_spec in E. destruct (IH (Q ++ [(a, b)]) T (S S0)) as [_ H]. apply (H N (Sl ++ [(a, b)])); auto.
        * rewrite app_length. cbn. lia.
        * apply NoDup_app_intro; auto; [repeat constructor; auto|]. intros x Hx [<-|[]]. auto.
        * now apply incl_appl.
        * apply incl_app; [now apply incl_appl|]. now apply incl_appr.
        * intros e He. rewrite in_app_iff in *. destruct He as [He|He]; [|auto]. destruct (Cov e He); auto.
        * intros e He. apply in_app_iff in He as [He|[<-|[]]]; auto.
      + assert (En : ~ In (b, a) T) by (intros H; apply seen_spec in H; congruence). destruct (IH (Q ++ [(a, b)]) (T ++ [(a, b)]) S0) as [_ H].
        replace (S (length T)) with (length (T ++ [(a, b)])) by (rewrite app_length; cbn; lia). apply (H N Sl); auto.
        * apply NoDup_app_intro; auto; [repeat constructor; auto|]. intros x Hx [<-|[]]. auto.
        * apply incl_app; [now apply incl_appl|]. now apply incl_appr.
        * now apply incl_appl.
        * intros e He. rewrite in_app_iff in *. destruct He as [He|[<-|[]]]; [|left; right; now left]. destruct (Cov e He); auto.
        * intros e He. destruct (HS e He) as [H1 H2]. rewrite !in_app_iff. split; auto. intros [?|[<-|[]]]; auto.
        * intros e He He'. apply in_app_iff in He, He'. destruct He as [He|[<-|[]]]; destruct He' as [He'|[He'|[]]]; auto.
          -- exfalso. apply En. destruct e as [x y]. cbn in He'. injection He' as -> ->. exact He.
          -- exfalso. apply En. exact He'.
  Qed.
  Lemma flat_in d e : In e (flat d) <-> exists l, In (fst e, l) d /\ In (snd e) l.
  Proof.
    rewrite in_concat. split.
    - intros (x & Hx & He). apply in_map_iff in Hx as ([a l] & <- & Hl). apply in_map_iff in He as (c & <- & Hc). cbn. eauto.
    - intros (l & Hl & He). exists (map (pair (fst e)) l). split; [apply in_map_iff; exists (fst e, l); auto|]. apply in_map_iff. exists (snd e). destruct e; auto.
  Qed.
  Lemma flat_nodup d : NoDup (keys d) -> (forall a l, In (a, l) d -> NoDup l) -> NoDup (flat d).
  Proof.
    induction d as [|[a l] d IH]; intros N H; cbn [map List.concat fst snd]; [constructor|]. inversion N as [|? ? Ha N']; subst. apply NoDup_app_intro.
    - apply FinFun.Injective_map_NoDup; [intros x y E; now injection E|]. apply (H a). now left.
    - apply IH; auto. intros b l' Hb. apply (H b). now right.
    - intros e He Hd. apply in_map_iff in He as (c & <- & Hc). apply flat_in in Hd as (l' & Hl' & _). cbn in Hl'. apply Ha. apply in_map_iff. now exists (a, l').
  Qed.
  Lemma swap_swap e : swap (swap e) = e. Proof. now destruct e. Qed.
  Lemma swap_loop e : e = swap e <-> fst e = snd e.
  Proof. destruct e as [a b]. cbn. split; [now intros [= ->]|now intros ->]. Qed.
  Lemma drawing l : exists T, drawn_once (neighbour l) T /\ (draw eqb (grun eqb l) = Some T \/ draw eqb (grun eqb l) = None) /\
    (draw eqb (grun eqb l) = None <-> exists a, joined l a a).
  Proof.
    destruct (ginv_run l) as (_ & N & I3 & I4). set (g := grun eqb l) in *.
    assert (Flat : forall a b, In (a, b) (flat (edges g)) <-> neighbour l a b).
    { intros a b. rewrite <- I3, flat_in. cbn [fst snd]. unfold nbrs. split.
      - intros (k & Hk & Hb). now rewrite (in_get eqb eqb_spec _ _ _ N Hk).
      - destruct (get eqb (edges g) a) as [k|] eqn:E; [|intros []]. intros H. exists k. split; auto. eapply get_in; eauto. }
    assert (Nf : NoDup (flat (edges g))).
    { apply flat_nodup; auto. intros a k Hk. specialize (I4 a). unfold nbrs in I4. now rewrite (in_get eqb eqb_spec _ _ _ N Hk) in I4. }
    destruct (draw_inv (flat (edges g)) [] [] 0) as [_ H]. destruct (H Nf [] eq_refl) as (T & Sl & E & NT & NS & Cov & HS & HT); try (intros ? []); try constructor. cbn [app] in Cov.
    assert (Swapped : forall e, In e T -> e <> swap e -> In (swap e) Sl).
    { intros e He Hn. assert (Hs : In (swap e) (flat (edges g))). { destruct e as [a b]. apply Flat. unfold swap. cbn. assert (X : neighbour l a b) by (apply Flat, Cov; auto). unfold neighbour in *. tauto. }
      apply Cov in Hs as [Hs|]; auto. exfalso. apply Hn. auto. }
    set (T0 := filter (fun e => negb (eqb (fst e) (snd e))) T).
    assert (HT0 : forall e, In e T0 <-> In e T /\ e <> swap e).
    { intros e. unfold T0. rewrite filter_In, negb_true_iff, swap_loop. split; intros [H1 H2]; split; auto; [intros Q; apply eqb_spec in Q; congruence|]. destruct (eqb (fst e) (snd e)) eqn:Q; auto. apply eqb_spec in Q. contradiction. }
    assert (Ls : length Sl = length T0).
    { assert (NT0 : NoDup T0) by now apply NoDup_filter. apply Nat.le_antisymm.
      - rewrite <- (map_length swap Sl). apply NoDup_incl_length.
        + apply FinFun.Injective_map_NoDup; auto. intros x y Q. rewrite <- (swap_swap x), <- (swap_swap y), Q. reflexivity.
        + intros e He. apply in_map_iff in He as (f & <- & Hf). destruct (HS f Hf) as [H1 H2]. apply HT0. split; auto. intros Q. rewrite swap_swap in Q. rewrite Q in H1. contradiction.
      - rewrite <- (map_length swap T0). apply NoDup_incl_length.
        + apply FinFun.Injective_map_NoDup; auto. intros x y Q. rewrite <- (swap_swap x), <- (swap_swap y), Q. reflexivity.
        + intros e He. apply in_map_iff in He as (f & <- & Hf). apply HT0 in Hf as [H1 H2]. auto. }
    exists T. split; [|].
    - split; auto. split.
      + intros a b. rewrite <- Flat, Cov. split.
        * intros [?|Hs]; auto. right. apply (HS _ Hs).
        * intros [?|Hs]; auto. destruct (eq_dec a b) as [->|Hn]; auto. right. apply (Swapped (b, a)); auto. unfold swap. cbn. congruence.
      + intros a b H1 H2. specialize (HT (a, b) H1 H2). unfold swap in HT. cbn in HT. congruence.
    - unfold draw. rewrite draw_flat. change (@length (K * K) []) with 0 in E. rewrite E. destruct (Nat.eqb_spec (length Sl) (length T)) as [Q|Q].
      + split; auto. split; [discriminate|]. intros (a & Ha). exfalso. assert (X : In (a, a) (flat (edges g))) by (apply Flat; left; auto). apply Cov in X as [X|X].
        * assert (length T0 < length T); [|lia]. clear - X eqb_spec. unfold T0. induction T as [|e T IH]; [destruct X|]. cbn [filter]. destruct X as [->|X].
          -- cbn [fst snd]. rewrite (proj2 (eqb_spec a a) eq_refl). cbn. pose proof (filter_len (fun e => negb (eqb (fst e) (snd e))) T). lia.
          -- specialize (IH X). destruct (negb _); cbn; lia.
        * destruct (HS _ X) as [H1 H2]. contradiction.
      + split; auto. split; auto. intros _. destruct (existsb (fun e => eqb (fst e) (snd e)) T) eqn:X.
        * apply existsb_exists in X as ([a b] & Ha & X). cbn in X. apply eqb_spec in X as <-. exists a. assert (Y : neighbour l a a) by (apply Flat, Cov; auto). destruct Y; auto.
        * exfalso. apply Q. rewrite Ls. unfold T0. f_equal. clear - X. induction T as [|e T IH]; auto. cbn in *. apply orb_false_iff in X as [X1 X2]. rewrite X1. cbn. f_equal. auto.
  Qed.
  Lemma symmetric l : let g := grun eqb l in forall a b, In b (nbrs g a) <-> In a (nbrs g b).
  Proof. intros g a b. destruct (ginv_run l) as (_ & _ & I3 & _). unfold g. rewrite !I3. unfold neighbour. tauto. Qed.
End Graph.
