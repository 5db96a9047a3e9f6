(** Chaining: the numbering is a bijection, exists, and chaining of chains is flat. *)
From Coq Require Import List Arith ZArith Bool Lia.
From Verif Require Import Dict GmModel GmSpec GmProofs.
Import ListNotations.

Definition total_dofs (gms : list dgm) : nat := fold_right Nat.add 0 (map num_dofs gms).

Lemma chaining_inv gms cgm : chaining gms = Some cgm -> exists g0, hd_error gms = Some g0 /\ chain_method_0 gms = Some cgm /\
  2 <= length gms /\ forallb (fun g => same_keys_ranks g g0) gms = true.
Proof.
  unfold chaining. destruct gms as [|g0 [|g1 gms]]; try discriminate. destruct (forallb _ _) eqn:E; [|discriminate].
  intros H. exists g0. repeat split; auto. simpl. lia.
Qed.
Lemma forallb_keys gms (g0 : dgm) : forallb (fun g => same_keys_ranks g g0) gms = true ->
  forall g, In g gms -> forall e, In e (concat (map keys g)) <-> In e (concat (map keys g0)).
Proof. intros H g Hg. rewrite forallb_forall in H. apply same_keys_ranks_in; auto. Qed.

Lemma chaining_correct gms cgm : Forall wf_numbering gms -> chaining gms = Some cgm ->
  chained gms cgm (total_dofs gms) /\ wf_numbering cgm /\ exists g0, hd_error gms = Some g0 /\ map keys cgm = map keys g0.
Proof.
  intros Hw H. apply chaining_inv in H as (g0 & H0 & Hc & _ & Hk).
  destruct (chain_method_0_spec gms g0 Hw H0 (forallb_keys _ _ Hk) cgm Hc) as [H1 H2]. split; auto. split; [|eauto].
  unfold wf_numbering. change (map (map fst) cgm) with (map keys cgm). rewrite H2. destruct gms; [discriminate|]. injection H0 as ->. now inversion Hw.
Qed.

Lemma chaining_total gms g0 : Forall wf_numbering gms -> 2 <= length gms -> hd_error gms = Some g0 ->
  Forall (fun g => Forall2 (fun a b => forall e, In e (keys a) <-> In e (keys b)) g g0) gms ->
  Forall (fun g => exactly g (num_dofs g)) gms -> exists cgm, chaining gms = Some cgm.
Proof.
  intros Hw Hl H0 Hk Hex.
  assert (forallb (fun g => same_keys_ranks g g0) gms = true) as Hs.
  { apply forallb_forall. intros g Hg. rewrite Forall_forall in Hk. specialize (Hk _ Hg). clear - Hk.
    induction Hk; simpl; auto. rewrite IHHk, andb_true_r. now apply same_keys_spec. }
  destruct (chain_method_0_total gms g0 Hw H0 (forallb_keys _ _ Hs) Hex) as [c Hc]. exists c.
  unfold chaining. destruct gms as [|g [|g1 l]]; simpl in Hl; try lia. injection H0 as ->. now rewrite Hs.
Qed.

(** ** chained numbers: rows and range *)
Definition chain_row (phi : nat -> nat -> nat) (k n : nat) (rows : list (list nat)) : list nat :=
  concat (map (fun ir => map (phi (fst ir)) (snd ir)) (combine (seq k n) rows)).
Lemma in_chain_row phi e gms rows v : forall k, Forall2 (fun g r => row_at g e r) gms rows ->
  (In v (chain_row phi k (length gms) rows) <-> exists i r d, nth_error rows i = Some r /\ In d r /\ phi (k + i) d = v).
Proof.
  intros k H. unfold chain_row. revert k. induction H as [|g r gms rows H1 H2 IH]; intros k; simpl.
  - split; [tauto|]. intros (i & r & d & Hi & _). destruct i; discriminate.
  - rewrite in_app_iff, (IH (S k)), in_map_iff. split.
    + intros [(d & <- & Hd)|(i & r' & d & Hi & Hd & <-)].
      * exists 0, r, d. rewrite Nat.add_0_r. auto.
      * exists (S i), r', d. rewrite Nat.add_succ_r. auto.
    + intros ([|i] & r' & d & Hi & Hd & <-).
      * injection Hi as <-. left. exists d. rewrite Nat.add_0_r. auto.
      * right. exists i, r', d. rewrite Nat.add_succ_r. auto.
Qed.
Lemma Forall2_nth_l {A B} (P : A -> B -> Prop) l l' i a : Forall2 P l l' -> nth_error l i = Some a -> exists b, nth_error l' i = Some b /\ P a b.
Proof. intros H. revert i. induction H; intros [|i]; simpl; try discriminate; [intros [= <-]; eauto|auto]. Qed.
Lemma Forall2_nth_r {A B} (P : A -> B -> Prop) l l' i b : Forall2 P l l' -> nth_error l' i = Some b -> exists a, nth_error l i = Some a /\ P a b.
Proof. intros H. revert i. induction H; intros [|i]; simpl; try discriminate; [intros [= <-]; eauto|auto]. Qed.

Lemma chained_exactly gms cgm M : Forall wf_numbering gms -> chained gms cgm M ->
  (forall g, In g gms -> forall e, In e (concat (map keys g)) -> In e (concat (map keys cgm))) -> exactly cgm M.
Proof.
  intros Hw (phi & C1 & C2 & C3) Hk k. split.
  - intros (e & row & Hat & Hin). destruct (C1 _ _ Hat) as (rows & Hr & ->).
    apply (in_chain_row phi e gms rows k 0 Hr) in Hin as (i & r & d & Hi & Hd & <-).
    destruct (Forall2_nth_r _ _ _ _ _ Hr Hi) as (g & Hg & Hgr). apply C3. exists i, g, d. repeat split; auto. exists e, r; auto.
  - intros Hlt. apply C3 in Hlt as (i & g & d & Hg & (e & r & Hat & Hd) & <-).
    assert (In e (concat (map keys cgm))) as He.
    { apply (Hk g); [eapply nth_error_In; eauto|]. apply row_at_key. eauto. }
    apply row_at_key in He as [row Hrow]. exists e, row. split; auto. destruct (C1 _ _ Hrow) as (rows & Hr & ->).
    apply (in_chain_row phi e gms rows _ 0 Hr). destruct (Forall2_nth_l _ _ _ _ _ Hr Hg) as (r' & Hr' & Hat').
    exists i, r', d. repeat split; auto. rewrite Forall_forall in Hw.
    rewrite (row_at_fun g e r' r); auto. apply Hw. eapply nth_error_In; eauto.
Qed.

(** ** renaming of keys does not change the numbers *)
Definition mf (f : key -> key) (p : pool) : pool := map (fun kv => (f (fst kv), snd kv)) p.
Lemma mf_keys f p : keys (mf f p) = map f (keys p).
Proof. unfold mf, keys. rewrite !map_map. reflexivity. Qed.
Lemma mf_get f p k : (forall k', In k' (keys p) -> f k' = f k -> k' = k) -> kget (mf f p) (f k) = kget p k.
Proof.
  induction p as [|[a v] p IH]; simpl; auto. intros H. destruct (npair_eqb (f k) (f a)) eqn:E.
  - apply npair_eqb_spec in E. rewrite (H a); auto. now rewrite (eqb_refl _ npair_eqb_spec).
  - rewrite IH by auto. destruct (npair_eqb k a) eqn:E2; auto. apply npair_eqb_spec in E2 as ->.
    now rewrite (eqb_refl _ npair_eqb_spec) in E.
Qed.
Lemma mf_put f p k v : (forall k', In k' (keys p) -> f k' = f k -> k' = k) -> put npair_eqb (mf f p) (f k) v = mf f (put npair_eqb p k v).
Proof.
  induction p as [|[a w] p IH]; simpl; auto. intros H. destruct (npair_eqb k a) eqn:E2.
  - apply npair_eqb_spec in E2 as ->. rewrite (eqb_refl _ npair_eqb_spec). reflexivity.
  - destruct (npair_eqb (f k) (f a)) eqn:E.
    + apply npair_eqb_spec in E. rewrite (H a) in E2; auto. now rewrite (eqb_refl _ npair_eqb_spec) in E2.
    + simpl. rewrite IH by auto. reflexivity.
Qed.
Section Rename.
  Context (f : key -> key) (S : key -> Prop) (Hinj : forall k k', S k -> S k' -> f k = f k' -> k = k').
  Lemma number_keys_map ks : forall p cur, (forall k, In k (keys p) -> S k) -> (forall k, In k ks -> S k) ->
    number_keys (map f ks) (mf f p, cur) =
    (let (vs, st) := number_keys ks (p, cur) in (vs, (mf f (fst st), snd st))) /\
    (forall k, In k (keys (fst (snd (number_keys ks (p, cur))))) -> S k).
  Proof.
    induction ks as [|k ks IH]; intros p cur Hp Hks; cbn [map number_keys]; [split; auto|].
    assert (forall k', In k' (keys p) -> f k' = f k -> k' = k) as Hk by (intros; apply Hinj; auto; apply Hks; simpl; auto).
    rewrite mf_get by auto. destruct (kget p k) as [v|] eqn:E.
    - destruct (IH p cur Hp) as [IH1 IH2]; [intros; apply Hks; simpl; auto|]. rewrite IH1.
      destruct (number_keys ks (p, cur)) as [vs st]. auto.
    - rewrite mf_put by auto. destruct (IH (put npair_eqb p k cur) (Datatypes.S cur)) as [IH1 IH2].
      + intros k' H'. apply (in_keys_put _ npair_eqb_spec) in H' as [->|?]; auto. apply Hks; simpl; auto.
      + intros; apply Hks; simpl; auto.
      + rewrite IH1. destruct (number_keys ks _) as [vs st]. auto.
  Qed.
  Context (alls alls' : list rgm).
  Lemma chain_elements_map es : (forall e, In e es -> row_keys alls' e = option_map (map f) (row_keys alls e)) ->
    (forall e k, In e es -> row_has alls e k -> S k) ->
    forall p cur, (forall k, In k (keys p) -> S k) ->
    chain_elements alls' es (mf f p, cur) = match chain_elements alls es (p, cur) with
                                            | Some (g, (p', cur')) => Some (g, (mf f p', cur')) | None => None end /\
    (forall g st, chain_elements alls es (p, cur) = Some (g, st) -> forall k, In k (keys (fst st)) -> S k).
  Proof.
    induction es as [|e es IH]; intros Hr HS p cur Hp; cbn [chain_elements].
    - split; auto. intros g st [= <- <-]. auto.
    - rewrite (Hr e) by (simpl; auto). destruct (row_keys alls e) as [ks|] eqn:Ek; simpl; [|split; [auto|discriminate]].
      assert (forall k, In k ks -> S k) as Hks by (intros k Hk; apply (HS e); [simpl; auto|exists ks; auto]).
      destruct (number_keys_map ks p cur Hp Hks) as [N1 N2]. rewrite N1.
      destruct (number_keys ks (p, cur)) as [vs [p1 c1]]. cbn [fst snd] in *.
      destruct (IH ltac:(intros; apply Hr; simpl; auto) ltac:(intros; eapply HS; simpl; eauto) p1 c1 N2) as [I1 I2]. rewrite I1.
      destruct (chain_elements alls es (p1, c1)) as [[g [p2 c2]]|] eqn:E; [|split; [auto|discriminate]]. split; auto.
      intros g' st [= <- <-]. eapply I2; eauto.
  Qed.
  Lemma chain_ranks_map rks : (forall e, In e (concat rks) -> row_keys alls' e = option_map (map f) (row_keys alls e)) ->
    (forall e k, In e (concat rks) -> row_has alls e k -> S k) ->
    forall p cur, (forall k, In k (keys p) -> S k) ->
    chain_ranks alls' rks (mf f p, cur) = match chain_ranks alls rks (p, cur) with
                                          | Some (g, (p', cur')) => Some (g, (mf f p', cur')) | None => None end.
  Proof.
    induction rks as [|es rks IH]; intros Hr HS p cur Hp; cbn [chain_ranks]; auto. cbn [concat] in *.
    destruct (chain_elements_map es) with (p := p) (cur := cur) as [E1 E2]; auto.
    { intros; apply Hr, in_or_app; auto. } { intros; eapply HS; [apply in_or_app; eauto|eauto]. }
    rewrite E1. destruct (chain_elements alls es (p, cur)) as [[g [p1 c1]]|]; auto.
    rewrite (IH ltac:(intros; apply Hr, in_or_app; auto) ltac:(intros; eapply HS; [apply in_or_app; eauto|eauto]) p1 c1 (E2 _ _ eq_refl)).
    destruct (chain_ranks alls rks (p1, c1)) as [[gs [p2 c2]]|]; auto.
  Qed.
End Rename.

Lemma rows_fun gms e r1 r2 : Forall wf_numbering gms -> Forall2 (fun g r => row_at g e r) gms r1 -> Forall2 (fun g r => row_at g e r) gms r2 -> r1 = r2.
Proof.
  intros Hm H. revert r2. induction H; intros r2 H2; inversion H2; subst; auto. inversion Hm; subst. f_equal; auto. eapply row_at_fun; eauto.
Qed.

Lemma Forall2_len {A B} (P : A -> B -> Prop) l l' : Forall2 P l l' -> length l = length l'.
Proof. induction 1; simpl; auto. Qed.

(** ** chaining a chain *)
Section Flat.
  Context (pre mid post : list dgm) (c : dgm).
  Context (Hw : Forall wf_numbering (pre ++ mid ++ post)) (Hc : chaining mid = Some c).
  Let long := pre ++ mid ++ post.
  Let short := pre ++ c :: post.
  Let a := length pre.
  Let b := length mid.

  Lemma wf_pre : Forall wf_numbering pre. Proof. now apply Forall_app in Hw. Qed.
  Lemma wf_mid : Forall wf_numbering mid. Proof. apply Forall_app in Hw as [_ H]. now apply Forall_app in H. Qed.
  Lemma wf_post : Forall wf_numbering post. Proof. apply Forall_app in Hw as [_ H]. now apply Forall_app in H. Qed.
  Lemma wf_c : wf_numbering c. Proof. now apply chaining_correct in Hc as (_ & H & _); [|apply wf_mid]. Qed.
  Lemma wf_short : Forall wf_numbering short.
  Proof. unfold short. apply Forall_app. split; [apply wf_pre|]. constructor; [apply wf_c|apply wf_post]. Qed.

  Definition ren (phi : nat -> nat -> nat) (k : key) : key :=
    if fst k <? a then k else if fst k <? a + b then (a, phi (fst k - a) (snd k)) else (fst k - b + 1, snd k).

  Lemma rows_app_inv (g1 g2 : list dgm) e rows : Forall2 (fun g r => row_at g e r) (g1 ++ g2) rows ->
    exists r1 r2, rows = r1 ++ r2 /\ Forall2 (fun g r => row_at g e r) g1 r1 /\ Forall2 (fun g r => row_at g e r) g2 r2.
  Proof. intros H. apply Forall2_app_inv_l in H as (r1 & r2 & H1 & H2 & ->). eauto. Qed.

  Lemma keys_row_app n1 n2 (r1 r2 : list (list nat)) k : length r1 = n1 ->
    concat (map (fun ir => map (pair (fst ir)) (snd ir)) (combine (seq k (n1 + n2)) (r1 ++ r2))) =
    concat (map (fun ir => map (pair (fst ir)) (snd ir)) (combine (seq k n1) r1)) ++
    concat (map (fun ir => map (pair (fst ir)) (snd ir)) (combine (seq (k + n1) n2) r2)).
  Proof.
    intros <-. revert k. induction r1 as [|r r1 IH]; intros k; cbn [length app seq combine map concat Nat.add fst snd].
    - now rewrite Nat.add_0_r.
    - rewrite IH, <- app_assoc. now rewrite Nat.add_succ_r.
  Qed.
  Lemma map_keys_row (f : key -> key) n rows k : map f (concat (map (fun ir => map (pair (fst ir)) (snd ir)) (combine (seq k n) rows))) =
    concat (map (fun ir => map (fun d => f (fst ir, d)) (snd ir)) (combine (seq k n) rows)).
  Proof. rewrite concat_map, map_map. f_equal. apply map_ext. intros [i r]. simpl. now rewrite map_map. Qed.

  Lemma ren_rows phi r1 r2 r3 : length r1 = a -> length r2 = b -> length r3 = length post ->
    map (ren phi) (concat (map (fun ir => map (pair (fst ir)) (snd ir)) (combine (seq 0 (length long)) (r1 ++ r2 ++ r3)))) =
    concat (map (fun ir => map (pair (fst ir)) (snd ir)) (combine (seq 0 (length short)) (r1 ++ chain_row phi 0 b r2 :: r3))).
  Proof.
    intros L1 L2 L3. unfold long, short. rewrite !app_length. fold a b. cbn [length].
    rewrite (keys_row_app a (b + length post)), (keys_row_app b (length post)) by auto.
    rewrite (keys_row_app a (Datatypes.S (length post)) r1 (chain_row phi 0 b r2 :: r3)) by auto.
    rewrite !map_app, !map_keys_row. cbn [seq combine map concat fst snd Nat.add]. f_equal; [|f_equal].
    - f_equal. apply map_ext_in. intros [i r] Hin. apply in_combine_l, in_seq in Hin. apply map_ext. intros d.
      unfold ren. simpl. destruct (Nat.ltb_spec i a); [auto|lia].
    - unfold chain_row. rewrite concat_map, map_map. f_equal. clear L1 L3.
      assert (forall n k (rows : list (list nat)), k + n <= b ->
        map (fun ir => map (fun d => ren phi (fst ir, d)) (snd ir)) (combine (seq (a + k) n) rows) =
        map (fun x => map (pair a) (map (phi (fst x)) (snd x))) (combine (seq k n) rows)) as H.
      { induction n as [|n IH]; intros k rows Hk; auto. destruct rows as [|r rows]; auto. cbn [seq combine map fst snd].
        f_equal; [|rewrite <- (IH (Datatypes.S k) rows); [now rewrite Nat.add_succ_r|lia]].
        rewrite map_map. apply map_ext. intros d. unfold ren. simpl. destruct (Nat.ltb_spec (a + k) a); [lia|].
        destruct (Nat.ltb_spec (a + k) (a + b)); [|lia]. do 2 f_equal. lia. }
      specialize (H b 0 r2 (le_n b)). now rewrite Nat.add_0_r in H.
    - f_equal. clear L1 L2 L3.
      assert (forall n k (rows : list (list nat)),
        map (fun ir => map (fun d => ren phi (fst ir, d)) (snd ir)) (combine (seq (a + b + k) n) rows) =
        map (fun ir => map (pair (fst ir)) (snd ir)) (combine (seq (Datatypes.S a + k) n) rows)) as H.
      { induction n as [|n IH]; intros k rows; auto. destruct rows as [|r rows]; auto. cbn [seq combine map fst snd].
        f_equal; [|rewrite <- !Nat.add_succ_r; apply IH].
        apply map_ext. intros d. unfold ren. simpl. destruct (Nat.ltb_spec (a + b + k) a); [lia|].
        destruct (Nat.ltb_spec (a + b + k) (a + b)); [lia|]. f_equal. lia. }
      specialize (H (length post) 0 r3). now rewrite !Nat.add_0_r in H.
  Qed.

  Lemma flat_method_0 l0 s0 : hd_error long = Some l0 -> hd_error short = Some s0 -> map keys l0 = map keys s0 ->
    (forall g, In g mid -> forall e, In e (concat (map keys g)) <-> In e (concat (map keys c))) ->
    chain_method_0 long = chain_method_0 short.
  Proof.
    intros Hl Hs0 Hkeys Hmk. rewrite (chain_method_0_unfold long l0 Hl), (chain_method_0_unfold short s0 Hs0).
    rewrite Hkeys. pose proof Hc as (HC & _ & _)%(chaining_correct _ _ wf_mid).
    assert (total_dofs long = total_dofs short) as Et.
    { assert (forall l1 l2, total_dofs (l1 ++ l2) = total_dofs l1 + total_dofs l2) as Happ.
      { clear. intros l1 l2. unfold total_dofs. induction l1; simpl; auto. rewrite IHl1. lia. }
      unfold long, short. rewrite !Happ. change (total_dofs (c :: post)) with (num_dofs c + total_dofs post).
      f_equal. f_equal. symmetry. apply num_dofs_exactly. eapply (chained_exactly mid c); eauto using wf_mid. intros; now apply Hmk with (g := g). }
    fold (total_dofs long). fold (total_dofs short). rewrite Et.
    destruct HC as (phi & C1 & C2 & C3).
    assert (forall e, row_keys (map all_of short) e = option_map (map (ren phi)) (row_keys (map all_of long) e)) as Hrow.
    { intros e. destruct (row_keys (map all_of long) e) as [ks|] eqn:E.
      - simpl. apply (row_keys_spec long e ks Hw) in E as (rows & Hrows & ->).
        pose proof Hrows as Hr. unfold long in Hr. apply rows_app_inv in Hr as (r1 & r23 & -> & H1 & H23). apply rows_app_inv in H23 as (r2 & r3 & -> & H2 & H3).
        rewrite (ren_rows phi r1 r2 r3 (eq_sym (Forall2_len _ _ _ H1)) (eq_sym (Forall2_len _ _ _ H2)) (eq_sym (Forall2_len _ _ _ H3))).
        apply (row_keys_spec short e _ wf_short). exists (r1 ++ chain_row phi 0 b r2 :: r3). split; auto.
        apply Forall2_app; auto. constructor; auto.
        assert (In e (concat (map keys c))) as He.
        { apply chaining_inv in Hc as (g0 & Hg0 & _). destruct mid as [|m mid']; [discriminate|].
          inversion H2; subst. apply (Hmk m); [simpl; auto|]. apply row_at_key. eauto. }
        apply row_at_key in He as [row Hrow]. destruct (C1 _ _ Hrow) as (rows & Hr & ->). 
        rewrite (rows_fun mid e rows r2 wf_mid Hr H2) in Hrow. exact Hrow.
      - simpl. destruct (row_keys (map all_of short) e) as [ks|] eqn:E2; auto. exfalso.
        apply (row_keys_spec short e ks wf_short) in E2 as (rows & Hr & _). unfold short in Hr.
        apply rows_app_inv in Hr as (r1 & r23 & -> & H1 & H23). inversion H23 as [|? r2 ? r3 H2 H3]; subst.
        destruct (C1 _ _ H2) as (rows2 & Hr2 & _).
        assert (row_keys (map all_of long) e = Some (concat (map (fun ir => map (pair (fst ir)) (snd ir)) (combine (seq 0 (length long)) (r1 ++ rows2 ++ r3))))); [|congruence].
        apply (row_keys_spec long e _ Hw). exists (r1 ++ rows2 ++ r3). split; auto. unfold long. repeat apply Forall2_app; auto. }
    set (S := fun k : key => exists g, nth_error long (fst k) = Some g /\ used g (snd k)).
    assert (forall k k', S k -> S k' -> ren phi k = ren phi k' -> k = k') as Hinj.
    { assert (forall i g, i < b -> nth_error long (a + i) = Some g -> nth_error mid i = Some g) as Hmid.
      { intros i g Hi. unfold long. rewrite nth_error_app2 by (fold a; lia). fold a. replace (a + i - a) with i by lia.
        rewrite nth_error_app1 by auto. auto. }
      intros [i d] [j d'] (g & Hg & Hd) (h & Hh & Hd'). unfold ren. cbn [fst snd] in *.
      destruct (Nat.ltb_spec i a), (Nat.ltb_spec j a); [auto| | |].
      - destruct (Nat.ltb_spec j (a + b)); intros E; pose proof (f_equal fst E) as E1; pose proof (f_equal snd E) as E2; cbn [fst snd] in E1, E2; lia.
      - destruct (Nat.ltb_spec i (a + b)); intros E; pose proof (f_equal fst E) as E1; pose proof (f_equal snd E) as E2; cbn [fst snd] in E1, E2; lia.
      - destruct (Nat.ltb_spec i (a + b)), (Nat.ltb_spec j (a + b)); intros E; pose proof (f_equal fst E) as E1; pose proof (f_equal snd E) as E2; cbn [fst snd] in E1, E2; try lia.
        + replace i with (a + (i - a)) in Hg by lia. replace j with (a + (j - a)) in Hh by lia.
          apply Hmid in Hg; [|lia]. apply Hmid in Hh; [|lia].
          destruct (C2 _ _ _ _ _ _ Hg Hh Hd Hd' E2) as [E3 ->]. f_equal. lia.
        + subst d'. f_equal. lia. }
    assert (forall e k, row_has (map all_of long) e k -> S k) as HS.
    { intros e [i d] Hk. apply (in_key_row long e i d Hw) in Hk as (_ & g & r & H1 & H2 & H3). exists g. split; auto. exists e, r. auto. }
    pose proof (chain_ranks_map (ren phi) S Hinj (map all_of long) (map all_of short) (map keys s0) (fun e _ => Hrow e) (fun e k _ => HS e k) [] 0 (fun k (H : In k []) => match H with end)) as HM.
    change (mf (ren phi) []) with (@nil (key * nat)) in HM. rewrite HM.
    destruct (chain_ranks (map all_of long) (map keys s0) ([], 0)) as [[g [p cur]]|]; auto.
  Qed.
End Flat.

Lemma same_keys_ranks_iff a : forall b, same_keys_ranks a b = true <-> Forall2 (fun x y => forall e, In e (keys x) <-> In e (keys y)) a b.
Proof.
  induction a as [|x a IH]; intros [|y b]; simpl; split; intros H; auto; try discriminate; try (inversion H; fail).
  - apply andb_true_iff in H as [H1 H2]. constructor; [now apply same_keys_spec|now apply IH].
  - inversion H; subst. apply andb_true_iff. split; [now apply same_keys_spec|now apply IH].
Qed.
Definition agree (a b : dgm) : Prop := Forall2 (fun x y : rgm => forall e, In e (keys x) <-> In e (keys y)) a b.
Lemma agree_refl a : agree a a.
Proof. induction a; constructor; auto. tauto. Qed.
Lemma agree_sym a b : agree a b -> agree b a.
Proof. induction 1; constructor; auto. intros e. now rewrite H. Qed.
Lemma agree_trans a b c : agree a b -> agree b c -> agree a c.
Proof.
  intros H. revert c. induction H; intros c Hc; inversion Hc; subst; constructor; [|now apply IHForall2].
  intros e. rewrite H. auto.
Qed.
Lemma agree_keys a b : map keys a = map keys b -> agree a b.
Proof.
  revert b. induction a as [|x a IH]; intros [|y b]; simpl; try discriminate; [constructor|]. intros [= E1 E2].
  constructor; [|now apply IH]. intros e. now rewrite E1.
Qed.
Lemma agree_in a b : agree a b -> forall e, In e (concat (map keys a)) <-> In e (concat (map keys b)).
Proof. intros H. apply same_keys_ranks_in. now apply same_keys_ranks_iff. Qed.
(** all members agree with all others *)
Definition all_agree (gms : list dgm) : Prop := forall a b, In a gms -> In b gms -> agree a b.
Lemma check_iff gms g0 : hd_error gms = Some g0 -> (forallb (fun g => same_keys_ranks g g0) gms = true <-> all_agree gms).
Proof.
  intros H0. rewrite forallb_forall. split.
  - intros H a b Ha Hb. apply (agree_trans a g0).
    + apply same_keys_ranks_iff; auto.
    + apply agree_sym. apply same_keys_ranks_iff; auto.
  - intros H g Hg. apply same_keys_ranks_iff. apply H; auto. destruct gms; [discriminate|]. injection H0 as ->. simpl; auto.
Qed.
Lemma chaining_def gms : chaining gms = match gms with
  | g0 :: _ :: _ => if forallb (fun g => same_keys_ranks g g0) gms then chain_method_0 gms else None | _ => None end.
Proof. reflexivity. Qed.
Lemma chaining_cases gms g0 : 2 <= length gms -> hd_error gms = Some g0 ->
  (all_agree gms /\ chaining gms = chain_method_0 gms) \/ (~ all_agree gms /\ chaining gms = None).
Proof.
  intros Hl H0. rewrite <- (check_iff gms g0 H0). destruct gms as [|g [|g1 l]]; simpl in Hl; try lia. injection H0 as ->.
  rewrite chaining_def. destruct (forallb _ _); [left|right]; split; auto.
Qed.

Lemma hd_some {A} (l : list A) : 2 <= length l -> exists a, hd_error l = Some a.
Proof. destruct l; simpl; [lia|eauto]. Qed.
Lemma chaining_flat pre mid post c : Forall wf_numbering (pre ++ mid ++ post) -> chaining mid = Some c ->
  2 <= length (pre ++ c :: post) -> chaining (pre ++ c :: post) = chaining (pre ++ mid ++ post).
Proof.
  intros Hw Hc Hl. set (long := pre ++ mid ++ post). set (short := pre ++ c :: post) in *.
  pose proof (chaining_correct _ _ (wf_mid _ _ _ Hw) Hc) as (_ & _ & m0 & Hm0 & Ek).
  pose proof Hc as (m0' & Hm0' & _ & Hlm & Hkm)%chaining_inv. rewrite Hm0 in Hm0'. injection Hm0' as <-.
  apply (check_iff mid m0 Hm0) in Hkm.
  assert (In m0 mid) as Im0 by (destruct mid; [discriminate|injection Hm0 as ->; simpl; auto]).
  assert (forall g, In g mid -> agree g c) as Hgc.
  { intros g Hg. apply (agree_trans _ m0); [apply Hkm; auto|]. apply agree_sym, agree_keys. auto. }
  assert (2 <= length long) as Hll by (unfold long; rewrite !app_length; lia).
  assert (exists l0, hd_error long = Some l0) as [l0 Hl0] by (apply hd_some; lia).
  assert (exists s0, hd_error short = Some s0) as [s0 Hs0] by (apply hd_some; lia).
  assert (map keys l0 = map keys s0) as E0.
  { unfold long, short in *. destruct pre as [|p pre']; simpl in *; [|congruence].
    injection Hs0 as <-. destruct mid as [|m mid']; [discriminate|]. simpl in *. congruence. }
  assert (all_agree long <-> all_agree short) as Hag.
  { split; intros H a b Ha Hb.
    - assert (forall x, In x short -> exists y, In y long /\ agree x y) as Hx.
      { intros x. unfold short, long. rewrite in_app_iff. cbn [In]. intros [?|[<-|?]].
        - exists x. split; [apply in_or_app; auto|apply agree_refl].
        - exists m0. split; [apply in_or_app; right; apply in_or_app; auto|apply agree_sym; auto].
        - exists x. split; [apply in_or_app; right; apply in_or_app; auto|apply agree_refl]. }
      destruct (Hx a Ha) as (a' & Ha' & Aa), (Hx b Hb) as (b' & Hb' & Ab).
      apply (agree_trans _ a'); auto. apply (agree_trans _ b'); [apply H; auto|]. now apply agree_sym.
    - assert (forall x, In x long -> exists y, In y short /\ agree x y) as Hx.
      { intros x. unfold short, long. rewrite !in_app_iff. intros [?|[?|?]].
        - exists x. split; [apply in_or_app; auto|apply agree_refl].
        - exists c. split; [apply in_or_app; simpl; auto|auto].
        - exists x. split; [apply in_or_app; simpl; auto|apply agree_refl]. }
      destruct (Hx a Ha) as (a' & Ha' & Aa), (Hx b Hb) as (b' & Hb' & Ab).
      apply (agree_trans _ a'); auto. apply (agree_trans _ b'); [apply H; auto|]. now apply agree_sym. }
  assert (chain_method_0 long = chain_method_0 short) as Em.
  { apply (flat_method_0 pre mid post c Hw Hc l0 s0 Hl0 Hs0 E0). intros g Hg. apply agree_in. auto. }
  destruct (chaining_cases long l0 Hll Hl0) as [[A1 ->]|[A1 ->]], (chaining_cases short s0 Hl Hs0) as [[A2 ->]|[A2 ->]]; auto; [destruct A2; now apply Hag|destruct A1; now apply Hag].
Qed.

Lemma chain_eq gms : 2 <= length gms -> chain gms = chaining gms.
Proof. destruct gms as [|a [|b l]]; simpl; try lia. reflexivity. Qed.
Lemma chain_flat pre mid post c : Forall wf_numbering (pre ++ mid ++ post) -> chain mid = Some c ->
  chain (pre ++ c :: post) = chain (pre ++ mid ++ post).
Proof.
  intros Hw Hc. destruct mid as [|m [|m' mid]]; [discriminate|simpl in Hc; injection Hc as ->; auto|].
  assert (2 <= length (pre ++ (m :: m' :: mid) ++ post)) as Hl by (rewrite !app_length; simpl; lia).
  rewrite (chain_eq _ Hl). rewrite chain_eq in Hc by (simpl; lia).
  destruct (le_lt_dec 2 (length (pre ++ c :: post))) as [H2|H2].
  - rewrite (chain_eq _ H2). now apply chaining_flat.
  - rewrite app_length in H2. simpl in H2. assert (pre = []) as -> by (destruct pre; simpl in *; auto; lia).
    assert (post = []) as -> by (destruct post; simpl in *; auto; lia). simpl. rewrite app_nil_r. auto.
Qed.
Lemma chain_wf gms c : Forall wf_numbering gms -> chain gms = Some c -> wf_numbering c.
Proof.
  destruct gms as [|a [|b l]]; intros Hw Hc; [discriminate| |].
  - injection Hc as <-. now inversion Hw.
  - rewrite chain_eq in Hc by (simpl; lia). now apply chaining_correct in Hc.
Qed.
(** chaining matrices that are themselves chains is chaining all the roots *)
Lemma chain_flatten (roots : list (list dgm)) (gs : list dgm) : Forall (Forall wf_numbering) roots ->
  Forall2 (fun r g => chain r = Some g) roots gs -> chain gs = chain (concat roots).
Proof.
  intros Hw H.
  assert (forall pre, Forall wf_numbering pre -> chain (pre ++ gs) = chain (pre ++ concat roots)) as HH; [|apply (HH [] (Forall_nil _))].
  induction H as [|r g roots gs Hr H IH]; intros pre Hp; auto. inversion Hw as [|? ? Hwr Hwrs]; subst. cbn [concat].
  assert (Forall wf_numbering gs) as Hgs.
  { clear - H Hwrs. induction H; constructor; inversion Hwrs; subst; auto. eapply chain_wf; eauto. }
  rewrite (chain_flat pre r gs g); [|apply Forall_app; split; [|apply Forall_app]; auto|auto].
  rewrite !app_assoc. apply IH; auto. apply Forall_app; auto.
Qed.
