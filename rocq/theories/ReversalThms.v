(** Proofs about the search for faces with opposite directions. *)
From Coq Require Import List Arith ZArith Reals Bool Lia Lra Sorted Permutation.
From Verif Require Import ReversalModel ReversalSpec.
Import ListNotations.

(** * the pool as groups of occurrences *)
Record occ := { o_key : nat * nat; o_pos : position; o_val : R; o_gm : nat }.
Definition occ_of (k : form) (e : element) (f : nat) : option occ :=
  match face_data k e f with
  | Some (key, v, g) => Some {| o_key := key; o_pos := (e_type e, e_id e, f); o_val := v; o_gm := g |}
  | None => None
  end.
Fixpoint occs_e (k : form) (e : element) (fs : list nat) : option (list occ) :=
  match fs with
  | [] => Some []
  | f :: r => match occ_of k e f, occs_e k e r with Some o, Some l => Some (o :: l) | _, _ => None end
  end.
Definition nfaces (k : form) (e : element) : list nat := seq 0 (length (cochain_indices k (e_type e))).
Fixpoint occs (k : form) (m : list element) : option (list occ) :=
  match m with
  | [] => Some []
  | e :: r => match occs_e k e (nfaces k e), occs k r with Some a, Some b => Some (a ++ b) | _, _ => None end
  end.
Fixpoint add_occs (L : list occ) (p : pool) : option pool :=
  match L with
  | [] => Some p
  | o :: r => match add_face p (o_key o) (o_pos o) (o_val o) (o_gm o) with Some p' => add_occs r p' | None => None end
  end.
Definition bind {A B} (o : option A) (f : A -> option B) : option B := match o with Some x => f x | None => None end.

Lemma add_occs_app A B p : add_occs (A ++ B) p = bind (add_occs A p) (add_occs B).
Proof. revert p; induction A as [|o A IH]; intros p; cbn; [reflexivity|]. destruct (add_face _ _ _ _ _); cbn; auto. Qed.
Lemma add_faces_occs k e fs p : bind (occs_e k e fs) (fun L => add_occs L p) = match occs_e k e fs with Some _ => add_faces k e fs p | None => None end.
Proof.
  revert p; induction fs as [|f r IH]; intros p; cbn; [reflexivity|]. unfold occ_of.
  destruct (face_data k e f) as [[[key v] g]|]; cbn; [|reflexivity].
  destruct (occs_e k e r) as [l|] eqn:E; cbn; [|reflexivity].
  destruct (add_face p key _ v g) as [p'|]; [|reflexivity]. specialize (IH p'). cbn in IH. exact IH.
Qed.
Lemma add_faces_some k e fs p p' : add_faces k e fs p = Some p' -> exists L, occs_e k e fs = Some L /\ add_occs L p = Some p'.
Proof.
  revert p; induction fs as [|f r IH]; intros p H; cbn in *; [injection H as <-; exists []; auto|]. unfold occ_of.
  destruct (face_data k e f) as [[[key v] g]|]; [|discriminate].
  destruct (add_face p key _ v g) as [q|] eqn:E; [|discriminate].
  destruct (IH q H) as (L & H1 & H2). rewrite H1. eexists; split; [reflexivity|]. cbn. rewrite E. exact H2.
Qed.
Lemma add_elements_some k m p p' : add_elements k m p = Some p' -> exists L, occs k m = Some L /\ add_occs L p = Some p'.
Proof.
  revert p; induction m as [|e r IH]; intros p H; cbn in *; [injection H as <-; exists []; auto|].
  fold (nfaces k e) in *. destruct (add_faces k e (nfaces k e) p) as [q|] eqn:E; [|discriminate].
  destruct (add_faces_some _ _ _ _ _ E) as (L & H1 & H2). destruct (IH q H) as (L' & H3 & H4).
  rewrite H1, H3. eexists; split; [reflexivity|]. rewrite add_occs_app, H2. exact H4.
Qed.
Lemma add_elements_of k m p L p' : occs k m = Some L -> add_occs L p = Some p' -> add_elements k m p = Some p'.
Proof.
  revert p L; induction m as [|e r IH]; intros p L H1 H2; cbn in *; [injection H1 as <-; exact H2|].
  fold (nfaces k e). destruct (occs_e k e (nfaces k e)) as [A|] eqn:E; [|discriminate].
  destruct (occs k r) as [B|]; [|discriminate]. injection H1 as <-. rewrite add_occs_app in H2.
  generalize (add_faces_occs k e (nfaces k e) p). rewrite E. cbn. intros <-.
  destruct (add_occs A p) as [q|]; [|discriminate]. exact (IH q B eq_refl H2).
Qed.

Lemma key_eqb_eq x y : key_eqb x y = true <-> x = y.
Proof. unfold key_eqb. destruct x, y; cbn. rewrite andb_true_iff, !Nat.eqb_eq. split; [intros [-> ->]; reflexivity|intros H; injection H; auto]. Qed.
Lemma key_eqb_refl x : key_eqb x x = true.
Proof. now apply key_eqb_eq. Qed.
Definition grp (key : nat * nat) (L : list occ) : list occ := filter (fun o => key_eqb (o_key o) key) L.
Lemma grp_app key A B : grp key (A ++ B) = grp key A ++ grp key B.
Proof. apply filter_app. Qed.
Lemma grp_in key L o : In o (grp key L) <-> In o L /\ o_key o = key.
Proof. unfold grp. rewrite filter_In, key_eqb_eq. tauto. Qed.

Record inv (p : pool) (L : list occ) : Prop := {
  i_grp : forall x, In x p -> n_pos x = map o_pos (grp (n_key x) L) /\ n_val x = map o_val (grp (n_key x) L) /\ grp (n_key x) L <> [];
  i_nodup : NoDup (map n_key p);
  i_keys : forall o, In o L -> In (o_key o) (map n_key p);
  i_gm : forall x o, In x p -> In o L -> o_key o = n_key x -> o_gm o = n_gm x }.

Lemma inv_nil : inv [] [].
Proof. split; cbn; try tauto. constructor. Qed.

Lemma add_face_keys p key pos v g p' : add_face p key pos v g = Some p' ->
  (In key (map n_key p) /\ map n_key p' = map n_key p) \/ (~ In key (map n_key p) /\ map n_key p' = map n_key p ++ [key]).
Proof.
  revert p'; induction p as [|x r IH]; intros p' H; cbn in *.
  - injection H as <-. right. cbn. tauto.
  - destruct (key_eqb (n_key x) key) eqn:E.
    + apply key_eqb_eq in E. destruct (g =? n_gm x); [|discriminate]. injection H as <-. left. cbn. auto.
    + destruct (add_face r key pos v g) as [q|]; [|discriminate]. injection H as <-. cbn.
      assert (n_key x <> key) by (intros <-; rewrite key_eqb_refl in E; discriminate).
      destruct (IH q eq_refl) as [[A B]|[A B]]; rewrite B; [left|right]; tauto.
Qed.
Lemma add_face_entries p key pos v g p' x : add_face p key pos v g = Some p' -> NoDup (map n_key p) -> In x p' ->
  (n_key x <> key /\ In x p) \/
  (n_key x = key /\ ((~ In key (map n_key p) /\ n_pos x = [pos] /\ n_val x = [v] /\ n_gm x = g) \/
     exists y, In y p /\ n_key y = key /\ g = n_gm y /\ n_pos x = n_pos y ++ [pos] /\ n_val x = n_val y ++ [v] /\ n_gm x = n_gm y)).
Proof.
  revert p'; induction p as [|y r IH]; intros p' H ND Hx; cbn in *.
  - injection H as <-. destruct Hx as [<-|[]]. cbn. right. split; auto.
  - inversion ND as [|? ? N1 N2]; subst. destruct (key_eqb (n_key y) key) eqn:E.
    + apply key_eqb_eq in E. destruct (Nat.eqb_spec g (n_gm y)) as [G|]; [|discriminate]. injection H as <-.
      destruct Hx as [<-|Hx]; cbn.
      * right. split; [exact E|]. right. exists y. repeat split; auto.
      * left. split; [|auto]. intros F. apply N1. rewrite E, <- F. now apply in_map.
    + assert (NE : n_key y <> key) by (intros <-; rewrite key_eqb_refl in E; discriminate).
      destruct (add_face r key pos v g) as [q|]; [|discriminate]. injection H as <-.
      destruct Hx as [<-|Hx]; [left; auto|].
      destruct (IH q eq_refl N2 Hx) as [[A B]|[A [(B & C)|(z & B & C)]]]; [left; auto| |].
      * right. split; [exact A|]. left. split; [tauto|exact C].
      * right. split; [exact A|]. right. exists z. split; auto.
Qed.
Lemma inv_add p L o p' : inv p L -> add_face p (o_key o) (o_pos o) (o_val o) (o_gm o) = Some p' -> inv p' (L ++ [o]).
Proof.
  intros [IG IN IK IM] H. pose proof (add_face_keys _ _ _ _ _ _ H) as HK.
  assert (G1 : forall key, key <> o_key o -> grp key (L ++ [o]) = grp key L).
  { intros key N. rewrite grp_app. cbn. destruct (key_eqb (o_key o) key) eqn:E; [apply key_eqb_eq in E; congruence|]. apply app_nil_r. }
  assert (G2 : grp (o_key o) (L ++ [o]) = grp (o_key o) L ++ [o]).
  { rewrite grp_app. cbn. now rewrite key_eqb_refl. }
  assert (G3 : ~ In (o_key o) (map n_key p) -> grp (o_key o) L = []).
  { intros N. destruct (grp (o_key o) L) as [|z l] eqn:E; [reflexivity|]. exfalso. apply N.
    assert (Z : In z (grp (o_key o) L)) by (rewrite E; now left). apply grp_in in Z as [Z1 Z2]. rewrite <- Z2. now apply IK. }
  split.
  - intros x Hx. destruct (add_face_entries _ _ _ _ _ _ x H IN Hx) as [[A B]|[A [(B & C & D & _)|(y & B & C & _ & D & E & _)]]].
    + rewrite G1 by exact A. auto.
    + rewrite A, G2, (G3 B). cbn. repeat split; auto; discriminate.
    + rewrite A, G2. destruct (IG y B) as (P & Q & _). rewrite C in P, Q. rewrite !map_app, D, E, P, Q. cbn. repeat split; auto.
      intros F. now apply app_eq_nil in F.
  - destruct HK as [[A ->]|[A ->]]; [exact IN|]. apply (Permutation_NoDup (Permutation_cons_append _ _)). now constructor.
  - intros z Hz. apply in_app_or in Hz as [Hz|[<-|[]]].
    + destruct HK as [[_ ->]|[_ ->]]; [auto|apply in_or_app; auto].
    + destruct HK as [[A ->]|[_ ->]]; [exact A|apply in_or_app; cbn; auto].
  - intros x z Hx Hz E. destruct (add_face_entries _ _ _ _ _ _ x H IN Hx) as [[A B]|[A C]].
    + apply in_app_or in Hz as [Hz|[<-|[]]]; [auto|congruence].
    + destruct C as [(C & _ & _ & D)|(y & B & C & D & _ & _ & F)].
      * apply in_app_or in Hz as [Hz|[<-|[]]]; [|auto]. exfalso. apply C. rewrite <- A, <- E. auto.
      * apply in_app_or in Hz as [Hz|[<-|[]]]; [|congruence]. rewrite F. apply IM; congruence.
Qed.

Lemma inv_occs L p p0 L0 : inv p0 L0 -> add_occs L p0 = Some p -> inv p (L0 ++ L).
Proof.
  revert p0 L0; induction L as [|o L IH]; intros p0 L0 I H; cbn in H.
  - injection H as <-. now rewrite app_nil_r.
  - destruct (add_face p0 _ _ _ _) as [q|] eqn:E; [|discriminate].
    replace (L0 ++ o :: L) with ((L0 ++ [o]) ++ L) by (rewrite <- app_assoc; reflexivity).
    exact (IH q _ (inv_add _ _ _ _ I E) H).
Qed.
Lemma inv_pool L p : add_occs L [] = Some p -> inv p L.
Proof. exact (inv_occs L p [] [] inv_nil). Qed.

(** success of the numbering test *)
Lemma add_face_total p key pos v g : NoDup (map n_key p) -> (forall x, In x p -> n_key x = key -> n_gm x = g) -> exists p', add_face p key pos v g = Some p'.
Proof.
  intros ND H. induction p as [|x r IH]; cbn; [eauto|]. inversion ND; subst.
  destruct (key_eqb (n_key x) key) eqn:E.
  - apply key_eqb_eq in E. rewrite (H x) by (cbn; auto). rewrite Nat.eqb_refl. eauto.
  - destruct IH as [q ->]; [assumption|intros; apply H; cbn; auto|]. cbn. eauto.
Qed.
Lemma add_occs_total L p0 L0 : inv p0 L0 -> (forall o o', In o (L0 ++ L) -> In o' (L0 ++ L) -> o_key o = o_key o' -> o_gm o = o_gm o') ->
  exists p, add_occs L p0 = Some p.
Proof.
  revert p0 L0; induction L as [|o L IH]; intros p0 L0 I H; cbn; [eauto|].
  destruct (add_face_total p0 (o_key o) (o_pos o) (o_val o) (o_gm o)) as [q Q]; [apply I| |].
  - intros x Hx E. destruct (i_grp _ _ I x Hx) as (_ & _ & NE).
    destruct (grp (n_key x) L0) as [|z l] eqn:EG; [tauto|].
    assert (Z : In z (grp (n_key x) L0)) by (rewrite EG; now left). apply grp_in in Z as [Z1 Z2].
    rewrite <- (i_gm _ _ I x z Hx Z1 Z2). apply H; [apply in_or_app; auto|apply in_or_app; right; now left|congruence].
  - rewrite Q. apply (IH q (L0 ++ [o])); [exact (inv_add _ _ _ _ I Q)|]. rewrite <- app_assoc. exact H.
Qed.

(** * occurrences and faces *)
Lemma occs_e_in k e fs L o : occs_e k e fs = Some L -> In o L <-> exists f, In f fs /\ occ_of k e f = Some o.
Proof.
  revert L; induction fs as [|f r IH]; intros L H; cbn in *.
  - injection H as <-. split; [intros []|intros (? & [] & _)].
  - destruct (occ_of k e f) as [x|] eqn:E; [|discriminate]. destruct (occs_e k e r) as [l|]; [|discriminate]. injection H as <-. cbn.
    rewrite (IH l eq_refl). split.
    + intros [<-|(g & A & B)]; eauto.
    + intros (g & [<-|A] & B); [left; congruence|eauto].
Qed.
Lemma occs_e_none k e fs : occs_e k e fs = None -> exists f, In f fs /\ occ_of k e f = None.
Proof.
  induction fs as [|f r IH]; cbn; [discriminate|]. destruct (occ_of k e f) eqn:E; [|eauto].
  destruct (occs_e k e r); [discriminate|]. intros _. destruct IH as (g & A & B); eauto.
Qed.
Lemma occs_in k m L o : occs k m = Some L -> In o L <-> exists e f, In e m /\ In f (nfaces k e) /\ occ_of k e f = Some o.
Proof.
  revert L; induction m as [|e r IH]; intros L H; cbn in *.
  - injection H as <-. split; [intros []|intros (? & ? & [] & _)].
  - destruct (occs_e k e (nfaces k e)) as [A|] eqn:E; [|discriminate]. destruct (occs k r) as [B|]; [|discriminate]. injection H as <-.
    rewrite in_app_iff, (occs_e_in _ _ _ _ _ E), (IH B eq_refl). split.
    + intros [(f & ? & ?)|(e' & f & ? & ? & ?)]; eauto 6.
    + intros (e' & f & [<-|?] & ? & ?); eauto 6.
Qed.
Definition place (o : occ) : nat * nat := (snd (fst (o_pos o)), snd (o_pos o)).
Lemma occ_of_place k e f o : occ_of k e f = Some o -> o_pos o = (e_type e, e_id e, f).
Proof. unfold occ_of. destruct (face_data k e f) as [[[? ?] ?]|]; intros H; [injection H as <-; reflexivity|discriminate]. Qed.
Lemma occs_e_places k e fs L : occs_e k e fs = Some L -> map place L = map (fun f => (e_id e, f)) fs.
Proof.
  revert L; induction fs as [|f r IH]; intros L H; cbn in *; [injection H as <-; reflexivity|].
  destruct (occ_of k e f) as [x|] eqn:E; [|discriminate]. destruct (occs_e k e r) as [l|]; [|discriminate]. injection H as <-. cbn.
  rewrite (IH l eq_refl). unfold place. now rewrite (occ_of_place _ _ _ _ E).
Qed.
Lemma nodup_app {A} (l l' : list A) : NoDup l -> NoDup l' -> (forall x, In x l -> ~ In x l') -> NoDup (l ++ l').
Proof.
  intros H H' D. induction l as [|x l IH]; cbn; [exact H'|]. inversion H; subst. constructor.
  - rewrite in_app_iff. intros [?|?]; [tauto|]. apply (D x); cbn; auto.
  - apply IH; auto. intros; apply D; cbn; auto.
Qed.
Lemma occs_nodup k m L : distinct_ids m -> occs k m = Some L -> NoDup (map place L).
Proof.
  unfold distinct_ids. revert L; induction m as [|e r IH]; intros L D H; cbn in *.
  - injection H as <-. constructor.
  - destruct (occs_e k e (nfaces k e)) as [A|] eqn:E; [|discriminate]. destruct (occs k r) as [B|] eqn:EB; [|discriminate]. injection H as <-.
    inversion D; subst. rewrite map_app. apply nodup_app; [|now apply IH|].
    + rewrite (occs_e_places _ _ _ _ E). apply FinFun.Injective_map_NoDup; [|apply seq_NoDup]. intros a b X. now injection X.
    + rewrite (occs_e_places _ _ _ _ E). intros q Hq Hq'. apply in_map_iff in Hq as (f & <- & _).
      apply in_map_iff in Hq' as (o & Ho & HB). apply (occs_in _ _ _ _ EB) in HB as (e' & f' & M & _ & O).
      unfold place in Ho. rewrite (occ_of_place _ _ _ _ O) in Ho. cbn in Ho. injection Ho as Ho _. apply H1. rewrite <- Ho. now apply in_map.
Qed.
Lemma sort2_same a b c d : sort2 a b = sort2 c d <-> same_ends a b c d.
Proof.
  unfold sort2, same_ends. destruct (Nat.leb_spec a b), (Nat.leb_spec c d); split;
    try (intros X; injection X; intros; subst; lia); intros [[-> ->]|[-> ->]]; try reflexivity; try lia; f_equal; lia.
Qed.
Lemma sort2_comm a b : sort2 a b = sort2 b a.
Proof. apply sort2_same. right. auto. Qed.
Lemma walk_face k t f i j : nth_error (walk k t) f = Some (i, j) ->
  (nth_error (face_setting t) f = Some (i, j) \/ nth_error (face_setting t) f = Some (j, i)) /\ exists c, nth_error (cochain_indices k t) f = Some c.
Proof. destruct k, t; do 5 (destruct f as [|f]; cbn; [intros H; try discriminate; injection H as <- <-; eauto|]); destruct f; discriminate. Qed.
Lemma face_walk k t f c : nth_error (cochain_indices k t) f = Some c -> exists i j, nth_error (walk k t) f = Some (i, j).
Proof. destruct k, t; do 5 (destruct f as [|f]; cbn; [intros H; try discriminate; eauto|]); destruct f; discriminate. Qed.
Lemma nfaces_index k e f : In f (nfaces k e) <-> exists c, nth_error (cochain_indices k (e_type e)) f = Some c.
Proof.
  unfold nfaces. rewrite in_seq. split.
  - intros H. destruct (nth_error (cochain_indices k (e_type e)) f) eqn:E; [eauto|]. apply nth_error_None in E. lia.
  - intros [c H]. assert (f < length (cochain_indices k (e_type e))) by (apply nth_error_Some; congruence). lia.
Qed.
(** every occurrence is a face with a direction *)
Lemma occ_runs k m L o : occs k m = Some L -> In o L -> exists x f i j c a b, In x m /\ o_pos o = (e_type x, e_id x, f) /\
  nth_error (walk k (e_type x)) f = Some (i, j) /\ nth_error (cochain_indices k (e_type x)) f = Some c /\
  nth_error (e_map x) i = Some a /\ nth_error (e_map x) j = Some b /\ o_key o = sort2 a b /\
  nth_error (e_cochain x) c = Some (o_val o) /\ nth_error (e_gm x) c = Some (o_gm o).
Proof.
  intros H Ho. apply (occs_in _ _ _ _ H) in Ho as (x & f & Hx & Hf & O). apply nfaces_index in Hf as [c Hc].
  destruct (face_walk _ _ _ _ Hc) as (i & j & W). exists x, f, i, j, c. pose proof (occ_of_place _ _ _ _ O) as P.
  unfold occ_of in O. destruct (face_data k x f) as [[[key v] g]|] eqn:FD; [|discriminate]. injection O as <-.
  unfold face_data in FD. rewrite Hc in FD. destruct (proj1 (walk_face _ _ _ _ _ W)) as [F|F]; rewrite F in FD;
    destruct (nth_error (e_map x) _) as [na|] eqn:Ea in FD; try discriminate; destruct (nth_error (e_map x) _) as [nb|] eqn:Eb in FD; try discriminate;
    destruct (nth_error (e_cochain x) c) as [v'|] eqn:Ev; try discriminate; destruct (nth_error (e_gm x) c) as [g'|] eqn:Eg; try discriminate; injection FD as <- <- <-.
  - exists na, nb. cbn. repeat split; auto.
  - exists nb, na. cbn. repeat split; auto. apply sort2_comm.
Qed.
Lemma runs_occ k m L e f t a b : occs k m = Some L -> runs k m e f t a b -> exists o, In o L /\ o_pos o = (t, e, f) /\ o_key o = sort2 a b.
Proof.
  intros H (x & i & j & Hx & <- & <- & W & A & B). destruct (walk_face _ _ _ _ _ W) as [F [c C]].
  assert (Hf : In f (nfaces k x)) by (apply nfaces_index; eauto).
  destruct (occ_of k x f) as [o|] eqn:O.
  - exists o. split; [apply (occs_in _ _ _ _ H); eauto 6|]. split; [exact (occ_of_place _ _ _ _ O)|].
    unfold occ_of in O. destruct (face_data k x f) as [[[key v] g]|] eqn:FD; [|discriminate]. injection O as <-. cbn.
    unfold face_data in FD. rewrite C in FD. destruct F as [F|F]; rewrite F, A, B in FD;
      destruct (nth_error (e_cochain x) c); try discriminate; destruct (nth_error (e_gm x) c); try discriminate; injection FD as <- <- <-; [reflexivity|apply sort2_comm].
  - exfalso. clear - H Hx Hf O. revert L H Hx. induction m as [|y r IH]; intros L H Hx; [destruct Hx|]. cbn in H.
    destruct (occs_e k y (nfaces k y)) as [A|] eqn:E; [|discriminate]. destruct (occs k r) as [B|]; [|discriminate].
    destruct Hx as [->|Hx]; [|eapply IH; eauto].
    clear - E O Hf. revert A E. generalize dependent (nfaces k x). induction l as [|g l IH]; intros Hf A E; [destruct Hf|]. cbn in E.
    destruct (occ_of k x g) eqn:G; [|discriminate]. destruct (occs_e k x l) as [l'|]; [|discriminate].
    destruct Hf as [->|Hf]; [congruence|eapply IH; eauto].
Qed.
Lemma occ_runs' k m L o : occs k m = Some L -> In o L -> exists t e f a b, o_pos o = (t, e, f) /\ runs k m e f t a b /\ o_key o = sort2 a b /\
  (forall w, measured k m w -> o_val o = w a b).
Proof.
  intros H Ho. destruct (occ_runs _ _ _ _ H Ho) as (x & f & i & j & c & a & b & Hx & P & W & C & A & B & K & V & _).
  exists (e_type x), (e_id x), f, a, b. split; [exact P|]. split; [exists x, i, j; auto 10|]. split; [exact K|].
  intros w M. destruct (M x f i j c Hx W C) as (a' & b' & A' & B' & V'). congruence.
Qed.
Lemma runs_unique k m e f t a b t' a' b' : distinct_ids m -> runs k m e f t a b -> runs k m e f t' a' b' -> t = t' /\ a = a' /\ b = b'.
Proof.
  intros D (x & i & j & Hx & E & T & W & A & B) (x' & i' & j' & Hx' & E' & T' & W' & A' & B').
  assert (x = x').
  { unfold distinct_ids in D. clear - D Hx Hx' E E'. induction m as [|y r IH]; [destruct Hx|]. cbn in D. inversion D; subst.
    destruct Hx as [->|Hx], Hx' as [->|Hx']; auto.
    - exfalso. apply H1. apply in_map_iff. eexists; split; [|eassumption]. congruence.
    - exfalso. apply H1. apply in_map_iff. eexists; split; [|eassumption]. congruence. }
  subst x' t t'. rewrite W in W'. injection W' as <- <-. split; [reflexivity|]. split; congruence.
Qed.

(** * judgement of one face *)
Local Open Scope R_scope.
Lemma isclose_refl v : isclose v v = true.
Proof.
  unfold isclose. destruct (Rle_dec _ _) as [|N]; [reflexivity|]. exfalso. apply N. replace (v - v) with 0 by ring. rewrite Rabs_R0.
  generalize (Rabs_pos v). lra.
Qed.
Lemma isclose_opp v : isclose v (- v) = false <-> clear v.
Proof.
  unfold isclose, clear. replace (v - - v) with (2 * v) by ring. rewrite Rabs_mult, (Rabs_right 2), Rabs_Ropp by lra.
  destruct (Rle_dec _ _) as [H|H]; split; intros; try discriminate; try reflexivity; lra.
Qed.
Local Close Scope R_scope.
Lemma priority_unstructured t : priority t <> (-1)%Z <-> unstructured t.
Proof. unfold unstructured. destruct t; cbn; split; intros; try (split; discriminate); try lia; try (exfalso; tauto); discriminate. Qed.

Lemma priority_low t : (-1 <= priority t)%Z.
Proof. destruct t; cbn; lia. Qed.
Lemma judge_all_in p l : judge_all p = Some l -> forall q, In q l <-> exists x lx, In x p /\ judge x = Some lx /\ In q lx.
Proof.
  revert l; induction p as [|y r IH]; intros l H q; cbn in *.
  - injection H as <-. split; [intros []|intros (? & ? & [] & _)].
  - destruct (judge y) as [a|] eqn:E; [|discriminate]. destruct (judge_all r) as [b|]; [|discriminate]. injection H as <-.
    rewrite in_app_iff, (IH b eq_refl). split.
    + intros [?|(x & lx & ? & ? & ?)]; eauto 6.
    + intros (x & lx & [<-|?] & J & ?); [left; congruence|eauto 6].
Qed.
Lemma judge_all_each p l : judge_all p = Some l -> forall x, In x p -> exists lx, judge x = Some lx.
Proof.
  revert l; induction p as [|y r IH]; intros l H x Hx; cbn in *; [destruct Hx|].
  destruct (judge y) as [a|] eqn:E; [|discriminate]. destruct (judge_all r) as [b|]; [|discriminate].
  destruct Hx as [<-|Hx]; eauto.
Qed.
Lemma judge_all_total p : (forall x, In x p -> exists lx, judge x = Some lx) -> exists l, judge_all p = Some l.
Proof.
  induction p as [|y r IH]; intros H; cbn; [eauto|]. destruct (H y) as [a ->]; [cbn; auto|]. destruct IH as [b ->]; [intros; apply H; cbn; auto|]. eauto.
Qed.

Lemma nodup_map_inj {A B} (g : A -> B) (l : list A) x y : NoDup (map g l) -> In x l -> In y l -> g x = g y -> x = y.
Proof.
  induction l as [|z l IH]; intros D Hx Hy E; [destruct Hx|]. cbn in D. inversion D; subst.
  destruct Hx as [->|Hx], Hy as [->|Hy]; auto; exfalso; apply H1; apply in_map_iff; eauto.
Qed.

Section Search.
Context (k : form) (m : list element) (L : list occ) (p : pool) (l : list (nat * nat)).
Context (HD : distinct_ids m) (HL : occs k m = Some L) (HP : add_occs L [] = Some p) (HJ : judge_all p = Some l).

Definition chosen (oa ob : occ) : occ := if (priority (fst (fst (o_pos ob))) <=? priority (fst (fst (o_pos oa))))%Z then oa else ob.
Lemma judged_entry x : In x p -> exists G, G = grp (n_key x) L /\
  ((exists o, G = [o] /\ judge x = Some []) \/
   (exists oa ob, G = [oa; ob] /\
      ((isclose (o_val oa) (o_val ob) = true /\ judge x = Some []) \/
       (isclose (o_val oa) (o_val ob) = false /\ isclose (o_val oa) (- o_val ob) = true /\
        ~ (priority (fst (fst (o_pos oa))) = (-1)%Z /\ priority (fst (fst (o_pos ob))) = (-1)%Z) /\
        judge x = Some [place (chosen oa ob)])))).
Proof.
  intros Hx. exists (grp (n_key x) L). split; [reflexivity|]. destruct (i_grp _ _ (inv_pool _ _ HP) x Hx) as (P & V & NE).
  destruct (judge_all_each _ _ HJ x Hx) as [lx J]. destruct (grp (n_key x) L) as [|oa [|ob [|oc G]]]; [tauto| | |].
  - left. exists oa. split; [reflexivity|]. unfold judge in *. rewrite P in *. cbn in *. destruct (o_pos oa) as [[? ?] ?]. exact J || reflexivity.
  - right. exists oa, ob. split; [reflexivity|]. unfold judge in *. rewrite P, V in *. cbn in *. unfold chosen, place.
    destruct (o_pos oa) as [[ta ea] fa] eqn:Pa, (o_pos ob) as [[tb eb] fb] eqn:Pb. cbn.
    destruct (isclose (o_val oa) (o_val ob)); [left; auto|]. right. split; [reflexivity|].
    destruct (isclose (o_val oa) (- o_val ob)); [|discriminate]. split; [reflexivity|].
    destruct ((priority ta =? priority tb)%Z && (priority tb =? -1)%Z) eqn:E; [discriminate|]. split.
    + intros [A B]. rewrite A, B in E. discriminate.
    + destruct (priority tb <=? priority ta)%Z; cbn; [rewrite Pa|rewrite Pb]; reflexivity.
  - exfalso. unfold judge in J. rewrite P in J. cbn in J. destruct (o_pos oa) as [[? ?] ?], (o_pos ob) as [[? ?] ?]. destruct G; discriminate.
Qed.
Lemma key_entry o : In o L -> exists x, In x p /\ n_key x = o_key o.
Proof. intros H. apply (i_keys _ _ (inv_pool _ _ HP)) in H. apply in_map_iff in H as (x & A & B). eauto. Qed.

(** the elements of the answer *)
Lemma reversed_iff o : In o L -> In (place o) l <->
  exists oa ob, grp (o_key o) L = [oa; ob] /\ isclose (o_val oa) (o_val ob) = false /\ o = chosen oa ob /\
    ~ (priority (fst (fst (o_pos oa))) = (-1)%Z /\ priority (fst (fst (o_pos ob))) = (-1)%Z).
Proof.
  intros Ho. rewrite (judge_all_in _ _ HJ). split.
  - intros (x & lx & Hx & J & Q). destruct (judged_entry x Hx) as (G & EG & [(o' & E & J')|(oa & ob & E & [[C J']|(C & C' & PR & J')])]).
    + rewrite J' in J. injection J as <-. destruct Q.
    + rewrite J' in J. injection J as <-. destruct Q.
    + rewrite J' in J. injection J as <-. destruct Q as [Q|[]].
      assert (Hc : In (chosen oa ob) (grp (n_key x) L)) by (rewrite <- EG, E; unfold chosen; destruct (_ <=? _)%Z; cbn; auto).
      apply grp_in in Hc as [Hc K].
      assert (o = chosen oa ob) by (apply (nodup_map_inj place L); auto; apply (occs_nodup k m); auto). subst o.
      exists oa, ob. rewrite K, <- EG. auto.
  - intros (oa & ob & E & C & EQ & _). destruct (key_entry o Ho) as (x & Hx & K).
    destruct (judged_entry x Hx) as (G & EG & [(o' & E' & J')|(oa' & ob' & E' & [[C' J']|(C' & _ & _ & J')])]); rewrite K, E in EG; subst G; try discriminate.
    + injection E' as <- <-. congruence.
    + injection E' as <- <-. exists x, [place (chosen oa ob)]. rewrite EQ. cbn. auto.
Qed.
Lemma two_of_key o1 o2 : In o1 L -> In o2 L -> o_key o1 = o_key o2 -> place o1 <> place o2 ->
  (grp (o_key o1) L = [o1; o2] \/ grp (o_key o1) L = [o2; o1]).
Proof.
  intros H1 H2 K N. destruct (key_entry o1 H1) as (x & Hx & KX).
  assert (I1 : In o1 (grp (o_key o1) L)) by (apply grp_in; auto).
  assert (I2 : In o2 (grp (o_key o1) L)) by (apply grp_in; auto).
  destruct (judged_entry x Hx) as (G & EG & [(o' & E & _)|(oa & ob & E & _)]); rewrite KX in EG; rewrite <- EG, E in *; cbn in I1, I2.
  - destruct I1 as [<-|[]], I2 as [<-|[]]. tauto.
  - destruct I1 as [<-|[<-|[]]], I2 as [<-|[<-|[]]]; auto; tauto.
Qed.
Lemma pair_answer oa ob : In oa L -> grp (o_key oa) L = [oa; ob] -> isclose (o_val oa) (o_val ob) = false ->
  ~ (priority (fst (fst (o_pos oa))) = (-1)%Z /\ priority (fst (fst (o_pos ob))) = (-1)%Z).
Proof.
  intros Ho E C. destruct (key_entry oa Ho) as (x & Hx & K).
  destruct (judged_entry x Hx) as (G & EG & [(o' & E' & J')|(oa' & ob' & E' & [[C' J']|(C' & _ & PR & J')])]); rewrite K, E in EG; subst G; try discriminate;
    injection E' as <- <-; [congruence|exact PR].
Qed.
Lemma answer_nodup : NoDup l.
Proof.
  assert (G : forall p' l', incl p' p -> NoDup (map n_key p') -> judge_all p' = Some l' -> NoDup l' /\ forall q, In q l' -> exists x o, In x p' /\ In o L /\ o_key o = n_key x /\ place o = q).
  { induction p' as [|x r IH]; intros l' I D J; cbn in J; [injection J as <-; split; [constructor|intros ? []]|].
    assert (Hx : In x p) by (apply I; cbn; auto). cbn in D. inversion D; subst.
    assert (I' : incl r p) by (intros z Hz; apply I; cbn; auto).
    assert (AUX : forall a b, judge x = Some a -> judge_all r = Some b -> NoDup a /\ forall q, In q a -> exists o, In o L /\ o_key o = n_key x /\ place o = q).
    { intros a b Ja _. destruct (judged_entry x Hx) as (G & EG & [(o' & E & J')|(oa & ob & E & [[C J']|(C & C' & PR & J')])]); rewrite J' in Ja; injection Ja as <-.
      - split; [constructor|intros ? []].
      - split; [constructor|intros ? []].
      - split; [constructor; [intros []|constructor]|]. intros q [<-|[]]. exists (chosen oa ob).
        assert (Hc : In (chosen oa ob) (grp (n_key x) L)) by (rewrite <- EG, E; unfold chosen; destruct (_ <=? _)%Z; cbn; auto).
        apply grp_in in Hc. tauto. }
    destruct (judge x) as [a|] eqn:Ja; [|discriminate]. destruct (judge_all r) as [b|] eqn:Jb; [|discriminate]. injection J as <-.
    destruct (AUX a b eq_refl eq_refl) as [A1 A2]. destruct (IH b I' H2 eq_refl) as [B1 B2]. split.
    - apply nodup_app; auto. intros q Qa Qb. destruct (A2 q Qa) as (o & O1 & O2 & O3). destruct (B2 q Qb) as (y & o' & Y & O1' & O2' & O3').
      assert (o = o') by (apply (nodup_map_inj place L); auto; [apply (occs_nodup k m); auto|congruence]). subst o'.
      apply H1. rewrite <- O2, O2'. now apply in_map.
    - intros q Q. apply in_app_or in Q as [Q|Q].
      + destruct (A2 q Q) as (o & ?). exists x, o. cbn. tauto.
      + destruct (B2 q Q) as (y & o & ?). exists y, o. cbn. tauto. }
  apply (G p l); auto. apply incl_refl. apply (i_nodup _ _ (inv_pool _ _ HP)).
Qed.
End Search.

Lemma mismatch_parts k m l : mismatch k m = Some l -> exists L p, occs k m = Some L /\ add_occs L [] = Some p /\ judge_all p = Some l.
Proof.
  unfold mismatch. destruct (add_elements k m []) as [p|] eqn:E; [|discriminate]. intros J.
  destruct (add_elements_some _ _ _ _ E) as (L & A & B). eauto.
Qed.

(** each face once *)
Theorem mismatch_nodup k m l : distinct_ids m -> mismatch k m = Some l -> NoDup l.
Proof. intros D H. destruct (mismatch_parts _ _ _ H) as (L & p & A & B & C). exact (answer_nodup k m L p l D A B C). Qed.

(** the two values at one face *)
Lemma two_values w a1 b1 a2 b2 : directed w -> same_ends a1 b1 a2 b2 -> (a1 = a2 /\ b1 = b2 /\ w a2 b2 = w a1 b1) \/ (a1 = b2 /\ b1 = a2 /\ w a2 b2 = (- w a1 b1)%R).
Proof. intros D [[-> ->]|[-> ->]]; [left; auto|right]. rewrite (D b2 a2). repeat split; rewrite ?Ropp_involutive; reflexivity. Qed.

Lemma clear_opp v : clear v <-> clear (- v).
Proof. unfold clear. now rewrite Rabs_Ropp. Qed.
Lemma clear_directed w a b : directed w -> clear (w a b) -> a <> b.
Proof. intros D C ->. specialize (D b b). assert (E : w b b = 0%R) by lra. rewrite E in C. unfold clear in C. rewrite Rabs_R0 in C. lra. Qed.

(** what the answer says about two faces with the same ends *)
Lemma mismatch_pair k m l w e1 f1 t1 a1 b1 e2 f2 t2 a2 b2 : distinct_ids m -> directed w -> measured k m w -> mismatch k m = Some l ->
  runs k m e1 f1 t1 a1 b1 -> runs k m e2 f2 t2 a2 b2 -> (e1, f1) <> (e2, f2) -> same_ends a1 b1 a2 b2 ->
  ((In (e1, f1) l \/ In (e2, f2) l) <-> (a1 = b2 /\ b1 = a2 /\ clear (w a1 b1))) /\ ~ (In (e1, f1) l /\ In (e2, f2) l) /\
  (In (e1, f1) l -> (priority t2 <= priority t1)%Z /\ unstructured t1) /\ (In (e2, f2) l -> (priority t1 <= priority t2)%Z /\ unstructured t2).
Proof.
  intros HD DW MW H R1 R2 N S. destruct (mismatch_parts _ _ _ H) as (L & p & HL & HP & HJ).
  destruct (runs_occ _ _ _ _ _ _ _ _ HL R1) as (o1 & O1 & P1 & K1). destruct (runs_occ _ _ _ _ _ _ _ _ HL R2) as (o2 & O2 & P2 & K2).
  assert (V1 : o_val o1 = w a1 b1).
  { destruct (occ_runs' _ _ _ _ HL O1) as (t & e & f & a & b & P & R & _ & V). rewrite P1 in P. injection P as <- <- <-.
    destruct (runs_unique _ _ _ _ _ _ _ _ _ _ HD R1 R) as (_ & -> & ->). auto. }
  assert (V2 : o_val o2 = w a2 b2).
  { destruct (occ_runs' _ _ _ _ HL O2) as (t & e & f & a & b & P & R & _ & V). rewrite P2 in P. injection P as <- <- <-.
    destruct (runs_unique _ _ _ _ _ _ _ _ _ _ HD R2 R) as (_ & -> & ->). auto. }
  assert (PL1 : place o1 = (e1, f1)) by (unfold place; now rewrite P1).
  assert (PL2 : place o2 = (e2, f2)) by (unfold place; now rewrite P2).
  assert (KK : o_key o1 = o_key o2) by (rewrite K1, K2; now apply sort2_same).
  assert (NO : o1 <> o2) by (intros ->; congruence).
  pose proof (reversed_iff k m L p l HD HL HP HJ o1 O1) as I1. pose proof (reversed_iff k m L p l HD HL HP HJ o2 O2) as I2.
  rewrite PL1 in I1. rewrite PL2 in I2. rewrite <- KK in I2.
  assert (CL : forall u v, (u = w a1 b1 /\ v = w a2 b2) \/ (u = w a2 b2 /\ v = w a1 b1) -> (isclose u v = false <-> a1 = b2 /\ b1 = a2 /\ clear (w a1 b1))).
  { intros u v UV. destruct (two_values w a1 b1 a2 b2 DW S) as [(X & Y & Z)|(X & Y & Z)].
    - split.
      + intros F. exfalso. assert (u = v) by (destruct UV as [[-> ->]|[-> ->]]; congruence). subst. rewrite isclose_refl in F. discriminate.
      + intros (A & B & C). exfalso. apply (clear_directed _ _ _ DW C). congruence.
    - assert (V : v = (- u)%R) by (destruct UV as [[-> ->]|[-> ->]]; rewrite Z; ring). rewrite V, isclose_opp.
      assert (clear u <-> clear (w a1 b1)) by (destruct UV as [[-> _]|[-> _]]; [tauto|rewrite Z; symmetry; apply clear_opp]). tauto. }
  assert (CH : forall oa ob o, o = chosen oa ob -> o = oa \/ o = ob) by (intros oa ob o ->; unfold chosen; destruct (_ <=? _)%Z; auto).
  assert (TY1 : fst (fst (o_pos o1)) = t1) by now rewrite P1. assert (TY2 : fst (fst (o_pos o2)) = t2) by now rewrite P2.
  destruct (two_of_key L p l HP HJ o1 o2 O1 O2 KK ltac:(congruence)) as [T|T]; rewrite T in I1, I2.
  - specialize (CL _ _ (or_introl (conj V1 V2))).
    assert (J1 : In (e1, f1) l <-> isclose (o_val o1) (o_val o2) = false /\ o1 = chosen o1 o2 /\ ~ (priority t1 = (-1)%Z /\ priority t2 = (-1)%Z)).
    { rewrite I1. split; [intros (oa & ob & E & X); injection E as <- <-; rewrite TY1, TY2 in X; exact X|intros X; exists o1, o2; rewrite TY1, TY2; auto]. }
    assert (J2 : In (e2, f2) l <-> isclose (o_val o1) (o_val o2) = false /\ o2 = chosen o1 o2 /\ ~ (priority t1 = (-1)%Z /\ priority t2 = (-1)%Z)).
    { rewrite I2. split; [intros (oa & ob & E & X); injection E as <- <-; rewrite TY1, TY2 in X; exact X|intros X; exists o1, o2; rewrite TY1, TY2; auto]. }
    pose proof (pair_answer L p l HP HJ o1 o2 O1 T) as PA. rewrite TY1, TY2 in PA.
    unfold chosen in J1, J2. rewrite TY1, TY2 in J1, J2. pose proof (priority_low t1). pose proof (priority_low t2).
    pose proof (priority_unstructured t1). pose proof (priority_unstructured t2).
    destruct (Z.leb_spec (priority t2) (priority t1)).
    + assert (X1 : In (e1, f1) l <-> isclose (o_val o1) (o_val o2) = false) by (rewrite J1; tauto). assert (X2 : ~ In (e2, f2) l) by (rewrite J2; intros (_ & Y & _); congruence).
      split; [tauto|]. split; [tauto|]. split; [|tauto]. intros Y. split; [lia|]. apply H2. intros Q. apply PA; [tauto|]. lia.
    + assert (X2 : In (e2, f2) l <-> isclose (o_val o1) (o_val o2) = false) by (rewrite J2; tauto). assert (X1 : ~ In (e1, f1) l) by (rewrite J1; intros (_ & Y & _); congruence).
      split; [tauto|]. split; [tauto|]. split; [tauto|]. intros Y. split; [lia|]. apply H3. intros Q. apply PA; [tauto|]. lia.
  - specialize (CL _ _ (or_intror (conj V2 V1))).
    assert (J1 : In (e1, f1) l <-> isclose (o_val o2) (o_val o1) = false /\ o1 = chosen o2 o1 /\ ~ (priority t2 = (-1)%Z /\ priority t1 = (-1)%Z)).
    { rewrite I1. split; [intros (oa & ob & E & X); injection E as <- <-; rewrite TY1, TY2 in X; exact X|intros X; exists o2, o1; rewrite TY1, TY2; auto]. }
    assert (J2 : In (e2, f2) l <-> isclose (o_val o2) (o_val o1) = false /\ o2 = chosen o2 o1 /\ ~ (priority t2 = (-1)%Z /\ priority t1 = (-1)%Z)).
    { rewrite I2. split; [intros (oa & ob & E & X); injection E as <- <-; rewrite TY1, TY2 in X; exact X|intros X; exists o2, o1; rewrite TY1, TY2; auto]. }
    rewrite KK in T. pose proof (pair_answer L p l HP HJ o2 o1 O2 T) as PA. rewrite TY1, TY2 in PA.
    unfold chosen in J1, J2. rewrite TY1, TY2 in J1, J2. pose proof (priority_low t1). pose proof (priority_low t2).
    pose proof (priority_unstructured t1). pose proof (priority_unstructured t2).
    destruct (Z.leb_spec (priority t1) (priority t2)).
    + assert (X2 : In (e2, f2) l <-> isclose (o_val o2) (o_val o1) = false) by (rewrite J2; tauto). assert (X1 : ~ In (e1, f1) l) by (rewrite J1; intros (_ & Y & _); congruence).
      split; [tauto|]. split; [tauto|]. split; [tauto|]. intros Y. split; [lia|]. apply H3. intros Q. apply PA; [tauto|]. lia.
    + assert (X1 : In (e1, f1) l <-> isclose (o_val o2) (o_val o1) = false) by (rewrite J1; tauto). assert (X2 : ~ In (e2, f2) l) by (rewrite J2; intros (_ & Y & _); congruence).
      split; [tauto|]. split; [tauto|]. split; [|tauto]. intros Y. split; [lia|]. apply H2. intros Q. apply PA; [tauto|]. lia.
Qed.

Lemma classic_pair (e1 f1 e2 f2 : nat) : (e1, f1) = (e2, f2) \/ (e1, f1) <> (e2, f2).
Proof. destruct (Nat.eq_dec e1 e2), (Nat.eq_dec f1 f2); [left|right|right|right]; congruence. Qed.
Lemma in_pair_dec (e f : nat) (l : list (nat * nat)) : In (e, f) l \/ ~ In (e, f) l.
Proof. destruct (in_dec (fun x y => match Nat.eq_dec (fst x) (fst y), Nat.eq_dec (snd x) (snd y) with left a, left b => left (injective_projections _ _ a b) | right n, _ => right (fun E => n (f_equal fst E)) | _, right n => right (fun E => n (f_equal snd E)) end) (e, f) l); auto. Qed.

(** * after the reversal the directions agree *)
Theorem directions_agree k m l w e1 f1 t1 a1 b1 e2 f2 t2 a2 b2 : distinct_ids m -> directed w -> measured k m w -> mismatch k m = Some l ->
  runs k m e1 f1 t1 a1 b1 -> runs k m e2 f2 t2 a2 b2 -> same_ends a1 b1 a2 b2 -> clear (w a1 b1) ->
  exists d, turned l e1 f1 (a1, b1) d /\ turned l e2 f2 (a2, b2) d.
Proof.
  intros HD DW MW H R1 R2 S C. destruct (classic_pair e1 f1 e2 f2) as [E|N].
  - injection E as -> ->. destruct (runs_unique _ _ _ _ _ _ _ _ _ _ HD R1 R2) as (_ & -> & ->). unfold turned.
    destruct (in_pair_dec e2 f2 l) as [I|I]; eexists; split; [left|left|right|right]; eauto.
  - destruct (mismatch_pair k m l w _ _ _ _ _ _ _ _ _ _ HD DW MW H R1 R2 N S) as (A & B & _).
    unfold turned. destruct (in_pair_dec e1 f1 l) as [I1|I1], (in_pair_dec e2 f2 l) as [I2|I2]; [tauto| | |].
    + destruct (proj1 A (or_introl I1)) as (-> & -> & _). exists (a2, b2). cbn. tauto.
    + destruct (proj1 A (or_intror I2)) as (-> & -> & _). exists (b2, a2). cbn. tauto.
    + exists (a1, b1). split; [tauto|]. destruct S as [[-> ->]|[-> ->]]; [tauto|]. exfalso. apply (or_ind I1 I2). apply A. auto.
Qed.
(** and with them the values of any other field *)
Theorem values_agree k m l w u e1 f1 t1 a1 b1 e2 f2 t2 a2 b2 : distinct_ids m -> directed w -> measured k m w -> mismatch k m = Some l ->
  runs k m e1 f1 t1 a1 b1 -> runs k m e2 f2 t2 a2 b2 -> same_ends a1 b1 a2 b2 -> clear (w a1 b1) -> directed u ->
  forall s1 s2, (In (e1, f1) l /\ s1 = (-1)%R \/ ~ In (e1, f1) l /\ s1 = 1%R) -> (In (e2, f2) l /\ s2 = (-1)%R \/ ~ In (e2, f2) l /\ s2 = 1%R) ->
  (s1 * u a1 b1 = s2 * u a2 b2)%R.
Proof.
  intros HD DW MW H R1 R2 S C DU s1 s2 S1 S2. destruct (directions_agree k m l w _ _ _ _ _ _ _ _ _ _ HD DW MW H R1 R2 S C) as (d & T1 & T2).
  unfold turned in *. cbn in *. destruct T1 as [[I1 ->]|[I1 ->]], T2 as [[I2 E]|[I2 E]]; injection E as E1 E2; rewrite ?E1, ?E2;
    destruct S1 as [[? ->]|[? ->]], S2 as [[? ->]|[? ->]]; try tauto; subst; try (rewrite (DU a2 b2)); try (rewrite (DU b2 a2)); try lra.
Qed.
(** only where they were opposite, only on one side, never in a structured element,
    and in the element whose type is later in the list *)
Theorem reversed_faces k m l w e f : distinct_ids m -> directed w -> measured k m w -> mismatch k m = Some l -> In (e, f) l ->
  exists t a b e' f' t', runs k m e f t a b /\ runs k m e' f' t' b a /\ (e', f') <> (e, f) /\ ~ In (e', f') l /\ unstructured t /\ (priority t' <= priority t)%Z.
Proof.
  intros HD DW MW H I. destruct (mismatch_parts _ _ _ H) as (L & p & HL & HP & HJ).
  assert (X : exists o, In o L /\ place o = (e, f)).
  { apply (judge_all_in _ _ HJ) in I as (x & lx & Hx & J & Q).
    destruct (judged_entry L p l HP HJ x Hx) as (G & EG & [(o' & E & J')|(oa & ob & E & [[C J']|(C & C' & PR & J')])]); rewrite J' in J; injection J as <-; try destruct Q as [Q|[]]; try destruct Q.
    exists (chosen oa ob). split; [|reflexivity].
    assert (Hc : In (chosen oa ob) (grp (n_key x) L)) by (rewrite <- EG, E; unfold chosen; destruct (_ <=? _)%Z; cbn; auto). apply grp_in in Hc. tauto. }
  destruct X as (o & Ho & PO). rewrite <- PO in I. pose proof (proj1 (reversed_iff k m L p l HD HL HP HJ o Ho) I) as (oa & ob & E & C & EQ & NP).
  assert (X : exists o', In o' L /\ o_key o' = o_key o /\ o' <> o).
  { assert (IA : In oa (grp (o_key o) L)) by (rewrite E; cbn; auto). assert (IB : In ob (grp (o_key o) L)) by (rewrite E; cbn; auto).
    apply grp_in in IA as [IA KA]. apply grp_in in IB as [IB KB].
    assert (AB : oa <> ob) by (intros ->; rewrite isclose_refl in C; discriminate).
    unfold chosen in EQ. destruct (_ <=? _)%Z; subst o; [exists ob|exists oa]; auto. }
  destruct X as (o' & Ho' & K' & N').
  destruct (occ_runs' _ _ _ _ HL Ho) as (t & e0 & f0 & a & b & P & R & KA & V). destruct (occ_runs' _ _ _ _ HL Ho') as (t' & e' & f' & a' & b' & P' & R' & KA' & V').
  unfold place in PO. rewrite P in PO. cbn in PO. injection PO as -> ->.
  assert (S : same_ends a b a' b') by (apply sort2_same; congruence).
  assert (NP' : (e, f) <> (e', f')).
  { intros EE. apply N'. apply (nodup_map_inj place L); auto; [apply (occs_nodup k m); auto|]. unfold place. rewrite P, P'. cbn. congruence. }
  unfold place in I. rewrite P in I. cbn in I.
  destruct (mismatch_pair k m l w _ _ _ _ _ _ _ _ _ _ HD DW MW H R R' NP' S) as (A & B & C1 & _).
  destruct (proj1 A (or_introl I)) as (-> & -> & _). destruct (C1 I). exists t, b', a', e', f', t'. split; [exact R|]. split; [exact R'|]. split; [congruence|]. split; [tauto|]. auto.
Qed.

(** * the search succeeds *)
Theorem mismatch_total k m w : distinct_ids m -> directed w -> measured k m w -> numbered k m -> at_most_two k m -> structured_agree k m ->
  exists l, mismatch k m = Some l.
Proof.
  intros HD DW MW [NM1 NM2] AT SA.
  assert (OC : exists L, occs k m = Some L).
  { assert (G : forall m', incl m' m -> exists L, occs k m' = Some L); [|apply (G m), incl_refl].
    induction m' as [|x r IH]; intros I; cbn; [eauto|]. destruct IH as [B ->]; [intros z Hz; apply I; cbn; auto|].
    destruct (occs_e k x (nfaces k x)) as [A|] eqn:E; [eauto|]. exfalso. apply occs_e_none in E as (f & Hf & O).
    apply nfaces_index in Hf as [c Hc]. destruct (face_walk _ _ _ _ Hc) as (i & j & W). assert (Hx : In x m) by (apply I; cbn; auto).
    destruct (MW x f i j c Hx W Hc) as (a & b & A & B' & V).
    assert (GL : c < length (e_gm x)) by (apply NM1; auto; eapply nth_error_In; eauto).
    unfold occ_of, face_data in O. rewrite Hc, V in O. destruct (nth_error (e_gm x) c) eqn:EG; [|apply nth_error_None in EG; lia].
    destruct (proj1 (walk_face _ _ _ _ _ W)) as [F|F]; rewrite F, A, B' in O; discriminate. }
  destruct OC as [L HL].
  assert (PC : exists p, add_occs L [] = Some p).
  { apply (add_occs_total L [] [] inv_nil). cbn. intros o o' Ho Ho' K.
    destruct (occ_runs _ _ _ _ HL Ho) as (x & f & i & j & c & a & b & Hx & P & W & C & A & B & KA & V & G).
    destruct (occ_runs _ _ _ _ HL Ho') as (x' & f' & i' & j' & c' & a' & b' & Hx' & P' & W' & C' & A' & B' & KA' & V' & G').
    assert (S : same_ends a b a' b') by (apply sort2_same; congruence).
    pose proof (NM2 x x' f f' i j i' j' a b a' b' c c' Hx Hx' W W' A B A' B' S C C') as Q. congruence. }
  destruct PC as [p HP]. unfold mismatch. rewrite (add_elements_of _ _ _ _ _ HL HP). apply judge_all_total. intros x Hx.
  destruct (i_grp _ _ (inv_pool _ _ HP) x Hx) as (P & V & NE). unfold judge. rewrite P, V.
  assert (ND : NoDup (map place (grp (n_key x) L))).
  { assert (Q := occs_nodup k m L HD HL). clear - Q. unfold grp. induction L as [|o L IH]; cbn; [constructor|]. cbn in Q. inversion Q; subst.
    destruct (key_eqb _ _); cbn; auto. constructor; auto. intros Z. apply H1. apply in_map_iff in Z as (z & A & B). apply filter_In in B as [B _]. apply in_map_iff. eauto. }
  assert (MEM : forall o, In o (grp (n_key x) L) -> exists t e f a b, o_pos o = (t, e, f) /\ runs k m e f t a b /\ n_key x = sort2 a b /\ o_val o = w a b).
  { intros o Ho. apply grp_in in Ho as [Ho K]. destruct (occ_runs' _ _ _ _ HL Ho) as (t & e & f & a & b & Q1 & Q2 & Q3 & Q4). exists t, e, f, a, b. rewrite <- K. auto. }
  destruct (grp (n_key x) L) as [|oa [|ob [|oc G]]]; [tauto| | |].
  - cbn. destruct (o_pos oa) as [[? ?] ?]. eauto.
  - destruct (MEM oa) as (ta & ea & fa & a & b & PA & RA & KA & VA); [cbn; auto|]. destruct (MEM ob) as (tb & eb & fb & c & d & PB & RB & KB & VB); [cbn; auto|].
    cbn. rewrite PA, PB, VA, VB. destruct (isclose (w a b) (w c d)) eqn:CL; [eauto|].
    destruct (two_values w a b c d DW) as [(-> & -> & Z)|(-> & -> & Z)]; [apply sort2_same; congruence|rewrite isclose_refl in CL; discriminate|].
    assert (Z' : (- w c d)%R = w d c) by (rewrite Z; ring). rewrite Z', isclose_refl.
    destruct ((priority ta =? priority tb)%Z && (priority tb =? -1)%Z) eqn:E; [|destruct (_ <=? _)%Z; eauto].
    exfalso. apply andb_prop in E as [E1 E2]. apply Z.eqb_eq in E1, E2.
    assert (DC : d <> c). { intros ->. rewrite isclose_refl in CL. discriminate. }
    destruct (SA _ _ _ _ _ _ _ _ RA RB DC) as [U|U]; apply priority_unstructured in U; lia.
  - exfalso. destruct (MEM oa) as (ta & ea & fa & a & b & PA & RA & KA & _); [cbn; auto|]. destruct (MEM ob) as (tb & eb & fb & c & d & PB & RB & KB & _); [cbn; auto|].
    destruct (MEM oc) as (tc & ec & fc & g & h & PC & RC & KC & _); [cbn; auto|].
    cbn in ND. unfold place in ND. rewrite PA, PB, PC in ND. cbn in ND.
    inversion ND as [|? ? N1 N2]; subst. inversion N2 as [|? ? N3 N4]; subst. cbn in N1, N3.
    destruct (AT _ _ _ _ _ _ _ _ _ _ _ _ _ _ _ RA RB RC) as [Q|[Q|Q]]; try (apply sort2_same; congruence); rewrite Q in *; tauto.
Qed.

(** * [_dof_reverse_info] *)
Lemma insert_in x l y : In y (insert x l) <-> y = x \/ In y l.
Proof. induction l as [|z l IH]; cbn; [intuition|]. destruct (x <=? z); cbn; [intuition|]. rewrite IH. intuition. Qed.
Lemma sort_in l y : In y (sort l) <-> In y l.
Proof. induction l as [|z l IH]; cbn; [tauto|]. rewrite insert_in, IH. intuition. Qed.
Lemma insert_sorted x l : StronglySorted lt l -> ~ In x l -> StronglySorted lt (insert x l).
Proof.
  induction l as [|z l IH]; intros S N; cbn; [repeat constructor|]. inversion S as [|? ? S1 S2]; subst.
  destruct (Nat.leb_spec x z) as [Q|Q].
  - assert (x <> z) by (intros ->; apply N; cbn; auto). constructor; [exact S|]. constructor; [lia|]. eapply Forall_impl; [|exact S2]. cbn. intros; lia.
  - constructor; [apply IH; auto; intros I; apply N; cbn; auto|]. apply Forall_forall. intros y Hy. apply insert_in in Hy as [->|Hy]; [exact Q|]. rewrite Forall_forall in S2. auto.
Qed.
Lemma sort_sorted l : NoDup l -> StronglySorted lt (sort l).
Proof. induction 1; cbn; [constructor|]. apply insert_sorted; auto. now rewrite sort_in. Qed.
Theorem reverse_info_faces l e f : In f (reverse_info l e) <-> In (e, f) l.
Proof.
  unfold reverse_info. rewrite sort_in, in_map_iff. split.
  - intros ((e' & f') & <- & H). apply filter_In in H as [H E]. cbn in E. apply Nat.eqb_eq in E. now subst.
  - intros H. exists (e, f). split; [reflexivity|]. apply filter_In. cbn. rewrite Nat.eqb_refl. auto.
Qed.
Theorem reverse_info_increasing l e : NoDup l -> StronglySorted lt (reverse_info l e).
Proof.
  intros H. apply sort_sorted. induction H as [|[e' f'] l N H IH]; cbn; [constructor|]. destruct (Nat.eqb_spec e' e) as [->|]; cbn; auto.
  constructor; auto. intros I. apply N. apply in_map_iff in I as ((e'' & f'') & <- & I). apply filter_In in I as [I E]. cbn in E. apply Nat.eqb_eq in E. now subst.
Qed.
