(** One level of refining: pairs, selection, splitting. *)
From Coq Require Import List Permutation ZArith QArith Qcanon Bool Lia.
From Verif Require Import TrfModel TrfSpec TrfLattice TrfLattice2 TrfSide TrfGlue TrfStatic TrfConform TrfLeaves TrfPairs.
Import ListNotations.
Local Open Scope Z_scope.

Lemma qleb_spec a b : qleb a b = true <-> (a <= b)%Qc.
Proof. unfold qleb. destruct (Qclt_le_dec b a) as [H | H]; split; auto; try discriminate. intros L. exfalso. exact (Qclt_not_le _ _ H L). Qed.
Lemma qleb_false a b : qleb a b = false -> ~ (a <= b)%Qc.
Proof. intros E H. apply qleb_spec in H. congruence. Qed.
Lemma combine_maps {A B C} (f : A -> B) (g : B -> C) (l : list A) : combine l (map g (map f l)) = map (fun x => (x, g (f x))) l.
Proof. induction l as [|a l IH]; cbn; auto. rewrite IH. reflexivity. Qed.
Lemma NoDup_flat_map {A B} (f : A -> list B) l : NoDup l -> (forall x, In x l -> NoDup (f x)) ->
  (forall x y z, In x l -> In y l -> In z (f x) -> In z (f y) -> x = y) -> NoDup (flat_map f l).
Proof.
  induction l as [|a l IH]; cbn; intros H F D; [constructor|]. apply NoDup_cons_iff in H. destruct H as [N H].
  assert (X : forall z, In z (f a) -> ~ In z (flat_map f l)).
  { intros z Z Z'. apply in_flat_map in Z'. destruct Z' as (y & Y & Z'). apply N. rewrite (D a y z); auto. }
  assert (Y : NoDup (flat_map f l)) by (apply IH; auto; intros; eapply D; eauto).
  specialize (F a (or_introl eq_refl)). clear - X Y F. revert X F. generalize (f a). intros r. induction r as [|b r IH]; cbn; auto.
  intros X F. apply NoDup_cons_iff in F. destruct F as [F1 F2]. constructor.
  - rewrite in_app_iff. intros [Q | Q]; [tauto|]. exact (X b (or_introl eq_refl) Q).
  - apply IH; [|exact F2]. intros z Z. apply X. right. exact Z.
Qed.

Section D.
Variables (fl : flavour) (M : mesh).
Hypothesis OK : mesh_ok fl M.
Hypothesis DIR : same_directions fl M.
Variable bd : list (Z * side).
Hypothesis BD : boundary_ok fl M bd.
Notation G := (glued fl M).
Notation samemid := (samemid fl M).
Notation inM := (inM M).
Definition mates (x y : elem) : Prop := x <> y /\
  match x, y with Tri e s p, Tri e' s' p' => samemid e s p e' s' p' | _, _ => False end.
Definition rimtri (x : elem) : Prop := match x with Tri e s p => at_rim fl M e s p | Base _ => False end.
Lemma mates_sym x y : mates x y -> mates y x.
Proof. intros [N H]. split; auto. destruct x, y; auto. apply samemid_sym; auto. Qed.
Lemma mates_fun x y z : inM (of_base x) -> inM (of_base y) -> inM (of_base z) -> mates x y -> mates x z -> y = z.
Proof.
  intros I I' J [N H] [N' H']. destruct x as [|e s p], y as [|e1 s1 p1], z as [|e2 s2 p2]; try tauto.
  assert (E : (e1, s1, p1) = (e2, s2, p2)) by (apply (unique_mate fl M OK DIR e s p); auto; congruence). congruence.
Qed.
Lemma rim_mates x y : inM (of_base x) -> inM (of_base y) -> rimtri x -> mates x y -> False.
Proof. intros I I' H [N Sm]. destruct x as [|e s p], y as [|e1 s1 p1]; try tauto. cbn in *. pose proof (rim_no_mate fl M OK DIR _ _ _ _ _ _ I I' H Sm). congruence. Qed.
Lemma mates_tri x y : mates x y -> is_tri x = true /\ is_tri y = true.
Proof. intros [_ H]. destruct x, y; tauto || auto. Qed.

(** numbers *)
Definition indsv (x : elem) : list ind := match inds fl M x with Some l => l | None => [] end.
Definition nodes (els : list elem) (x : elem) : list nat := map (place (table (map indsv els))) (indsv x).
Lemma get_inM e : inM e -> exists q, get M e = Some q /\ In (e, q) M.
Proof. intros I. destruct (inM_q M _ I) as [q Q]. exists q. split; auto. apply (get_In fl M OK). exact Q. Qed.
Lemma inds_some x : inM (of_base x) -> inds fl M x = Some (indsv x).
Proof. intros I. unfold indsv. destruct (get_inM _ I) as (q & Q & _). destruct x as [e|e s p]; cbn in *; rewrite Q; auto. rewrite verts_eta. reflexivity. Qed.
Lemma make_map_ok els : (forall x, In x els -> inM (of_base x)) -> make_map fl M els = Some (map (fun x => (x, nodes els x)) els).
Proof.
  intros H. unfold make_map. rewrite (traverse_some _ indsv) by (intros; apply inds_some; auto). rewrite combine_maps. reflexivity.
Qed.
Lemma indsv_tri e q s p : In (e, q) M -> indsv (Tri e s p) = map (indicator fl q e) [vert0 s p; vert1 s p; vert2 s p].
Proof. intros Q. unfold indsv. cbn. apply (get_In fl M OK) in Q. rewrite Q, verts_eta. reflexivity. Qed.
Lemma in_table els x i : In x els -> In i (indsv x) -> In i (table (map indsv els)).
Proof. intros H H'. apply table_in. exists (indsv x). split; auto. apply in_map. exact H. Qed.
Lemma bottom_eq els e s p e' s' p' : inM e -> inM e' -> In (Tri e s p) els -> In (Tri e' s' p') els ->
  (bottom (nodes els (Tri e s p)) = bottom (nodes els (Tri e' s' p')) <-> samemid e s p e' s' p').
Proof.
  intros I I' H H'. destruct (inM_q M _ I) as [q Q]. destruct (inM_q M _ I') as [q' Q']. unfold nodes.
  assert (T1 : forall i, In i (indsv (Tri e s p)) -> In i (table (map indsv els))) by (intros i Hi; exact (in_table els _ i H Hi)).
  rewrite (indsv_tri _ _ _ _ Q) in T1 |- *. rewrite (indsv_tri _ _ _ _ Q'). cbn [map] in T1. unfold bottom. cbn [map]. cbn [nth]. rewrite sorted2_eq.
  rewrite !place_inj by (apply T1; cbn; auto).
  rewrite !(indicator_glued fl M OK DIR _ _ _ _ _ _ Q Q') by apply vert_sq.
  split; intros X; [apply (samebot_mid fl M OK DIR); assumption|].
  apply (samemid_bot fl M OK DIR) in X; auto.
Qed.
Lemma facing_spec x : inM (of_base x) -> (faces_boundary bd x = true <-> rimtri x).
Proof.
  intros I. destruct x as [e|e s p]; cbn [faces_boundary rimtri]; [split; [discriminate|tauto]|]. rewrite verts_eta.
  assert (OB : forall s1, on_boundary bd e s1 = true <-> rim fl M e s1).
  { intros s1. rewrite <- (BD e s1 I). unfold on_boundary. rewrite existsb_exists. split.
    - intros ((e0 & s0) & J & E). cbn in E. rewrite andb_true_iff, Z.eqb_eq in E. destruct E as [-> E]. destruct (side_eq_dec s0 s1) as [-> | N]; [exact J|discriminate].
    - intros J. exists (e, s1). split; auto. cbn. rewrite Z.eqb_refl. destruct (side_eq_dec s1 s1); [reflexivity|congruence]. }
  assert (TO : forall s1 t t', vert1 s p = along s1 t -> vert2 s p = along s1 t' -> rim fl M e s1 -> at_rim fl M e s p).
  { intros s1 t t' A B Rm. destruct (ends_side s p) as (s2 & k & c & Bs). { exists s1, t. exact A. } { exists s1, t'. exact B. }
    exists s2, k, c. split; [exact Bs|]. pose proof (seg_mid _ _ _ _ _ Bs) as Mi. rewrite tmid_eta, A, B, mid_along in Mi.
    destruct (seg_bounds _ _ _ _ _ Bs) as (_ & _ & _ & St). apply lat_strict in St. destruct St. symmetry in Mi. apply along_inj2 in Mi; auto. destruct Mi as [-> _]. exact Rm. }
  assert (FROM : at_rim fl M e s p -> exists s1 t t', t <> t' /\ vert1 s p = along s1 t /\ vert2 s p = along s1 t' /\ rim fl M e s1).
  { intros (s1 & k & c & Bs & Rm). assert (L : (lat k (2 * c) < lat k (2 * c + 2))%Qc) by (apply lat_lt; lia). apply Qclt_not_eq in L.
    destruct (seg_ends _ _ _ _ _ Bs) as [[A B] | [A B]]; exists s1; [exists (lat k (2 * c)), (lat k (2 * c + 2))|exists (lat k (2 * c + 2)), (lat k (2 * c))]; auto. }
  destruct (vert1 s p) as [x1 y1], (vert2 s p) as [x2 y2].
  assert (Q1 : forall a, qeqb x1 x2 && qeqb x2 a = true <-> x1 = a /\ x2 = a).
  { intros a. rewrite andb_true_iff, !qeqb_spec. split; [intros [-> ->]; auto|intros [-> ->]; auto]. }
  assert (Q2 : forall a, qeqb y1 y2 && qeqb y2 a = true <-> y1 = a /\ y2 = a).
  { intros a. rewrite andb_true_iff, !qeqb_spec. split; [intros [-> ->]; auto|intros [-> ->]; auto]. }
  split.
  - destruct (qeqb x1 x2 && qeqb x2 (-(1))%Qc) eqn:E1; [apply Q1 in E1; destruct E1 as [-> ->]; rewrite OB; intros Rm; exact (TO North _ _ eq_refl eq_refl Rm)|].
    destruct (qeqb x1 x2 && qeqb x2 1%Qc) eqn:E2; [apply Q1 in E2; destruct E2 as [-> ->]; rewrite OB; intros Rm; exact (TO South _ _ eq_refl eq_refl Rm)|].
    destruct (qeqb y1 y2 && qeqb y2 (-(1))%Qc) eqn:E3; [apply Q2 in E3; destruct E3 as [-> ->]; rewrite OB; intros Rm; exact (TO West _ _ eq_refl eq_refl Rm)|].
    destruct (qeqb y1 y2 && qeqb y2 1%Qc) eqn:E4; [apply Q2 in E4; destruct E4 as [-> ->]; rewrite OB; intros Rm; exact (TO East _ _ eq_refl eq_refl Rm)|].
    discriminate.
  - intros H. destruct (FROM H) as (s1 & t & t' & N & A & B & Rm). apply OB in Rm.
    assert (NE : qeqb t t' = false) by (apply qeqb_neq; exact N).
    assert (N1 : qeqb 1%Qc (-(1))%Qc = false) by (apply qeqb_neq; discriminate).
    assert (N2 : qeqb (-(1))%Qc 1%Qc = false) by (apply qeqb_neq; discriminate).
    destruct s1; cbn [along] in A, B; apply pair_equal_spec in A; apply pair_equal_spec in B; destruct A as [-> ->], B as [-> ->];
      rewrite ?NE, ?qeqb_refl, ?N1, ?N2; cbn [andb]; exact Rm.
Qed.

Section L.
Variables (R : elem -> Prop) (els : list elem).
Hypothesis CL : closed fl M R.
Hypothesis DEC : forall x, R x \/ ~ R x.
Hypothesis LV : leaves M R els.
Lemma els_inM x : In x els -> inM (of_base x). Proof. apply (leaf_inM fl M R els CL LV). Qed.
Lemma mapped_in k x : In x (group (map (fun x => (x, nodes els x)) els) k) <-> In x els /\ is_tri x = true /\ bottom (nodes els x) = k.
Proof.
  rewrite group_in. split.
  - intros (ns & I & T & E). apply in_map_iff in I. destruct I as (y & Ey & I). apply pair_equal_spec in Ey. destruct Ey as [-> <-]. auto.
  - intros (I & T & E). exists (nodes els x). split; auto. apply in_map_iff. eauto.
Qed.
Lemma group_nodup k : NoDup (group (map (fun x => (x, nodes els x)) els) k).
Proof.
  unfold group. assert (N : NoDup (map fst (map (fun x => (x, nodes els x)) els))) by (rewrite map_map; cbn; rewrite map_id; apply LV).
  induction (map (fun x => (x, nodes els x)) els) as [|a l IH]; cbn in *; [constructor|]. apply NoDup_cons_iff in N. destruct N as [Na N].
  destruct (_ && _); cbn; auto. constructor; auto. intros H. apply Na. apply in_map_iff in H. destruct H as (y & E & H). apply filter_In in H. apply in_map_iff. exists y. tauto.
Qed.
Lemma group_mates k a b : In a (group (map (fun x => (x, nodes els x)) els) k) -> In b (group (map (fun x => (x, nodes els x)) els) k) -> a <> b -> mates a b.
Proof.
  intros A B N. apply mapped_in in A. apply mapped_in in B. destruct A as (Ia & Ta & Ea), B as (Ib & Tb & Eb). split; auto.
  destruct a as [|e s p], b as [|e' s' p']; try discriminate. apply (bottom_eq els); auto; try congruence; [exact (els_inM _ Ia)|exact (els_inM _ Ib)].
Qed.
Lemma mates_group a b : In a els -> In b els -> mates a b -> In b (group (map (fun x => (x, nodes els x)) els) (bottom (nodes els a))).
Proof.
  intros Ia Ib H. destruct (mates_tri _ _ H) as [Ta Tb]. apply mapped_in. split; auto. split; auto. destruct H as [N H].
  destruct a as [|e s p], b as [|e' s' p']; try discriminate. symmetry. apply bottom_eq; auto; [exact (els_inM _ Ia)|exact (els_inM _ Ib)].
Qed.
Lemma group_two k l : l = group (map (fun x => (x, nodes els x)) els) k -> l <> [] -> (exists a, l = [a]) \/ (exists a b, l = [a; b]).
Proof.
  intros E N. destruct l as [|a [|b [|c l]]]; [congruence|eauto|eauto|]. exfalso.
  pose proof (group_nodup k) as ND. rewrite <- E in ND. 
  assert (Ia : In a (group (map (fun x => (x, nodes els x)) els) k)) by (rewrite <- E; cbn; auto).
  assert (Ib : In b (group (map (fun x => (x, nodes els x)) els) k)) by (rewrite <- E; cbn; auto).
  assert (Ic : In c (group (map (fun x => (x, nodes els x)) els) k)) by (rewrite <- E; cbn; auto).
  apply NoDup_cons_iff in ND. destruct ND as [Na ND]. apply NoDup_cons_iff in ND. destruct ND as [Nb ND]. cbn in *.
  assert (b = c); [|subst; tauto].
  apply (mates_fun a); try (apply els_inM; eapply mapped_in; eassumption); apply (group_mates k); auto; intros ->; tauto.
Qed.
Lemma find_pairs_ok : exists P facing, find_pairs fl M bd els = Some (P, facing) /\
  (forall x y, In (x, y) P <-> In x els /\ In y els /\ mates x y) /\ (forall x, In x facing <-> In x els /\ rimtri x).
Proof.
  unfold find_pairs. rewrite (make_map_ok els els_inM). set (m := map _ els). destruct (positions_grouped m) as (ND & G1 & G2).
  destruct (pairs_spec (bottom_positions m)) as (P & single & EP & HP & HS).
  { intros k l H. destruct (G1 _ _ H) as [E N]. exact (group_two k l E N). }
  rewrite EP.
  assert (FA : forall x, In x (filter (faces_boundary bd) els) <-> In x els /\ rimtri x).
  { intros x. rewrite filter_In. split; intros [I H]; split; auto; apply facing_spec; auto using els_inM. }
  assert (INM : forall x, In x els -> In (x, nodes els x) m) by (intros x I; apply in_map_iff; eauto).
  exists P, (filter (faces_boundary bd) els). split.
  - replace (forallb _ _) with true; [reflexivity|]. symmetry. apply forallb_forall. intros x H. apply FA in H. destruct H as [I Rm]. apply emem_spec. apply HS.
    assert (T : is_tri x = true) by (destruct x; [destruct Rm|reflexivity]).
    destruct (G2 _ (INM _ I) T) as (l & Hl). cbn [snd] in Hl. exists (bottom (nodes els x)). destruct (G1 _ _ Hl) as [El Nl].
    assert (Ix : In x l) by (rewrite El; apply mapped_in; auto).
    destruct (group_two _ _ El Nl) as [(a & ->) | (a & b & ->)]; [destruct Ix as [-> | []]; exact Hl|]. exfalso.
    pose proof (group_nodup (bottom (nodes els x))) as N2. fold m in N2. rewrite <- El in N2. apply NoDup_cons_iff in N2. destruct N2 as [N2 _]. cbn in N2.
    assert (Y : exists y, y <> x /\ In y [a; b]) by (destruct Ix as [-> | [-> | []]]; [exists b|exists a]; cbn; split; auto; intros ->; tauto).
    destruct Y as (y & Ny & Iy). rewrite El in Ix, Iy. apply (rim_mates x y); auto using els_inM.
    + apply els_inM. eapply mapped_in. exact Iy. + eapply group_mates; eauto.
  - split; [|exact FA]. intros x y. rewrite HP. split.
    + intros (k & H).
      assert (X : exists l, In (k, l) (bottom_positions m) /\ In x l /\ In y l /\ NoDup l /\ l = group m k /\ (l = [x; y] \/ l = [y; x])).
      { destruct H as [H | H]; destruct (G1 _ _ H) as [E _]; eexists; (split; [exact H|]); (split; [cbn; auto|]); (split; [cbn; auto|]); (split; [rewrite E; apply group_nodup|]); auto. }
      destruct X as (l & Hl & Ix & Iy & Nl & E & Ell). assert (D : x <> y).
      { intros ->. destruct Ell as [-> | ->]; apply NoDup_cons_iff in Nl; destruct Nl as [Nl _]; apply Nl; left; reflexivity. }
      rewrite E in Ix, Iy. split; [eapply mapped_in; exact Ix|]. split; [eapply mapped_in; exact Iy|]. eapply group_mates; eauto.
    + intros (Ix & Iy & Hm). destruct (mates_tri _ _ Hm) as [Tx Ty]. destruct (G2 _ (INM _ Ix) Tx) as (l & Hl). cbn [snd] in Hl.
      exists (bottom (nodes els x)). destruct (G1 _ _ Hl) as [El Nl].
      assert (Jx : In x l) by (rewrite El; apply mapped_in; auto). assert (Jy : In y l) by (rewrite El; apply mates_group; auto).
      destruct (group_two _ _ El Nl) as [(a & ->) | (a & b & ->)].
      * exfalso. destruct Jx as [-> | []], Jy as [-> | []]. apply (proj1 Hm). reflexivity.
      * destruct Jx as [-> | [-> | []]], Jy as [-> | [-> | []]]; auto; exfalso; apply (proj1 Hm); reflexivity.
Qed.

(** selection *)
Variables (val : elem -> value) (f : elem -> Qc) (t : Qc).
Hypothesis VAL : forall x, val x = VNum (f x).
Definition wanted (done : list elem) (x : elem) : Prop := In x els /\ is_tri x = true /\
  ((In x done /\ rimtri x /\ (t <= f x)%Qc) \/
   exists y, In y els /\ mates x y /\ ((In x done /\ (t <= f x)%Qc) \/ (In y done /\ (t <= f y)%Qc))).
Lemma checked_val x : checked fl (val x) = Some (f x). Proof. rewrite VAL. destruct fl; reflexivity. Qed.
Lemma fold_high P facing : (forall x y, In (x, y) P <-> In x els /\ In y els /\ mates x y) -> (forall x, In x facing <-> In x els /\ rimtri x) ->
  forall done, incl done els ->
  exists Rn, fold_left (high_step fl P facing val t) done (Some []) = Some Rn /\ NoDup Rn /\ forall x, In x Rn <-> wanted done x.
Proof.
  intros HP HF done. induction done as [|x done IH] using rev_ind; intros INC.
  - exists []. split; [reflexivity|]. split; [constructor|]. intros x. split; [intros []|]. intros (_ & _ & [[[] _] | (y & _ & _ & [[[] _] | [[] _]])]).
  - destruct IH as (Rn & E & ND & HR); [intros y Hy; apply INC, in_or_app; auto|].
    assert (Ix : In x els) by (apply INC, in_or_app; right; left; reflexivity).
    rewrite fold_left_app, E. cbn [fold_left high_step].
    assert (SPLIT : forall z, wanted (done ++ [x]) z <-> wanted done z \/ (In z els /\ is_tri z = true /\ (t <= f x)%Qc /\ ((z = x /\ (rimtri x \/ exists y, In y els /\ mates x y)) \/ mates z x))).
    { intros z. unfold wanted. split.
      - intros (Iz & Tz & [(D & Rm & L) | (y & Iy & Hm & [[D L] | [D L]])]).
        + apply in_app_iff in D. destruct D as [D | [<- | []]]; [left|right]; auto 10.
        + apply in_app_iff in D. destruct D as [D | [<- | []]]; [left|right]; eauto 12.
        + apply in_app_iff in D. destruct D as [D | [<- | []]]; [left|right]; eauto 12.
      - intros [(Iz & Tz & [(D & Rm & L) | (y & Iy & Hm & [[D L] | [D L]])]) | (Iz & Tz & L & [(-> & [Rm | (y & Iy & Hm)]) | Hm])]; split; auto; split; auto.
        + left. rewrite in_app_iff. auto.
        + right. exists y. rewrite !in_app_iff. tauto.
        + right. exists y. rewrite !in_app_iff. tauto.
        + left. rewrite in_app_iff. cbn. auto.
        + right. exists y. rewrite !in_app_iff. cbn. tauto.
        + right. exists x. rewrite !in_app_iff. cbn. tauto. }
    assert (SKIP : (forall z, In z els -> is_tri z = true -> (t <= f x)%Qc -> ((z = x /\ (rimtri x \/ exists y, In y els /\ mates x y)) \/ mates z x) -> wanted done z) ->
      forall z, In z Rn <-> wanted (done ++ [x]) z).
    { intros H z. rewrite SPLIT, HR. split; auto. intros [W | (Iz & Tz & L & W)]; auto. }
    assert (MW : forall z, In z els -> mates z x -> wanted done x -> wanted done z).
    { intros z Iz Hm (_ & Tx & [(D & Rm & L) | (y & Iy & Hy & W)]).
      - exfalso. exact (rim_mates x z (els_inM _ Ix) (els_inM _ Iz) Rm (mates_sym _ _ Hm)).
      - assert (y = z) by (apply (mates_fun x); auto using els_inM, mates_sym). subst y. split; auto. split; [apply (mates_tri _ _ Hm)|]. right. exists x. split; auto. split; auto. tauto. }
    destruct (emem x Rn) eqn:Ex.
    { exists Rn. split; [reflexivity|]. split; [exact ND|]. apply SKIP. apply emem_spec, HR in Ex. intros z Iz Tz L [(-> & _) | Hm]; auto. }
    apply emem_false in Ex. destruct (is_tri x) eqn:Tx; cbn [negb].
    2:{ exists Rn. split; [reflexivity|]. split; [exact ND|]. apply SKIP. intros z Iz Tz L [(-> & _) | Hm]; [congruence|]. apply mates_tri in Hm. destruct Hm. congruence. }
    rewrite checked_val. destruct (partner P x) as [y|] eqn:Ep.
    + apply partner_some, HP in Ep. destruct Ep as (_ & Iy & Hm). destruct (qleb t (f x)) eqn:Et.
      * apply qleb_spec in Et. exists (Rn ++ [x; y]). split; [reflexivity|].
        assert (Ny : ~ In y Rn). { intros Y. apply Ex. apply HR. apply HR in Y. destruct Y as (_ & Ty & [(D & Rm & L) | (w & Iw & Hw & W)]).
          - exfalso. exact (rim_mates y x (els_inM _ Iy) (els_inM _ Ix) Rm (mates_sym _ _ Hm)).
          - assert (w = x) by (apply (mates_fun y); auto using els_inM, mates_sym). subst w. split; auto. split; auto. right. exists y. split; auto. split; auto. tauto. }
        split.
        -- assert (A : NoDup ([x; y] ++ Rn)). { cbn. destruct Hm as [Nxy _]. constructor; [intros [-> | Q]; [apply Nxy; reflexivity|tauto]|]. constructor; auto. }
           clear - A. apply (Permutation_NoDup (Permutation_app_comm [x; y] Rn)). exact A.
        -- intros z. rewrite in_app_iff, HR, SPLIT. cbn [In]. split.
           ++ intros [W | [<- | [<- | []]]]; auto; right.
              ** split; auto. split; auto. split; auto. left. eauto.
              ** split; auto. split; [apply (mates_tri _ _ Hm)|]. split; auto. right. apply mates_sym. exact Hm.
           ++ intros [W | (Iz & Tz & L & [(-> & _) | Hz])]; auto. right. right. left. apply (mates_fun x); auto using els_inM, mates_sym.
      * exists Rn. split; [reflexivity|]. split; [exact ND|]. apply SKIP. intros z _ _ L. exfalso. exact (qleb_false _ _ Et L).
    + assert (NM : forall y, In y els -> ~ mates x y) by (intros y Iy Hm; apply (partner_none _ _ y Ep); apply HP; auto).
      destruct (emem x facing) eqn:Ef.
      * apply emem_spec, HF in Ef. destruct Ef as [_ Rm]. destruct (qleb t (f x)) eqn:Et.
        -- apply qleb_spec in Et. exists (Rn ++ [x]). split; [reflexivity|]. split.
           ++ apply (Permutation_NoDup (Permutation_app_comm [x] Rn)). cbn. constructor; auto.
           ++ intros z. rewrite in_app_iff, HR, SPLIT. cbn [In]. split.
              ** intros [W | [<- | []]]; auto. right. auto 10.
              ** intros [W | (Iz & Tz & L & [(-> & _) | Hz])]; auto. exfalso. exact (NM z Iz (mates_sym _ _ Hz)).
        -- exists Rn. split; [reflexivity|]. split; [exact ND|]. apply SKIP. intros z _ _ L. exfalso. exact (qleb_false _ _ Et L).
      * apply emem_false in Ef. exists Rn. split; [reflexivity|]. split; [exact ND|]. apply SKIP. intros z Iz Tz L [(-> & [Rm | (y & Iy & Hm)]) | Hm].
        -- exfalso. apply Ef. apply HF. auto. -- exfalso. exact (NM y Iy Hm). -- exfalso. exact (NM z Iz (mates_sym _ _ Hm)).
Qed.
(** the triangles refined at this level *)
Definition selected (x : elem) : Prop := In x els /\ is_tri x = true /\
  ((rimtri x /\ (t <= f x)%Qc) \/ exists y, In y els /\ mates x y /\ ((t <= f x)%Qc \/ (t <= f y)%Qc)).
Lemma level_high_ok : exists Rn, level_high fl M bd val t els = Some Rn /\ NoDup Rn /\ forall x, In x Rn <-> selected x.
Proof.
  unfold level_high. destruct find_pairs_ok as (P & facing & E & HP & HF). rewrite E.
  destruct (fold_high P facing HP HF els (incl_refl _)) as (Rn & -> & ND & HR). exists Rn. rewrite (proj2 (nodupb_spec _) ND). split; auto. split; auto.
  intros x. rewrite HR. unfold wanted, selected. split.
  - intros (I & T & [(_ & Rm & L) | (y & Iy & Hm & W)]); split; auto; split; auto; right. exists y. split; auto. split; auto. tauto.
  - intros (I & T & [(Rm & L) | (y & Iy & Hm & W)]); split; auto; split; auto; right. exists y. split; auto. split; auto. tauto.
Qed.
(** splitting *)
Variable Rn : list elem.
Hypothesis SEL : forall x, In x Rn <-> selected x.
Definition R' (x : elem) : Prop := R x \/ In x Rn.
Lemma split_in x : In x (split_high Rn els) <-> exists y, In y els /\
  ((~ In y Rn /\ x = y) \/ (In y Rn /\ exists e s p h, y = Tri e s p /\ x = Tri e s (p ++ [h]))).
Proof.
  unfold split_high. rewrite in_flat_map. split; intros (y & Iy & H); exists y; split; auto.
  - destruct (emem y Rn) eqn:E; [apply emem_spec in E|apply emem_false in E; destruct H as [<- | []]; auto].
    destruct y as [e|e s p]; [apply SEL in E; destruct E as (_ & E & _); discriminate|]. right. split; auto.
    destruct H as [<- | [<- | []]]; eauto 6.
  - destruct H as [(N & ->) | (J & e & s & p & h & -> & ->)].
    + apply emem_false in N. rewrite N. left. reflexivity.
    + apply emem_spec in J. rewrite J. destruct h; cbn; auto.
Qed.
Lemma closed' : closed fl M R'.
Proof.
  destruct CL as (C1 & C2 & C3). split; [|split].
  - intros x [H | H].
    + apply C1 in H. destruct x as [e|e s p]; cbn in *; auto. left. exact H.
    + apply SEL in H. destruct H as (I & _). apply LV in I. destruct I as [A _]. destruct x as [e|e s p]; cbn in *; auto. left. exact A.
  - intros x [H | H]; auto. apply SEL in H. destruct H as (I & _). apply els_inM. exact I.
  - intros e s p e' s' p' [H | H] I' Sm; [left; eapply C3; eassumption|].
    destruct (elem_eq_dec (Tri e s p) (Tri e' s' p')) as [<- | N]; [right; exact H|]. apply SEL in H. destruct H as (I & T & [(Rm & L) | (y & Iy & Hm & W)]).
    + exfalso. apply (rim_mates (Tri e s p) (Tri e' s' p')); auto; [exact (els_inM _ I)|]. split; auto.
    + right. assert (y = Tri e' s' p') by (apply (mates_fun (Tri e s p)); auto using els_inM; split; auto). subst y.
      apply SEL. split; auto. split; auto. right. exists (Tri e s p). split; auto. split; [apply mates_sym; exact Hm|tauto].
Qed.
Lemma dec' x : R' x \/ ~ R' x.
Proof. unfold R'. destruct (DEC x), (in_dec elem_eq_dec x Rn); tauto. Qed.
Lemma leaves' : leaves M R' (split_high Rn els).
Proof.
  assert (LF : forall x, In x els <-> active M R x /\ ~ R x) by apply LV.
  assert (CHN : forall e s p h, In (Tri e s p) els -> ~ In (Tri e s (p ++ [h])) els).
  { intros e s p h I J. apply LF in I. apply LF in J. destruct J as [J _]. cbn [active] in J. rewrite par_snoc in J. tauto. }
  split.
  - apply NoDup_flat_map; [apply LV| |].
    + intros x I. destruct (emem x Rn); [|constructor; auto; constructor]. destruct x as [e|e s p]; [constructor; auto; constructor|].
      constructor; [|constructor; auto; constructor]. intros [E | []]. injection E. intros X. apply app_inj_tail in X. destruct X. discriminate.
    + intros x y z Ix Iy Zx Zy.
      assert (X : forall u, In u els -> In z (if emem u Rn then match u with Tri e s p => [Tri e s (p ++ [h2]); Tri e s (p ++ [h0])] | Base _ => [u] end else [u]) ->
        u = z \/ exists e s p h, u = Tri e s p /\ z = Tri e s (p ++ [h])).
      { intros u Iu H. destruct (emem u Rn); [|destruct H as [-> | []]; auto]. destruct u as [e|e s p]; [destruct H as [-> | []]; auto|].
        right. destruct H as [<- | [<- | []]]; eauto 6. }
      destruct (X x Ix Zx) as [-> | (e & s & p & h & -> & ->)]; destruct (X y Iy Zy) as [-> | (e' & s' & p' & h' & -> & E)]; auto.
      * exfalso. subst z. exact (CHN _ _ _ _ Iy Ix).
      * exfalso. exact (CHN _ _ _ _ Ix Iy).
      * injection E. intros X1 -> ->. apply app_inj_tail in X1. destruct X1 as [-> _]. reflexivity.
  - intros x. rewrite split_in. split.
    + intros (y & Iy & [(N & ->) | (J & e & s & p & h & -> & ->)]).
      * apply LF in Iy. destruct Iy as [A N']. split; [destruct y as [e|e s p]; cbn in *; auto; left; exact A|]. intros [Q | Q]; tauto.
      * split; [cbn [active]; rewrite par_snoc; right; exact J|]. pose proof Iy as Iy'. apply LF in Iy'. destruct Iy' as [A N]. intros [Q | Q].
        -- apply (proj1 CL) in Q. cbn [active] in Q. rewrite par_snoc in Q. tauto.
        -- apply SEL in Q. destruct Q as (Q & _). exact (CHN _ _ _ _ Iy Q).
    + intros [A N]. destruct x as [e|e s p].
      * exists (Base e). split; [apply LF; split; [exact A|intros Q; apply N; left; exact Q]|]. left. split; auto. intros Q. apply N. right. exact Q.
      * cbn [active] in A. destruct A as [A | A].
        -- exists (Tri e s p). split; [apply LF; split; [exact A|intros Q; apply N; left; exact Q]|]. left. split; auto. intros Q. apply N. right. exact Q.
        -- destruct p as [|h p _] using rev_ind; [apply SEL in A; destruct A as (_ & A & _); discriminate|]. rewrite par_snoc in A.
           exists (Tri e s p). split; [apply SEL in A; apply A|]. right. split; auto. eauto 6.
Qed.
End L.
End D.
