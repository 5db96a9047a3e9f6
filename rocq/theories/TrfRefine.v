(** All levels; the boundary faces; the numbers. *)
From Coq Require Import List Permutation ZArith QArith Qcanon Bool Lia.
From Verif Require Import TrfModel TrfSpec TrfLattice TrfLattice2 TrfSide TrfGlue TrfStatic TrfConform TrfLeaves TrfPairs TrfDynamic.
Import ListNotations.
Local Open Scope Z_scope.

Lemma edge_rim fl M e s p : rim_edge fl M (bottom_edge e s p) <-> at_rim fl M e s p.
Proof.
  unfold bottom_edge. rewrite verts_eta. cbn [rim_edge]. split.
  - intros (s1 & t & t' & A & B & Rm). destruct (ends_side s p) as (s2 & k & c & Bs). { exists s1, t. exact A. } { exists s1, t'. exact B. }
    exists s2, k, c. split; [exact Bs|]. pose proof (seg_mid _ _ _ _ _ Bs) as Mi. rewrite tmid_eta, A, B, mid_along in Mi.
    destruct (seg_bounds _ _ _ _ _ Bs) as (_ & _ & _ & St). apply lat_strict in St. destruct St. symmetry in Mi. apply along_inj2 in Mi; auto. destruct Mi as [-> _]. exact Rm.
  - intros (s1 & k & c & Bs & Rm). destruct (seg_ends _ _ _ _ _ Bs) as [[A B] | [A B]]; exists s1; eauto.
Qed.

Section D.
Variables (fl : flavour) (M : mesh).
Hypothesis OK : mesh_ok fl M.
Hypothesis DIR : same_directions fl M.
Variable bd : list (Z * side).
Hypothesis BD : boundary_ok fl M bd.
Notation inM := (inM M).
Variables (val : elem -> value) (f : elem -> Qc).
Hypothesis VAL : forall x, val x = VNum (f x).

Definition state (els : list elem) : Prop := exists R, closed fl M R /\ (forall x, R x \/ ~ R x) /\ leaves M R els.
Lemma chosen_selected R els t x : closed fl M R -> leaves M R els -> (chosen fl M els f t x <-> selected fl M els f t x).
Proof.
  intros CL LV. unfold chosen, selected. destruct x as [e|e s p]; [split; [tauto|intros (_ & X & _); discriminate]|].
  assert (SE : forall e' s' p', In (Tri e s p) els -> In (Tri e' s' p') els -> (same_edge fl M (bottom_edge e s p) (bottom_edge e' s' p') <-> samemid fl M e s p e' s' p')).
  { intros e' s' p' I I'. apply (edge_same fl M OK DIR); try (unfold bottom_edge; rewrite verts_eta; auto); [exact (leaf_inM fl M R els CL LV _ I)|exact (leaf_inM fl M R els CL LV _ I')]. }
  rewrite edge_rim. split.
  - intros (I & [(Rm & L) | (e' & s' & p' & I' & N & Sm & W)]); split; auto; split; auto. right. exists (Tri e' s' p'). split; auto. split; [split; auto; apply SE; auto|]. exact W.
  - intros (I & _ & [(Rm & L) | (y & I' & [N Sm] & W)]); split; auto. right. destruct y as [|e' s' p']; [tauto|]. exists e', s', p'. split; auto. split; auto. split; auto. apply SE; auto.
Qed.
Lemma level_one_ok t : exists R, level_one M val t = Some R /\ (forall x, In x R <-> exists e, x = Base e /\ inM e /\ (t <= f x)%Qc) /\ state (split_one R (map (fun x => Base (fst x)) M)).
Proof.
  unfold level_one. rewrite (traverse_some _ (fun x => (Base (fst x), qleb t (f (Base (fst x)))))) by (intros a _; rewrite VAL; reflexivity).
  set (R := map fst _). exists R. split; [reflexivity|].
  assert (HR : forall x, In x R <-> exists e, x = Base e /\ inM e /\ (t <= f x)%Qc).
  { intros x. unfold R. rewrite in_map_iff. split.
    - intros ((y & b) & <- & H). apply filter_In in H. destruct H as [H B]. apply in_map_iff in H. destruct H as ((e & q) & E & I). cbn in E, B. subst b. apply pair_equal_spec in E. destruct E as [<- E].
      exists e. split; auto. split; [eapply q_inM; eassumption|]. apply qleb_spec in E. exact E.
    - intros (e & -> & I & L). exists (Base e, true). split; auto. apply filter_In. split; auto. apply in_map_iff. destruct (inM_q M _ I) as [q Q]. exists (e, q). split; auto. cbn [fst]. f_equal. apply qleb_spec. exact L. }
  split; [exact HR|]. exists (fun x => In x R).
  assert (NB : forall e s p, ~ In (Tri e s p) R) by (intros e s p H; apply HR in H; destruct H as (e' & E & _); discriminate).
  assert (BI : forall e, In (Base e) R -> inM e) by (intros e H; apply HR in H; destruct H as (e' & E & I & _); congruence).
  assert (BA : forall y, In y (map (fun x => Base (fst x)) M) <-> exists e, y = Base e /\ inM e).
  { intros y. rewrite in_map_iff. split.
    - intros ((e & q) & <- & I). exists e. split; auto. eapply q_inM; eassumption.
    - intros (e & -> & I). destruct (inM_q M _ I) as [q Q]. exists (e, q). auto. }
  split; [|split].
  - split; [|split].
    + intros [e|e s p] H; [apply BI; exact H|destruct (NB _ _ _ H)].
    + intros [e|e s p] H; [apply BI; exact H|destruct (NB _ _ _ H)].
    + intros e s p e' s' p' H. destruct (NB _ _ _ H).
  - intros x. destruct (in_dec elem_eq_dec x R); auto.
  - split.
    + apply NoDup_flat_map.
      * replace (map (fun x => Base (fst x)) M) with (map Base (map fst M)) by apply map_map.
        destruct OK as (N & _). clear - N. induction (map fst M) as [|a l IH]; cbn; [constructor|]. apply NoDup_cons_iff in N. destruct N as [Na N]. constructor; auto.
        intros H. apply Na. apply in_map_iff in H. destruct H as (b & E & H). congruence.
      * intros x H. apply BA in H. destruct H as (e & -> & _). destruct (emem (Base e) R); [|constructor; auto; constructor].
        repeat constructor; cbn; intuition discriminate.
      * intros x y z Hx Hy. apply BA in Hx. apply BA in Hy. destruct Hx as (e & -> & _), Hy as (e' & -> & _).
        destruct (emem (Base e) R), (emem (Base e') R); cbn; intros [<- | A]; intuition congruence.
    + intros x. unfold split_one. rewrite in_flat_map. split.
      * intros (y & Hy & Hx). apply BA in Hy. destruct Hy as (e & -> & I). destruct (emem (Base e) R) eqn:Em.
        -- apply emem_spec in Em. cbn in Hx. destruct Hx as [<- | [<- | [<- | [<- | []]]]]; (split; [exact Em|apply NB]).
        -- apply emem_false in Em. destruct Hx as [<- | []]. split; [exact I|exact Em].
      * intros [A N]. destruct x as [e|e s p].
        -- exists (Base e). split; [apply BA; exists e; auto|]. apply emem_false in N. rewrite N. left. reflexivity.
        -- cbn [active] in A. destruct p as [|h p]; [|destruct (NB _ _ _ A)]. cbn [par] in A. exists (Base e). split; [apply BA; exists e; auto|].
           apply emem_spec in A. rewrite A. destruct s; cbn; auto 6.
Qed.
Lemma level_step els t : state els -> exists R, level_high fl M bd val t els = Some R /\ state (split_high R els) /\
  (forall x, In x R <-> chosen fl M els f t x) /\
  forall z, In z (split_high R els) <-> (In z els /\ ~ chosen fl M els f t z) \/
    exists e s p h, z = Tri e s (p ++ [h]) /\ chosen fl M els f t (Tri e s p).
Proof.
  intros (R & CL & DEC & LV). destruct (level_high_ok fl M OK DIR bd BD R els CL LV val f t VAL) as (Rn & E & ND & SEL).
  exists Rn. split; [exact E|]. split.
  - exists (R' R Rn). split; [eapply closed'; eassumption|]. split; [apply dec'; assumption|eapply leaves'; eassumption].
  - assert (CH : forall x, In x Rn <-> chosen fl M els f t x) by (intros x; rewrite SEL; symmetry; eapply chosen_selected; eassumption).
    split; [exact CH|]. intros z. rewrite (split_in fl M els f t Rn SEL). split.
    + intros (y & Iy & [(N & ->) | (J & e & s & p & h & -> & ->)]); rewrite CH in *; [auto|]. right. exists e, s, p, h. auto.
    + intros [(I & N) | (e & s & p & h & -> & C)].
      * exists z. rewrite <- CH in N. auto.
      * exists (Tri e s p). split; [apply C|]. right. rewrite CH. split; auto. eauto 6.
Qed.
Lemma high_ok ts : forall els, state els -> exists els', high_levels fl M bd val ts els = Some els' /\ state els'.
Proof.
  induction ts as [|t ts IH]; intros els H; cbn [high_levels]; [eauto|].
  destruct (level_step els t H) as (R & -> & H' & _). apply IH. exact H'.
Qed.
Lemma refine_ok t ts : exists els, refine fl M bd val (t :: ts) = Some els /\ state els.
Proof. unfold refine. destruct (level_one_ok t) as (R & -> & _ & H). apply high_ok. exact H. Qed.
Lemma high_snoc ts t : forall els, high_levels fl M bd val (ts ++ [t]) els =
  match high_levels fl M bd val ts els with Some els' => match level_high fl M bd val t els' with Some R => Some (split_high R els') | None => None end | None => None end.
Proof.
  induction ts as [|t0 ts IH]; intros els; cbn [high_levels app].
  - destruct (level_high fl M bd val t els); reflexivity.
  - destruct (level_high fl M bd val t0 els); [apply IH|reflexivity].
Qed.
Lemma refine_snoc t0 ts t : exists els els', refine fl M bd val (t0 :: ts) = Some els /\ refine fl M bd val (t0 :: ts ++ [t]) = Some els' /\
  forall z, In z els' <-> (In z els /\ ~ chosen fl M els f t z) \/ exists e s p h, z = Tri e s (p ++ [h]) /\ chosen fl M els f t (Tri e s p).
Proof.
  unfold refine. destruct (level_one_ok t0) as (R & -> & _ & H). destruct (high_ok ts _ H) as (els & E & H').
  destruct (level_step els t H') as (Rn & En & _ & _ & HZ). exists els, (split_high Rn els). split; [exact E|]. split; [|exact HZ].
  rewrite high_snoc, E, En. reflexivity.
Qed.
Lemma refine_one t : exists els, refine fl M bd val [t] = Some els /\
  forall z, In z els <-> exists e, inM e /\ ((z = Base e /\ ~ (t <= f (Base e))%Qc) \/ ((t <= f (Base e))%Qc /\ exists s, z = Tri e s [])).
Proof.
  unfold refine. destruct (level_one_ok t) as (R & -> & HR & H). cbn [high_levels]. eexists. split; [reflexivity|].
  intros z. unfold split_one. rewrite in_flat_map. split.
  - intros (y & Hy & Hz). apply in_map_iff in Hy. destruct Hy as ((e & q) & <- & I). cbn [fst] in *. exists e. split; [eapply q_inM; eassumption|].
    destruct (emem (Base e) R) eqn:Em.
    + apply emem_spec, HR in Em. destruct Em as (e' & E & _ & L). right. split; [exact L|]. cbn in Hz. destruct Hz as [<- | [<- | [<- | [<- | []]]]]; eauto.
    + apply emem_false in Em. destruct Hz as [<- | []]. left. split; auto. intros L. apply Em. apply HR. exists e. split; auto. split; auto. eapply q_inM; eassumption.
  - intros (e & I & H'). destruct (inM_q M _ I) as [q Q]. exists (Base e). split; [apply in_map_iff; exists (e, q); auto|].
    destruct H' as [(-> & N) | (L & s & ->)].
    + replace (emem (Base e) R) with false; [left; reflexivity|]. symmetry. apply emem_false. rewrite HR. intros (e' & _ & _ & L). tauto.
    + replace (emem (Base e) R) with true; [destruct s; cbn; auto 6|]. symmetry. apply emem_spec. apply HR. exists e. auto.
Qed.
Lemma state_conforming els : state els -> conforming fl M els.
Proof. intros (R & CL & DEC & LV). eapply leaves_conforming; eassumption. Qed.
Lemma state_inM els x : state els -> In x els -> inM (of_base x).
Proof. intros (R & CL & DEC & LV). eapply leaf_inM; eassumption. Qed.

(** all values reach all thresholds: every triangle of one depth *)
Definition all_of (n : nat) (els : list elem) : Prop := forall x, In x els <-> exists e s p, x = Tri e s p /\ inM e /\ length p = n.
Lemma all_chosen n els t : (forall x, (t <= f x)%Qc) -> all_of n els -> forall x, In x els -> chosen fl M els f t x.
Proof.
  intros L A x I. pose proof I as I'. apply A in I'. destruct I' as (e & s & p & -> & Ie & Lp). cbn [chosen]. split; [exact I|].
  destruct (mate_or_rim fl M OK DIR _ p (le_n _) e s Ie) as [Rm | (e' & s' & p' & Ie' & N & Sm & _)].
  - left. split; [apply edge_rim; exact Rm|apply L].
  - right. exists e', s', p'. split; [apply A; exists e', s', p'; split; auto; split; auto; rewrite <- Lp; symmetry; exact (samemid_len fl M OK DIR _ _ _ _ _ _ Ie Ie' Sm)|].
    split; [congruence|]. split; [|left; apply L]. apply (edge_same fl M OK DIR) with (e := e) (s := s) (p := p) (e' := e') (s' := s') (p' := p'); auto; unfold bottom_edge; rewrite verts_eta; auto.
Qed.
Lemma all_levels ts : (forall t x, In t ts -> (t <= f x)%Qc) -> forall n els, state els -> all_of n els ->
  exists els', high_levels fl M bd val ts els = Some els' /\ state els' /\ all_of (n + length ts) els'.
Proof.
  induction ts as [|t ts IH]; intros L n els H A; cbn [high_levels length].
  - rewrite Nat.add_0_r. eauto.
  - destruct (level_step els t H) as (R & -> & H' & _ & HZ). rewrite Nat.add_succ_r, <- Nat.add_succ_l. apply IH; [intros; apply L; right; assumption|exact H'|].
    assert (C : forall x, In x els -> chosen fl M els f t x) by (apply (all_chosen n); auto; intros; apply L; left; reflexivity).
    intros x. rewrite HZ. split.
    + intros [(I & N) | (e & s & p & h & -> & Ch)]; [destruct (N (C _ I))|]. destruct Ch as [I _]. apply A in I. destruct I as (e' & s' & p' & E & I & Lp). injection E. intros -> -> ->.
      exists e', s', (p' ++ [h]). split; auto. split; auto. rewrite app_length. cbn. lia.
    + intros (e & s & p & -> & I & Lp). right. destruct p as [|h p _] using rev_ind; [discriminate|]. exists e, s, p, h. split; auto. apply C. apply A. exists e, s, p. split; auto. split; auto. rewrite app_length in Lp. cbn in Lp. lia.
Qed.
Lemma uniform_ok t ts : (forall t' x, In t' (t :: ts) -> (t' <= f x)%Qc) -> exists els, refine fl M bd val (t :: ts) = Some els /\ NoDup els /\ all_of (length ts) els.
Proof.
  intros L. destruct (refine_one t) as (els1 & E1 & H1). unfold refine in *. destruct (level_one_ok t) as (R & EL & _ & H). rewrite EL in *. cbn [high_levels] in E1. injection E1. intros <-.
  destruct (all_levels ts) with (n := O) (els := split_one R (map (fun x => Base (fst x)) M)) as (els' & E & S' & A).
  - intros; apply L; right; assumption.
  - exact H.
  - intros x. rewrite H1. split.
    + intros (e & I & [(_ & N) | (_ & s & ->)]); [exfalso; apply N, L; left; reflexivity|]. exists e, s, []. auto.
    + intros (e & s & p & -> & I & Lp). destruct p; [|discriminate]. exists e. split; auto. right. split; [apply L; left; reflexivity|]. eauto.
  - exists els'. split; [exact E|]. split; [|exact A]. destruct S' as (R' & _ & _ & LV). apply LV.
Qed.

(** numbers *)
Lemma indsv_points x q : In (of_base x, q) M -> indsv fl M x = map (indicator fl q (of_base x)) (node_points fl x).
Proof.
  intros Q. destruct x as [e|e s p].
  - unfold indsv. cbn [inds of_base node_points] in *. pose proof Q as Q'. apply (get_In fl M OK) in Q. rewrite Q. destruct fl; cbn [map];
    rewrite !(ind_corner _ _ e _ _ (corner_nw _ _)), !(ind_corner _ _ e _ _ (corner_sw _ _)), !(ind_corner _ _ e _ _ (corner_ne _ _)), !(ind_corner _ _ e _ _ (corner_se _ _)); reflexivity.
  - rewrite (indsv_tri fl M OK _ _ _ _ Q). cbn [node_points]. rewrite verts_eta. reflexivity.
Qed.
Lemma points_sq x p : In p (node_points fl x) -> in_square p.
Proof.
  destruct x as [e|e s r]; cbn [node_points].
  - assert (A : forall a b, (a = -(1) \/ a = 1)%Qc -> (b = -(1) \/ b = 1)%Qc -> in_square (a, b)).
    { pose proof (Qclt_le_weak _ _ m1_lt_1). intros a b [-> | ->] [-> | ->]; repeat split; cbn; auto; apply Qcle_refl. }
    destruct fl; cbn; intuition (subst; apply A; auto).
  - rewrite verts_eta. intros [<- | [<- | [<- | []]]]; apply vert_sq.
Qed.
Lemma numbered_ok els : (forall x, In x els -> inM (of_base x)) -> exists m, make_map fl M els = Some m /\ numbered fl M els m.
Proof.
  intros H. rewrite (make_map_ok fl M OK els H). eexists. split; [reflexivity|]. set (tab := table (map (indsv fl M) els)).
  assert (NS : forall x ns, In (x, ns) (map (fun x => (x, nodes fl M els x)) els) -> In x els /\ ns = map (place tab) (indsv fl M x)).
  { intros x ns I. apply in_map_iff in I. destruct I as (y & E & I). apply pair_equal_spec in E. destruct E as [-> <-]. auto. }
  split; [rewrite map_map; cbn; apply map_id|]. split; [|split].
  - intros x ns I. apply NS in I. destruct I as [I ->]. destruct (inM_q M _ (H _ I)) as [q Q]. rewrite (indsv_points _ _ Q), !map_length. reflexivity.
  - intros x ns y ns' i j a b p p' I J A P B P'. apply NS in I. apply NS in J. destruct I as [I ->], J as [J ->].
    destruct (inM_q M _ (H _ I)) as [q Q]. destruct (inM_q M _ (H _ J)) as [q' Q'].
    pose proof (in_table fl M els x) as T. rewrite (indsv_points _ _ Q) in A, T. rewrite (indsv_points _ _ Q') in B.
    rewrite map_map in A, B. rewrite nth_error_map, P in A. rewrite nth_error_map, P' in B. cbn in A, B. injection A. injection B. intros <- <-.
    apply nth_error_In in P. apply nth_error_In in P'.
    rewrite place_inj by (apply T; [exact I|]; apply in_map; exact P). apply (indicator_glued fl M OK DIR); auto; eapply points_sq; eassumption.
  - exists (length tab). intros a. split.
    + intros L. destruct (place_onto tab a) as (i & Ii & E); [apply fold_enter_nodup; constructor|exact L|]. apply table_in in Ii. destruct Ii as (l & Il & Ii). apply in_map_iff in Il. destruct Il as (x & <- & Ix).
      exists x, (nodes fl M els x). split; [apply in_map_iff; eauto|]. unfold nodes. fold tab. rewrite <- E. apply in_map. exact Ii.
    + intros (x & ns & I & Ia). apply NS in I. destruct I as [I ->]. apply in_map_iff in Ia. destruct Ia as (i & <- & Ii). apply place_lt. exact (in_table fl M els x i I Ii).
Qed.
Lemma refine_conforming t ts : exists els, refine fl M bd val (t :: ts) = Some els /\ conforming fl M els.
Proof. destruct (refine_ok t ts) as (els & E & H). exists els. split; [exact E|apply state_conforming; exact H]. Qed.
Lemma refine_numbered t ts els : refine fl M bd val (t :: ts) = Some els -> exists m, make_map fl M els = Some m /\ numbered fl M els m.
Proof. intros E. destruct (refine_ok t ts) as (els' & E' & H). assert (els = els') by congruence. subst els'. apply numbered_ok. intros x. apply state_inM. exact H. Qed.
End D.

(** boundary faces of the msehtt version *)
Lemma once {A} (P : A -> bool) l x : NoDup l -> In x l -> P x = true -> (length (filter P l) = 1%nat <-> forall y, In y l -> P y = true -> y = x).
Proof.
  intros N I Px. split.
  - intros L y Iy Py. assert (Fx : In x (filter P l)) by (apply filter_In; auto). assert (Fy : In y (filter P l)) by (apply filter_In; auto).
    destruct (filter P l) as [|a [|b r]]; try discriminate. destruct Fx as [<- | []], Fy as [<- | []]. reflexivity.
  - intros U. assert (ND : NoDup (filter P l)) by (apply NoDup_filter; exact N).
    assert (Fx : In x (filter P l)) by (apply filter_In; auto).
    destruct (filter P l) as [|a [|b r]] eqn:E; [destruct Fx|reflexivity|]. exfalso.
    assert (Ea : a = x) by (assert (Ia : In a (filter P l)) by (rewrite E; left; reflexivity); apply filter_In in Ia; apply U; tauto).
    assert (Eb : b = x) by (assert (Ib : In b (filter P l)) by (rewrite E; right; left; reflexivity); apply filter_In in Ib; apply U; tauto).
    subst. apply NoDup_cons_iff in ND. apply (proj1 ND). left. reflexivity.
Qed.
Lemma undirected_shared q s q' s' : zzeqb (undirected (face Msehtt q s)) (undirected (face Msehtt q' s')) = true <-> shared Msehtt q s q' s'.
Proof.
  unfold zzeqb, undirected. cbn [fst snd]. rewrite andb_true_iff, !Z.eqb_eq. split.
  - intros [E1 E2]. exists (fst (face Msehtt q s)), (snd (face Msehtt q s)). split; [apply side_face|].
    assert (C : (fst (face Msehtt q s) = fst (face Msehtt q' s') /\ snd (face Msehtt q s) = snd (face Msehtt q' s')) \/ (fst (face Msehtt q s) = snd (face Msehtt q' s') /\ snd (face Msehtt q s) = fst (face Msehtt q' s'))) by lia.
    destruct C as [[-> ->] | [-> ->]]; [left|right]; apply side_face.
  - intros (n & n' & F & [F' | F']); apply side_face_eq in F; apply side_face_eq in F'; rewrite F, F'; cbn [fst snd]; lia.
Qed.
Lemma all_faces_in M e s u : In (e, s, u) (all_faces M) <-> exists q, In (e, q) M /\ u = undirected (face Msehtt q s).
Proof.
  unfold all_faces. rewrite in_flat_map. split.
  - intros ((e' & q) & I & H). apply in_map_iff in H. destruct H as (s' & E & _). apply pair_equal_spec in E. destruct E as [E <-]. apply pair_equal_spec in E. destruct E as [<- <-]. eauto.
  - intros (q & I & ->). exists (e, q). split; auto. apply in_map_iff. exists s. split; auto. destruct s; cbn; auto.
Qed.
Lemma all_faces_nodup M : NoDup (map fst M) -> NoDup (all_faces M).
Proof.
  intros N. apply NoDup_flat_map.
  - eapply NoDup_map_inv. exact N.
  - intros (e & q) _. cbn. repeat constructor; cbn; intuition discriminate.
  - intros (e & q) (e' & q') z I I' H H'. apply in_map_iff in H. apply in_map_iff in H'. destruct H as (s & <- & _), H' as (s' & E & _). cbn [fst snd] in E.
    apply pair_equal_spec in E. destruct E as [E _]. apply pair_equal_spec in E. destruct E as [-> _].
    f_equal. clear - N I I'. induction M as [|(a & b) l IH]; [destruct I|]. cbn in N. apply NoDup_cons_iff in N. destruct N as [Na N].
    destruct I as [I | I], I' as [I' | I'].
    + congruence.
    + exfalso. apply Na. apply in_map_iff. exists (e, q'). split; [cbn; congruence|exact I'].
    + exfalso. apply Na. apply in_map_iff. exists (e, q). split; [cbn; congruence|exact I].
    + apply IH; auto.
Qed.
Lemma boundary_faces_ok M : mesh_ok Msehtt M -> boundary_ok Msehtt M (boundary_faces M).
Proof.
  intros OK e s I. unfold boundary_faces. pose proof (all_faces_nodup M (proj1 OK)) as ND. rewrite in_map_iff. split.
  - intros ((es & u) & E & H). cbn in E. subst es. apply filter_In in H. destruct H as [Hf Hn]. apply Nat.eqb_eq in Hn. apply all_faces_in in Hf. destruct Hf as (q & Q & ->). cbn [snd] in Hn.
    exists q. split; [exact Q|]. intros e' q' s' Q' Sh.
    apply (once _ _ (e, s, undirected (face Msehtt q s))) with (y := (e', s', undirected (face Msehtt q' s'))) in Hn.
    + apply pair_equal_spec in Hn. destruct Hn as [Hn _]. apply pair_equal_spec in Hn. exact Hn.
    + exact ND.
    + apply all_faces_in. eauto.
    + unfold zzeqb. rewrite !Z.eqb_refl. reflexivity.
    + apply all_faces_in. eauto.
    + apply undirected_shared. exact Sh.
  - intros (q & Q & U). exists (e, s, undirected (face Msehtt q s)). split; auto. apply filter_In. split; [apply all_faces_in; eauto|]. apply Nat.eqb_eq.
    apply (once _ _ (e, s, undirected (face Msehtt q s))); [exact ND|apply all_faces_in; eauto|unfold zzeqb; cbn [snd]; rewrite !Z.eqb_refl; reflexivity|].
    intros ((e' & s') & u) Hy Hu. apply all_faces_in in Hy. destruct Hy as (q' & Q' & ->). cbn [snd] in Hu. apply undirected_shared in Hu. destruct (U e' q' s' Q' Hu) as [-> ->].
    rewrite (In_fun Msehtt M OK _ _ _ Q' Q). reflexivity.
Qed.
