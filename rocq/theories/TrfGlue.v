(** Indicators of vertices are equal exactly for the points that are glued. *)
From Coq Require Import List ZArith QArith Qcanon Bool Lia.
From Verif Require Import TrfModel TrfSpec TrfLattice TrfLattice2 TrfSide.
Import ListNotations.
Local Open Scope Qc_scope.

Lemma one_neq : (-(1))%Qc <> 1. Proof. discriminate. Qed.
Lemma m1_lt_1 : -(1) < 1. Proof. reflexivity. Qed.
Lemma qeqb_refl a : qeqb a a = true. Proof. apply qeqb_spec. reflexivity. Qed.
Lemma qeqb_neq a b : a <> b -> qeqb a b = false.
Proof. intros H. destruct (qeqb a b) eqn:E; [|reflexivity]. apply qeqb_spec in E. contradiction. Qed.
Lemma strict_neq t : -(1) < t -> t < 1 -> t <> -(1) /\ t <> 1.
Proof. intros H H'. split; intros ->; [exact (Qclt_not_eq _ _ H eq_refl) | exact (Qclt_not_eq _ _ H' eq_refl)]. Qed.

Section Q.
Variables (fl : flavour) (q : quad).
Hypothesis ND : NoDup [q0 q; q1 q; q2 q; q3 q].
Lemma nodes_distinct : nw fl q <> sw fl q /\ nw fl q <> se fl q /\ nw fl q <> ne fl q /\ sw fl q <> se fl q /\ sw fl q <> ne fl q /\ se fl q <> ne fl q.
Proof. inversion_clear ND. inversion_clear H0. inversion_clear H2. cbn in *. unfold nw, sw, se, ne. destruct fl; repeat split; intros E; rewrite E in *; tauto. Qed.
Lemma corner_fun p n n' : at_corner fl q p n -> at_corner fl q p n' -> n = n'.
Proof. intros H H'. inversion H; subst; inversion H'; reflexivity || (exfalso; apply one_neq; congruence). Qed.
Lemma corner_inj p p' n : at_corner fl q p n -> at_corner fl q p' n -> p = p'.
Proof. pose proof nodes_distinct. intros H1 H2. inversion H1; subst; inversion H2; subst; try reflexivity; exfalso; intuition congruence. Qed.
Lemma side_of s : exists n n', side_from fl q s n n'.
Proof. destruct s; eexists; eexists; split; constructor. Qed.
Lemma side_face s : side_from fl q s (fst (face fl q s)) (snd (face fl q s)).
Proof. destruct s; split; constructor. Qed.
Lemma side_face_eq s n n' : side_from fl q s n n' -> face fl q s = (n, n').
Proof. intros [H1 H2]. destruct (side_face s) as [H3 H4]. rewrite (corner_fun _ _ _ H1 H3), (corner_fun _ _ _ H2 H4). apply surjective_pairing. Qed.
Lemma side_neq s n n' : side_from fl q s n n' -> n <> n'.
Proof. intros H. apply side_face_eq in H. pose proof nodes_distinct. destruct s; cbn in H; injection H; intros; subst; intuition congruence. Qed.
Lemma side_inj s s' n n' : side_from fl q s n n' -> side_from fl q s' n n' -> s = s'.
Proof. intros H H'. apply side_face_eq in H. apply side_face_eq in H'. pose proof nodes_distinct. 
  destruct s, s'; cbn in H, H'; try reflexivity; exfalso; injection H; injection H'; intros; subst; intuition congruence. Qed.
Lemma side_rev s s' n n' : side_from fl q s n n' -> side_from fl q s' n' n -> False.
Proof. intros H H'. apply side_face_eq in H. apply side_face_eq in H'. pose proof nodes_distinct. 
  destruct s, s'; cbn in H, H'; injection H; injection H'; intros; subst; intuition congruence. Qed.
Lemma ind_corner e p n : at_corner fl q p n -> indicator fl q e p = Nd n.
Proof. intros H. inversion H; subst; reflexivity. Qed.
Lemma ind_side e s t n n' : -(1) < t -> t < 1 -> side_from fl q s n n' -> indicator fl q e (along s t) = on_face n n' t.
Proof.
  intros H1 H2 F. destruct (strict_neq _ H1 H2) as [N1 N2]. apply side_face_eq in F.
  destruct s; cbn in F; injection F; intros; subst; cbn [along indicator];
    rewrite ?(qeqb_neq _ _ N1), ?(qeqb_neq _ _ N2), ?qeqb_refl, ?(qeqb_neq _ _ one_neq), ?(qeqb_neq _ _ (not_eq_sym one_neq)), ?andb_false_r;
    cbn [andb]; reflexivity.
Qed.
Definition within (p : pt) : Prop := fst p <> -(1) /\ fst p <> 1 /\ snd p <> -(1) /\ snd p <> 1.
Lemma ind_inside e p : within p -> indicator fl q e p = Tup e (fst p) (snd p).
Proof. destruct p as [x y]. intros (A & B & C & D). cbn in *. rewrite !(qeqb_neq _ _ A), !(qeqb_neq _ _ B), !(qeqb_neq _ _ C), !(qeqb_neq _ _ D). reflexivity. Qed.
Lemma le_neq_lt a b : a <= b -> a <> b -> a < b.
Proof. intros H N. apply Qcle_lt_or_eq in H. tauto. Qed.
Lemma classify p : in_square p ->
  (exists n, at_corner fl q p n) \/
  (exists s t n n', -(1) < t /\ t < 1 /\ p = along s t /\ side_from fl q s n n') \/
  within p.
Proof.
  destruct p as [x y]. intros (A & B & C & D). cbn [fst snd] in *.
  assert (X : x = -(1) \/ x = 1 \/ (-(1) < x /\ x < 1)).
  { destruct (Qc_eq_dec x (-(1))); auto. destruct (Qc_eq_dec x 1); auto. right; right. split; apply le_neq_lt; auto. }
  assert (Y : y = -(1) \/ y = 1 \/ (-(1) < y /\ y < 1)).
  { destruct (Qc_eq_dec y (-(1))); auto. destruct (Qc_eq_dec y 1); auto. right; right. split; apply le_neq_lt; auto. }
  destruct X as [-> | [-> | [X1 X2]]], Y as [-> | [-> | [Y1 Y2]]];
    try (left; eexists; constructor).
  - right; left. destruct (side_of North) as (n & n' & F). exists North, y, n, n'. repeat split; auto; apply F.
  - right; left. destruct (side_of South) as (n & n' & F). exists South, y, n, n'. repeat split; auto; apply F.
  - right; left. destruct (side_of West) as (n & n' & F). exists West, x, n, n'. repeat split; auto; apply F.
  - right; left. destruct (side_of East) as (n & n' & F). exists East, x, n, n'. repeat split; auto; apply F.
  - right; right. destruct (strict_neq _ X1 X2), (strict_neq _ Y1 Y2). repeat split; auto.
Qed.
Lemma along_inj s s' t t' : -(1) < t -> t < 1 -> -(1) < t' -> t' < 1 -> along s t = along s' t' -> s = s' /\ t = t'.
Proof.
  intros A B C D E. destruct (strict_neq _ A B), (strict_neq _ C D).
  destruct s, s'; cbn in E; injection E; intros; subst; try tauto; exfalso; try (apply one_neq; congruence); congruence.
Qed.
Lemma along_corner s t n : -(1) < t -> t < 1 -> at_corner fl q (along s t) n -> False.
Proof. intros A B H. destruct (strict_neq _ A B) as [N1 N2]. destruct s; inversion H; subst; congruence. Qed.
End Q.

Lemma tup_inj a b c a' b' c' : Tup a b c = Tup a' b' c' -> a = a' /\ b = b' /\ c = c'.
Proof. intros E. inversion E. auto. Qed.
Section M.
Variables (fl : flavour) (M : mesh).
Hypothesis OK : mesh_ok fl M.
Hypothesis DIR : same_directions fl M.
Lemma get_In e q : get M e = Some q <-> In (e, q) M.
Proof.
  destruct OK as (ND & _). unfold get. clear DIR OK. induction M as [|[e' q'] M' IH]; cbn; [split; [discriminate|tauto]|].
  inversion_clear ND. specialize (IH H0). destruct (Z.eqb_spec e' e).
  - subst. split; [intros E; injection E; intros; subst; auto|]. intros [E | I]; [injection E; intros; subst; reflexivity|].
    exfalso. apply H. apply in_map_iff. exists (e, q). auto.
  - rewrite IH. split; [auto|]. intros [E | I]; [congruence|exact I].
Qed.
Lemma In_fun e q q' : In (e, q) M -> In (e, q') M -> q = q'.
Proof. intros H H'. apply get_In in H. apply get_In in H'. congruence. Qed.
Lemma q_nodup e q : In (e, q) M -> NoDup [q0 q; q1 q; q2 q; q3 q].
Proof. intros H. apply OK in H. tauto. Qed.
Lemma corner_nonneg e q p n : In (e, q) M -> at_corner fl q p n -> (0 <= n)%Z.
Proof. intros H C. apply OK in H. destruct H as [_ B]. inversion C; subst; unfold nw, sw, ne, se; destruct fl; lia. Qed.
Lemma on_face_inj a b a' b' t t' : on_face a b t = on_face a' b' t' -> t = t' /\ ((a = a' /\ b = b') \/ (a = b' /\ b = a')).
Proof. unfold on_face. intros E. apply tup_inj in E. destruct E as (N & X & T). apply q_of_inj in X. split; [exact T|]. lia. Qed.
Lemma side_inside e q s n n' e' x y t : In (e, q) M -> side_from fl q s n n' -> x < 1 -> on_face n n' t <> Tup e' x y.
Proof.
  intros I F X E. unfold on_face in E. apply tup_inj in E. destruct E as (_ & X' & _). rewrite <- X', <- q_of_1 in X. apply q_of_lt in X.
  pose proof (side_neq _ _ (q_nodup _ _ I) _ _ _ F). destruct F as [F1 F2].
  pose proof (corner_nonneg _ _ _ _ I F1). pose proof (corner_nonneg _ _ _ _ I F2). lia.
Qed.

Theorem indicator_glued e q e' q' p p' : In (e, q) M -> In (e', q') M -> in_square p -> in_square p' ->
  (indicator fl q e p = indicator fl q' e' p' <-> glued fl M e p e' p').
Proof.
  intros I I' SQ SQ'. pose proof (q_nodup _ _ I) as ND. pose proof (q_nodup _ _ I') as ND'.
  split.
  - intros E.
    destruct (classify fl q p SQ) as [(n & C) | [(s & t & n & n' & T1 & T2 & -> & F) | W]];
    destruct (classify fl q' p' SQ') as [(n1 & C1) | [(s1 & t1 & n1 & n1' & T3 & T4 & -> & F1) | W1]];
    rewrite ?(ind_corner fl q e _ _ C), ?(ind_corner fl q' e' _ _ C1) in E;
    try rewrite (ind_side fl q e _ _ _ _ T1 T2 F) in E; try rewrite (ind_side fl q' e' _ _ _ _ T3 T4 F1) in E;
    rewrite ?(ind_inside fl q e _ W), ?(ind_inside fl q' e' _ W1) in E;
    try (unfold on_face in E; discriminate).
    + injection E. intros. subst. eapply glued_corner; eassumption.
    + apply on_face_inj in E. destruct E as [-> [[-> ->] | [-> ->]]].
      * eapply glued_side; eassumption.
      * exfalso. eapply DIR; [exact I|exact I'|exact F|exact F1].
    + exfalso. eapply side_inside; [exact I|exact F| |exact E]. apply le_neq_lt; [apply SQ'|apply W1].
    + exfalso. eapply side_inside; [exact I'|exact F1| |symmetry; exact E]. apply le_neq_lt; [apply SQ|apply W].
    + destruct p, p'. cbn [fst snd] in E. apply tup_inj in E. destruct E as (-> & -> & ->). constructor.
  - intros G. inversion G; subst.
    + rewrite (In_fun _ _ _ I I'). reflexivity.
    + rewrite (In_fun _ _ _ I H), (In_fun _ _ _ I' H0), (ind_corner _ _ _ _ _ H1), (ind_corner _ _ _ _ _ H2). reflexivity.
    + rewrite (In_fun _ _ _ I H), (In_fun _ _ _ I' H0), (ind_side _ _ _ _ _ _ _ H1 H2 H3), (ind_side _ _ _ _ _ _ _ H1 H2 H4). reflexivity.
    + exfalso. eapply DIR; [exact H|exact H0|exact H3|exact H4].
Qed.
Lemma glued_inj e p p' : glued fl M e p e p' -> p = p'.
Proof.
  intros G. inversion G; subst.
  - reflexivity.
  - rewrite (In_fun _ _ _ H0 H) in *. eapply corner_inj; [exact (q_nodup _ _ H)|eassumption|eassumption].
  - rewrite (In_fun _ _ _ H0 H) in *. rewrite (side_inj fl q (q_nodup _ _ H) s s' n n'); auto.
  - exfalso. eapply DIR; [exact H|exact H0|eassumption|eassumption].
Qed.
Lemma glued_onb e p e' p' : glued fl M e p e' p' -> e <> e' -> onb p /\ onb p'.
Proof.
  intros G N. inversion G; subst; [congruence|..].
  - split; [inversion H1 | inversion H2]; subst; unfold onb;
      (exists North; eexists; reflexivity) || (exists South; eexists; reflexivity).
  - split; eexists; eexists; reflexivity.
  - split; eexists; eexists; reflexivity.
Qed.
End M.
