(** All triangles over a mesh: which of them have the same longest side. *)
From Coq Require Import List ZArith QArith Qcanon Bool Lia.
From Verif Require Import TrfModel TrfSpec TrfLattice TrfLattice2 TrfSide TrfGlue.
Import ListNotations.
Local Open Scope Z_scope.

Definition vert1 s p := snd (fst (verts s p)).
Definition vert2 s p := snd (verts s p).
Definition vert0 s p := fst (fst (verts s p)).
Lemma verts_eta s p : verts s p = (vert0 s p, vert1 s p, vert2 s p).
Proof. unfold vert0, vert1, vert2. destruct (verts s p) as [[a b] c]. reflexivity. Qed.
Lemma tmid_eta s p : tmid s p = mid (vert1 s p) (vert2 s p).
Proof. unfold tmid. rewrite verts_eta. reflexivity. Qed.
Lemma mid_sym a b : mid a b = mid b a.
Proof. unfold mid. f_equal; ring. Qed.

Lemma lat_sq k z : inb k z -> (-(1) <= lat k z /\ lat k z <= 1)%Qc.
Proof.
  intros [A B]. split.
  - rewrite <- (lat_0 k). destruct (Z.eq_dec 0 z) as [<- | N]; [apply Qcle_refl|]. apply Qclt_le_weak, lat_lt. lia.
  - rewrite <- (lat_top k). destruct (Z.eq_dec z (2 * 2 ^ Z.of_nat k)) as [<- | N]; [apply Qcle_refl|]. apply Qclt_le_weak, lat_lt. lia.
Qed.
Lemma lat_strict k z : 0 < z < top k -> (-(1) < lat k z /\ lat k z < 1)%Qc.
Proof. intros [A B]. split; [rewrite <- (lat_0 k) | rewrite <- (lat_top k)]; apply lat_lt; assumption. Qed.
Lemma ip_sq k a b : inb k a -> inb k b -> in_square (ip k a b).
Proof. intros A B. destruct (lat_sq _ _ A), (lat_sq _ _ B). repeat split; assumption. Qed.
Lemma vert_sq s p : in_square (vert0 s p) /\ in_square (vert1 s p) /\ in_square (vert2 s p).
Proof. destruct (verts_ip s p) as (k & a0 & b0 & a1 & b1 & a2 & b2 & V & H0 & H1 & H2 & H3 & H4 & H5).
  unfold vert0, vert1, vert2. rewrite V. cbn. repeat split; apply lat_sq; assumption. Qed.
Lemma child_mid s p h : vert0 s (p ++ [h]) = tmid s p.
Proof. unfold vert0. rewrite verts_snoc, verts_eta, tmid_eta. destruct h; reflexivity. Qed.
Lemma tmid_sq s p : in_square (tmid s p).
Proof. rewrite <- (child_mid s p h0). apply vert_sq. Qed.
Lemma child0 s p : vert1 s (p ++ [h0]) = vert0 s p /\ vert2 s (p ++ [h0]) = vert1 s p.
Proof. unfold vert1 at 1, vert2. rewrite verts_snoc, verts_eta. cbn. auto. Qed.
Lemma child2 s p : vert1 s (p ++ [h2]) = vert2 s p /\ vert2 s (p ++ [h2]) = vert0 s p.
Proof. unfold vert1, vert2 at 2. rewrite verts_snoc, verts_eta. cbn. auto. Qed.
(** longest sides of grandchildren *)
Lemma mid_h0h0 s p : tmid s (p ++ [h0; h0]) = mid (tmid s p) (vert0 s p).
Proof. change [h0; h0] with ([h0] ++ [h0]). rewrite app_assoc, tmid_eta. destruct (child0 s (p ++ [h0])) as [-> ->]. rewrite child_mid. destruct (child0 s p) as [-> _]. reflexivity. Qed.
Lemma mid_h2h2 s p : tmid s (p ++ [h2; h2]) = mid (vert0 s p) (tmid s p).
Proof. change [h2; h2] with ([h2] ++ [h2]). rewrite app_assoc, tmid_eta. destruct (child2 s (p ++ [h2])) as [-> ->]. rewrite child_mid. destruct (child2 s p) as [_ ->]. reflexivity. Qed.
Lemma mid_h0h2 s p : tmid s (p ++ [h0; h2]) = mid (vert1 s p) (tmid s p).
Proof. change [h0; h2] with ([h0] ++ [h2]). rewrite app_assoc, tmid_eta. destruct (child2 s (p ++ [h0])) as [-> ->]. rewrite child_mid. destruct (child0 s p) as [_ ->]. reflexivity. Qed.
Lemma mid_h2h0 s p : tmid s (p ++ [h2; h0]) = mid (tmid s p) (vert2 s p).
Proof. change [h2; h0] with ([h2] ++ [h0]). rewrite app_assoc, tmid_eta. destruct (child0 s (p ++ [h2])) as [-> ->]. rewrite child_mid. destruct (child2 s p) as [-> _]. reflexivity. Qed.

Lemma along_inj1 s t t' : along s t = along s t' -> t = t'.
Proof. destruct s; cbn; intros E; injection E; auto; intros; congruence. Qed.
Lemma along_inj2 s s' t t' : (-(1) < t)%Qc -> (t < 1)%Qc -> along s t = along s' t' -> s = s' /\ t = t'.
Proof.
  intros A B E. destruct (strict_neq _ A B).
  destruct s, s'; cbn in E; apply pair_equal_spec in E; destruct E as [E1 E2]; try (split; congruence); exfalso; try congruence; try (apply one_neq; congruence).
Qed.
Lemma along_sq s t : (-(1) <= t)%Qc -> (t <= 1)%Qc -> in_square (along s t).
Proof. intros A B. pose proof (Qclt_le_weak _ _ m1_lt_1). destruct s; repeat split; cbn; auto; apply Qcle_refl. Qed.
Lemma mid_along s t t' : mid (along s t) (along s t') = along s ((t + t') * half)%Qc.
Proof. assert (A : ((-(1) + -(1)) * half = -(1))%Qc) by (apply Qc_is_canon; reflexivity).
  assert (B : ((1 + 1) * half = 1)%Qc) by (apply Qc_is_canon; reflexivity).
  destruct s; unfold mid; cbn [along fst snd]; rewrite ?A, ?B; reflexivity. Qed.

Section S.
Variables (fl : flavour) (M : mesh).
Hypothesis OK : mesh_ok fl M.
Hypothesis DIR : same_directions fl M.
Notation G := (glued fl M).
Definition inM (e : Z) : Prop := In e (map fst M).
Lemma inM_q e : inM e -> exists q, In (e, q) M.
Proof. intros H. apply in_map_iff in H. destruct H as ((e' & q) & <- & I). eauto. Qed.
Lemma q_inM e q : In (e, q) M -> inM e.
Proof. intros H. apply in_map_iff. exists (e, q). auto. Qed.
Lemma G_sym e p e' p' : G e p e' p' -> G e' p' e p.
Proof.
  intros H. inversion H; subst.
  - constructor. - eapply glued_corner; eassumption. - eapply glued_side; eassumption.
  - exfalso. eapply DIR; [exact H0|exact H1|eassumption|eassumption].
Qed.
Lemma G_trans e p e' p' e2 p2 : inM e -> inM e' -> inM e2 -> in_square p -> in_square p' -> in_square p2 ->
  G e p e' p' -> G e' p' e2 p2 -> G e p e2 p2.
Proof.
  intros A B C D E F H H'. destruct (inM_q _ A) as [q Q], (inM_q _ B) as [q' Q'], (inM_q _ C) as [q2 Q2].
  apply (indicator_glued fl M OK DIR _ _ _ _ _ _ Q Q' D E) in H. apply (indicator_glued fl M OK DIR _ _ _ _ _ _ Q' Q2 E F) in H'.
  apply (indicator_glued fl M OK DIR _ _ _ _ _ _ Q Q2 D F). congruence.
Qed.
Lemma side_glue e q s e' q' s' n n' t : In (e, q) M -> In (e', q') M -> side_from fl q s n n' -> side_from fl q' s' n n' ->
  (-(1) <= t)%Qc -> (t <= 1)%Qc -> G e (along s t) e' (along s' t).
Proof.
  intros I I' F F' A B. apply Qcle_lt_or_eq in A. apply Qcle_lt_or_eq in B.
  destruct A as [A | <-]; [destruct B as [B | ->]|].
  - eapply glued_side; eassumption.
  - eapply glued_corner; [exact I|exact I'|apply F|apply F'].
  - eapply glued_corner; [exact I|exact I'|apply F|apply F'].
Qed.
Lemma side_glue_inj e q s e' q' s' n n' t t' : In (e, q) M -> In (e', q') M -> side_from fl q s n n' -> side_from fl q' s' n n' ->
  (-(1) <= t)%Qc -> (t <= 1)%Qc -> (-(1) <= t')%Qc -> (t' <= 1)%Qc -> G e (along s t) e' (along s' t') -> t = t'.
Proof.
  intros I I' F F' A B C D H. apply (along_inj1 s'). apply (glued_inj fl M OK DIR e').
  apply (G_trans _ _ e (along s t)); try apply along_sq; try eapply q_inM; eauto.
  apply G_sym. eapply side_glue; eassumption.
Qed.
Lemma G_inv e p e' p' : G e p e' p' -> e <> e' ->
  (exists q q' n, In (e, q) M /\ In (e', q') M /\ at_corner fl q p n /\ at_corner fl q' p' n) \/
  (exists q s q' s' n n' t, In (e, q) M /\ In (e', q') M /\ (-(1) < t)%Qc /\ (t < 1)%Qc /\ side_from fl q s n n' /\ side_from fl q' s' n n' /\
     p = along s t /\ p' = along s' t).
Proof.
  intros [e0 p0 | e0 q e1 q' p0 p1 n I I' C C' | e0 q s e1 q' s' n n' t I I' A B F F' | e0 q s e1 q' s' n n' t I I' A B F F'] N.
  - congruence.
  - left. eauto 10.
  - right. exists q, s, q', s', n, n', t. auto 10.
  - exfalso. eapply DIR; [exact I|exact I'|exact F|exact F'].
Qed.
(** a point inside a side of e is glued only to points of sides that share it *)
Lemma strict_side e q s t e' p' : In (e, q) M -> (-(1) < t)%Qc -> (t < 1)%Qc -> G e (along s t) e' p' -> e <> e' ->
  exists q' s' n n', In (e', q') M /\ side_from fl q s n n' /\ side_from fl q' s' n n' /\ p' = along s' t.
Proof.
  intros I A B H N. destruct (G_inv _ _ _ _ H N) as [(q1 & q' & n & I1 & I' & C & _) | (q1 & s1 & q' & s' & n & n' & t1 & I1 & I' & A1 & B1 & F & F' & E & E')];
    rewrite (In_fun fl M OK _ _ _ I1 I) in *.
  - exfalso. exact (along_corner fl q s t n A B C).
  - destruct (along_inj2 _ _ _ _ A B E) as [-> ->]. exists q', s', n, n'. auto.
Qed.
Lemma corner_glued e q s t n e' p' : In (e, q) M -> at_corner fl q (along s t) n -> G e (along s t) e' p' -> e <> e' ->
  exists q', In (e', q') M /\ at_corner fl q' p' n.
Proof.
  intros I C H N. destruct (G_inv _ _ _ _ H N) as [(q1 & q' & n1 & I1 & I' & C1 & C') | (q1 & s1 & q' & s' & n1 & n' & t1 & I1 & I' & A1 & B1 & F & F' & E & E')];
    rewrite (In_fun fl M OK _ _ _ I1 I) in *.
  - rewrite (corner_fun fl q _ _ _ C C1). eauto.
  - exfalso. rewrite E in C. exact (along_corner fl q _ _ _ A1 B1 C).
Qed.

Lemma seg_bounds s p s1 k c : bottom_side s p s1 k c ->
  inb k (2 * c) /\ inb k (2 * c + 1) /\ inb k (2 * c + 2) /\ 0 < 2 * c + 1 < top k.
Proof. intros (_ & A & B & _). unfold inb. fold (top k). lia. Qed.
(** the ends of the longest side, in order along the side *)
Lemma seg_ends s p s1 k c : bottom_side s p s1 k c ->
  (vert1 s p = along s1 (lat k (2 * c)) /\ vert2 s p = along s1 (lat k (2 * c + 2))) \/
  (vert2 s p = along s1 (lat k (2 * c)) /\ vert1 s p = along s1 (lat k (2 * c + 2))).
Proof. intros (_ & _ & _ & _ & H). rewrite verts_eta in H. exact H. Qed.
Lemma seg_mid s p s1 k c : bottom_side s p s1 k c -> tmid s p = along s1 (lat k (2 * c + 1)).
Proof. intros (_ & _ & _ & H & _). exact H. Qed.

Definition samemid e s p e' s' p' : Prop := G e (tmid s p) e' (tmid s' p').
Definition samebot e s p e' s' p' : Prop :=
  (G e (vert1 s p) e' (vert1 s' p') /\ G e (vert2 s p) e' (vert2 s' p')) \/
  (G e (vert1 s p) e' (vert2 s' p') /\ G e (vert2 s p) e' (vert1 s' p')).

(** same middle: same level, both on sides with the same nodes, or in one quadrilateral *)
Lemma samemid_sides e s p e' s' p' : inM e -> inM e' -> samemid e s p e' s' p' -> e <> e' ->
  exists q q' n n' s1 s1' k c, In (e, q) M /\ In (e', q') M /\ side_from fl q s1 n n' /\ side_from fl q' s1' n n' /\
    bottom_side s p s1 k c /\ bottom_side s' p' s1' k c.
Proof.
  intros I I' H N. destruct (inM_q _ I) as [q Q].
  destruct (glued_onb fl M _ _ _ _ H N) as [O O']. destruct (mid_side _ _ O) as (s1 & k & c & B). destruct (mid_side _ _ O') as (s1' & k' & c' & B').
  unfold samemid in H. rewrite (seg_mid _ _ _ _ _ B), (seg_mid _ _ _ _ _ B') in H.
  destruct (seg_bounds _ _ _ _ _ B) as (_ & _ & _ & St). destruct (lat_strict _ _ St) as [L1 L2].
  destruct (strict_side _ _ _ _ _ _ Q L1 L2 H N) as (q' & s2 & n & n' & Q' & F & F' & E). symmetry in E.
  apply along_inj2 in E; [|assumption..].
  destruct E as [-> E]. apply lat_odd_level in E. destruct E as [<- <-]. exists q, q', n, n', s1, s1', k, c. auto 10.
Qed.
Lemma samemid_len e s p e' s' p' : inM e -> inM e' -> samemid e s p e' s' p' -> length p = length p'.
Proof.
  intros I I' H. destruct (Z.eq_dec e e') as [<- | N].
  - apply (glued_inj fl M OK DIR) in H. destruct (tmid_cases _ _ _ _ H) as [[_ ->] | [_ L]]; auto.
  - destruct (samemid_sides _ _ _ _ _ _ I I' H N) as (q & q' & n & n' & s1 & s1' & k & c & _ & _ & _ & _ & (L & _) & (L' & _)). congruence.
Qed.
Lemma samemid_bot e s p e' s' p' : inM e -> inM e' -> samemid e s p e' s' p' -> samebot e s p e' s' p'.
Proof.
  intros I I' H. destruct (Z.eq_dec e e') as [<- | N].
  - apply (glued_inj fl M OK DIR) in H. apply same_mid_same_bottom in H. rewrite !verts_eta in H.
    unfold samebot. destruct H as [[-> ->] | [-> ->]]; [left | right]; split; constructor.
  - destruct (samemid_sides _ _ _ _ _ _ I I' H N) as (q & q' & n & n' & s1 & s1' & k & c & Q & Q' & F & F' & B & B').
    destruct (seg_bounds _ _ _ _ _ B) as (B1 & _ & B2 & _). apply lat_sq in B1. apply lat_sq in B2.
    pose proof (side_glue _ _ _ _ _ _ _ _ _ Q Q' F F' (proj1 B1) (proj2 B1)). pose proof (side_glue _ _ _ _ _ _ _ _ _ Q Q' F F' (proj1 B2) (proj2 B2)).
    unfold samebot. destruct (seg_ends _ _ _ _ _ B) as [[-> ->] | [-> ->]], (seg_ends _ _ _ _ _ B') as [[-> ->] | [-> ->]]; auto.
Qed.
Lemma lat_avg k c : lat k (2 * c + 1) = ((lat k (2 * c) + lat k (2 * c + 2)) * half)%Qc.
Proof. unfold lat. rewrite !q_of_add, q_of_1, q_of_2. 
  transitivity ((q_of (2 * c) + 1) * u k * (half * (1 + 1)) - half * (1 + 1))%Qc; [rewrite half_2; ring | ring]. Qed.
Lemma samebot_mid e s p e' s' p' : inM e -> inM e' -> samebot e s p e' s' p' -> samemid e s p e' s' p'.
Proof.
  intros I I' H. destruct (Z.eq_dec e e') as [<- | N].
  - unfold samemid. rewrite !tmid_eta. destruct H as [[H H'] | [H H']]; apply (glued_inj fl M OK DIR) in H; apply (glued_inj fl M OK DIR) in H'; rewrite H, H';
      [|rewrite mid_sym]; constructor.
  - destruct (inM_q _ I) as [q Q]. destruct (inM_q _ I') as [q' Q'].
    assert (O : (onb (vert1 s p) /\ onb (vert2 s p)) /\ onb (vert1 s' p') /\ onb (vert2 s' p')).
    { destruct H as [[H H'] | [H H']]; destruct (glued_onb fl M _ _ _ _ H N), (glued_onb fl M _ _ _ _ H' N); auto. }
    destruct O as [[O1 O2] [O3 O4]]. destruct (ends_side _ _ O1 O2) as (s1 & k & c & B). destruct (ends_side _ _ O3 O4) as (s1' & k' & c' & B').
    destruct (seg_bounds _ _ _ _ _ B) as (B1 & _ & B2 & _). destruct (seg_bounds _ _ _ _ _ B') as (B1' & _ & B2' & _).
    assert (T : (lat k (2 * c) < lat k (2 * c + 2))%Qc) by (apply lat_lt; lia).
    assert (T' : (lat k' (2 * c') < lat k' (2 * c' + 2))%Qc) by (apply lat_lt; lia).
    assert (HH : (G e (along s1 (lat k (2 * c))) e' (along s1' (lat k' (2 * c'))) /\ G e (along s1 (lat k (2 * c + 2))) e' (along s1' (lat k' (2 * c' + 2)))) \/
      (G e (along s1 (lat k (2 * c))) e' (along s1' (lat k' (2 * c' + 2))) /\ G e (along s1 (lat k (2 * c + 2))) e' (along s1' (lat k' (2 * c'))))).
    { unfold samebot in H. destruct (seg_ends _ _ _ _ _ B) as [[E1 E2] | [E1 E2]], (seg_ends _ _ _ _ _ B') as [[E3 E4] | [E3 E4]];
        rewrite E1, E2, E3, E4 in H; tauto. }
    assert (SH : exists n n', side_from fl q s1 n n' /\ side_from fl q' s1' n n').
    { assert (ST : forall t t', (-(1) < t)%Qc -> (t < 1)%Qc -> G e (along s1 t) e' (along s1' t') -> exists n n', side_from fl q s1 n n' /\ side_from fl q' s1' n n').
      { intros t t' L1 L2 X. destruct (strict_side _ _ _ _ _ _ Q L1 L2 X N) as (q2 & s2 & n & n' & Q2 & F & F' & E).
        rewrite (In_fun fl M OK _ _ _ Q2 Q') in *. symmetry in E. symmetry in E. apply eq_sym in E. apply along_inj2 in E; [|assumption..].
        destruct E as [-> _]. exists n, n'. auto. }
      destruct (Z.eq_dec (2 * c) 0) as [C0 | C0]; [destruct (Z.eq_dec (2 * c + 2) (top k)) as [C2 | C2]|].
      - assert (X0 : lat k (2 * c) = (-(1))%Qc) by (rewrite C0; apply lat_0). assert (X2 : lat k (2 * c + 2) = 1%Qc) by (rewrite C2; apply lat_top).
        rewrite X0, X2 in HH. destruct (side_of fl q s1) as (n & n' & F). destruct (side_of fl q' s1') as (m & m' & F').
        assert (CE : forall t0 n0, at_corner fl q' (along s1' t0) n0 -> t0 = (-(1))%Qc \/ t0 = 1%Qc).
        { intros t0 n0 Cc. destruct (Qc_eq_dec t0 (-(1))) as [E | E]; auto. destruct (Qc_eq_dec t0 1) as [E' | E']; auto.
          exfalso. clear - Cc E E'. destruct s1'; inversion Cc; subst; congruence. }
        assert (LE : forall z z', lat k' z = 1%Qc -> (lat k' z < lat k' z')%Qc -> inb k' z' -> False).
        { intros z z' E L Iz. apply lat_sq in Iz. rewrite E in L. apply (Qclt_not_le _ _ L). apply Iz. }
        exists n, n'. split; [exact F|].
        destruct HH as [[G1 G2] | [G1 G2]];
          destruct (corner_glued _ _ _ _ _ _ _ Q (proj1 F) G1 N) as (qa & Qa & Ca); rewrite (In_fun fl M OK _ _ _ Qa Q') in *;
          destruct (corner_glued _ _ _ _ _ _ _ Q (proj2 F) G2 N) as (qb & Qb & Cb); rewrite (In_fun fl M OK _ _ _ Qb Q') in *.
        + assert (Y0 : lat k' (2 * c') = (-(1))%Qc). { destruct (CE _ _ Ca) as [E | E]; [exact E|]. exfalso. exact (LE _ _ E T' B2'). }
          assert (Y2 : lat k' (2 * c' + 2) = 1%Qc). { destruct (CE _ _ Cb) as [E | E]; [|exact E]. exfalso. rewrite E, Y0 in T'. exact (Qclt_not_eq _ _ T' eq_refl). }
          rewrite Y0 in Ca. rewrite Y2 in Cb. split; assumption.
        + exfalso. assert (Y0 : lat k' (2 * c') = (-(1))%Qc). { destruct (CE _ _ Cb) as [E | E]; [exact E|]. exfalso. exact (LE _ _ E T' B2'). }
          assert (Y2 : lat k' (2 * c' + 2) = 1%Qc). { destruct (CE _ _ Ca) as [E | E]; [|exact E]. exfalso. rewrite E, Y0 in T'. exact (Qclt_not_eq _ _ T' eq_refl). }
          rewrite Y0 in Cb. rewrite Y2 in Ca. eapply DIR; [exact Q|exact Q'|exact F|split; eassumption].
      - destruct (lat_strict k (2 * c + 2)) as [L1 L2]; [unfold inb in *; fold (top k) in *; lia|]. destruct HH as [[_ X] | [_ X]]; exact (ST _ _ L1 L2 X).
      - destruct (lat_strict k (2 * c)) as [L1 L2]; [unfold inb in *; fold (top k) in *; lia|]. destruct HH as [[X _] | [X _]]; exact (ST _ _ L1 L2 X). }
    destruct SH as (n & n' & F & F').
    apply lat_sq in B1. apply lat_sq in B2. apply lat_sq in B1'. apply lat_sq in B2'. destruct B1, B2, B1', B2'.
    assert (IJ : forall t t', (-(1) <= t)%Qc -> (t <= 1)%Qc -> (-(1) <= t')%Qc -> (t' <= 1)%Qc -> G e (along s1 t) e' (along s1' t') -> t = t').
    { intros. eapply side_glue_inj; [exact Q|exact Q'|exact F|exact F'|eassumption..]. }
    assert (EQ : lat k (2 * c) = lat k' (2 * c') /\ lat k (2 * c + 2) = lat k' (2 * c' + 2)).
    { destruct HH as [[G1 G2] | [G1 G2]]; apply IJ in G1; apply IJ in G2; auto. exfalso. rewrite G1, G2 in T. exact (Qcle_not_lt _ _ (Qclt_le_weak _ _ T) T'). }
    destruct EQ as [E0 E2]. unfold samemid. rewrite (seg_mid _ _ _ _ _ B), (seg_mid _ _ _ _ _ B').
    rewrite (lat_avg k' c'), <- E0, <- E2, <- lat_avg.
    destruct (seg_bounds _ _ _ _ _ B) as (_ & Bm & _). apply lat_sq in Bm.
    eapply side_glue; [exact Q|exact Q'|exact F|exact F'|apply Bm|apply Bm].
Qed.
Lemma samemid_sym e s p e' s' p' : samemid e s p e' s' p' -> samemid e' s' p' e s p.
Proof. apply G_sym. Qed.
Lemma samemid_trans e s p e' s' p' e2 s2 p2 : inM e -> inM e' -> inM e2 ->
  samemid e s p e' s' p' -> samemid e' s' p' e2 s2 p2 -> samemid e s p e2 s2 p2.
Proof. intros A B C. apply G_trans; auto using tmid_sq. Qed.

(** at most two triangles with one longest side *)
Lemma unique_mate e s p e1 s1 p1 e2 s2 p2 : inM e -> inM e1 -> inM e2 ->
  samemid e s p e1 s1 p1 -> samemid e s p e2 s2 p2 -> (e1, s1, p1) <> (e, s, p) -> (e2, s2, p2) <> (e, s, p) -> (e1, s1, p1) = (e2, s2, p2).
Proof.
  assert (A : forall e s p e1 s1 p1 e2 s2 p2, inM e -> inM e1 -> inM e2 ->
    samemid e s p e1 s1 p1 -> samemid e s p e2 s2 p2 -> (e1, s1, p1) <> (e, s, p) -> (e2, s2, p2) <> (e, s, p) -> e <> e1 -> (e1, s1, p1) = (e2, s2, p2)).
  { clear e s p e1 s1 p1 e2 s2 p2. intros e s p e1 s1 p1 e2 s2 p2 I I1 I2 H1 H2 N1 N2 N.
    destruct (samemid_sides _ _ _ _ _ _ I I1 H1 N) as (q & q1 & n & n' & a & a1 & k & c & Q & Q1 & F & F1 & B & B1).
    assert (Oa : onb (tmid s p)) by (rewrite (seg_mid _ _ _ _ _ B); unfold onb; eauto).
    destruct (Z.eq_dec e e2) as [<- | N'].
    - exfalso. apply (glued_inj fl M OK DIR) in H2. symmetry in H2. destruct (mid_side_unique _ _ _ _ Oa H2) as [-> ->]. apply N2. reflexivity.
    - destruct (samemid_sides _ _ _ _ _ _ I I2 H2 N') as (q' & q2 & m & m' & a' & a2 & k2 & c2 & Q' & Q2 & F' & F2 & B' & B2).
      rewrite (In_fun fl M OK _ _ _ Q' Q) in *.
      pose proof (seg_mid _ _ _ _ _ B) as E1. rewrite (seg_mid _ _ _ _ _ B') in E1.
      destruct (seg_bounds _ _ _ _ _ B') as (_ & _ & _ & St). destruct (lat_strict _ _ St) as [L1 L2].
      apply along_inj2 in E1; [|assumption..]. destruct E1 as [-> _].
      assert (EE : (e1, a1) = (e2, a2)).
      { destruct OK as (_ & _ & U). apply (U e q a e1 q1 a1 e2 q2 a2); auto; [exists n, n'; auto|exists m, m'; auto|congruence|congruence]. }
      injection EE. intros -> ->. 
      assert (X : samemid e2 s1 p1 e2 s2 p2) by (apply (samemid_trans _ _ _ e s p); auto; apply samemid_sym; exact H1).
      apply (glued_inj fl M OK DIR) in X.
      assert (Ob : onb (tmid s1 p1)) by (rewrite (seg_mid _ _ _ _ _ B1); unfold onb; eauto). symmetry in X.
      destruct (mid_side_unique _ _ _ _ Ob X) as [-> ->]. reflexivity. }
  intros I I1 I2 H1 H2 N1 N2.
  destruct (Z.eq_dec e e1) as [<- | N]; [|apply (A e s p); auto].
  destruct (Z.eq_dec e e2) as [<- | N']; [|symmetry; apply (A e s p e2 s2 p2 e s1 p1); auto].
  apply (glued_inj fl M OK DIR) in H1. apply (glued_inj fl M OK DIR) in H2.
  assert (X : (s1, p1) = (s2, p2)) by (eapply at_most_two; [exact H1|exact H2|congruence|congruence]).
  congruence.
Qed.
(** a triangle at the boundary has no mate *)
Definition at_rim (e : Z) (s : side) (p : list half_id) : Prop := exists s1 k c, bottom_side s p s1 k c /\ rim fl M e s1.
Lemma rim_no_mate e s p e' s' p' : inM e -> inM e' -> at_rim e s p -> samemid e s p e' s' p' -> (e', s', p') = (e, s, p).
Proof.
  intros I I' (s1 & k & c & B & (q & Q & U)) H. 
  assert (O : onb (tmid s p)) by (rewrite (seg_mid _ _ _ _ _ B); unfold onb; eauto).
  destruct (Z.eq_dec e e') as [<- | N].
  - apply (glued_inj fl M OK DIR) in H. symmetry in H. destruct (mid_side_unique _ _ _ _ O H) as [-> ->]. reflexivity.
  - exfalso. unfold samemid in H. rewrite (seg_mid _ _ _ _ _ B) in H.
    destruct (seg_bounds _ _ _ _ _ B) as (_ & _ & _ & St). destruct (lat_strict _ _ St) as [L1 L2].
    destruct (strict_side _ _ _ _ _ _ Q L1 L2 H N) as (q' & s2 & n & n' & Q' & F & F' & E).
    destruct (U e' q' s2 Q') as [E' _]; [exists n, n'; auto|]. congruence.
Qed.
End S.
