(** Every triangle has a mate or lies at the boundary; sets of refined elements that are closed under parents and mates
    have conforming leaves. *)
From Coq Require Import List ZArith QArith Qcanon Bool Lia.
From Verif Require Import TrfModel TrfSpec TrfLattice TrfLattice2 TrfSide TrfGlue TrfStatic.
Import ListNotations.
Local Open Scope Z_scope.

Lemma root_mid s : tmid s [] = along s 0%Qc.
Proof. destruct s; unfold tmid, verts, mid; cbn; apply pair_equal_spec; split; apply Qc_is_canon; reflexivity. Qed.
Lemma root_verts s : (vert1 s [] = along s (-(1))%Qc /\ vert2 s [] = along s 1%Qc) \/ (vert2 s [] = along s (-(1))%Qc /\ vert1 s [] = along s 1%Qc).
Proof. destruct s; cbn; auto. Qed.
Lemma zero_strict : (-(1) < 0)%Qc /\ (0 < 1)%Qc. Proof. split; reflexivity. Qed.
Lemma zero_weak : (-(1) <= 0)%Qc /\ (0 <= 1)%Qc. Proof. split; apply Qclt_le_weak; reflexivity. Qed.
Lemma last_two {A} (p : list A) : p = [] \/ (exists h, p = [h]) \/ exists r a b, p = r ++ [a; b].
Proof.
  destruct p as [|h p] using rev_ind; auto. clear IHp. destruct p as [|a p] using rev_ind; [right; left; exists h; reflexivity|].
  right. right. exists p, a, h. rewrite <- app_assoc. reflexivity.
Qed.
Lemma app2_inj {A} (r r' : list A) a b a' b' : r ++ [a; b] = r' ++ [a'; b'] -> r = r' /\ a = a' /\ b = b'.
Proof.
  change [a; b] with ([a] ++ [b]). change [a'; b'] with ([a'] ++ [b']). rewrite !app_assoc. intros E.
  apply app_inj_tail in E. destruct E as [E ->]. apply app_inj_tail in E. destruct E as [-> ->]. auto.
Qed.
Lemma mid_half t t' : mid t t' = ((fst t + fst t') * half, (snd t + snd t') * half)%Qc. Proof. reflexivity. Qed.
Lemma avg_sq t t' : (-(1) <= t)%Qc -> (t <= 1)%Qc -> (-(1) <= t')%Qc -> (t' <= 1)%Qc -> (-(1) <= (t + t') * half)%Qc /\ ((t + t') * half <= 1)%Qc.
Proof.
  intros A B C D.
  assert (E : (-(1) = (-(1) + -(1)) * half)%Qc) by (apply Qc_is_canon; reflexivity).
  assert (E' : (1 = (1 + 1) * half)%Qc) by (apply Qc_is_canon; reflexivity).
  split; [rewrite E at 1 | rewrite E' at 1]; apply Qcmult_le_compat_r; try (apply Qcplus_le_compat; assumption); discriminate.
Qed.

Section S.
Variables (fl : flavour) (M : mesh).
Hypothesis OK : mesh_ok fl M.
Hypothesis DIR : same_directions fl M.
Notation G := (glued fl M).
Notation samemid := (samemid fl M).
Notation inM := (inM M).
Notation at_rim := (at_rim fl M).

Lemma quarter e s p e' s' p' : inM e -> inM e' -> samemid e s p e' s' p' ->
  (G e (mid (vert1 s p) (tmid s p)) e' (mid (vert1 s' p') (tmid s' p')) /\ G e (mid (tmid s p) (vert2 s p)) e' (mid (tmid s' p') (vert2 s' p'))) \/
  (G e (mid (vert1 s p) (tmid s p)) e' (mid (tmid s' p') (vert2 s' p')) /\ G e (mid (tmid s p) (vert2 s p)) e' (mid (vert1 s' p') (tmid s' p'))).
Proof.
  intros I I' H. destruct (Z.eq_dec e e') as [<- | N].
  - apply (glued_inj fl M OK DIR) in H. pose proof H as H'. apply same_mid_same_bottom in H. rewrite !verts_eta in H. rewrite <- H'.
    destruct H as [[-> ->] | [-> ->]]; [left | right; rewrite (mid_sym _ (vert1 s p)), (mid_sym (vert2 s p))]; split; constructor.
  - destruct (samemid_sides fl M OK DIR _ _ _ _ _ _ I I' H N) as (q & q' & n & n' & s1 & s1' & k & c & Q & Q' & F & F' & B & B').
    destruct (seg_bounds _ _ _ _ _ B) as (B1 & Bm & B2 & _). apply lat_sq in B1. apply lat_sq in B2. apply lat_sq in Bm.
    rewrite (seg_mid _ _ _ _ _ B), (seg_mid _ _ _ _ _ B').
    assert (SG : forall t, (-(1) <= t)%Qc -> (t <= 1)%Qc -> G e (along s1 t) e' (along s1' t)) by (intros; eapply side_glue; [exact Q|exact Q'|exact F|exact F'|assumption..]).
    assert (S1 : forall t t', (-(1) <= t)%Qc /\ (t <= 1)%Qc -> (-(1) <= t')%Qc /\ (t' <= 1)%Qc -> G e (mid (along s1 t) (along s1 t')) e' (mid (along s1' t) (along s1' t'))).
    { intros t t' [U1 U2] [V1 V2]. rewrite !mid_along. apply SG; apply avg_sq; assumption. }
    destruct (seg_ends _ _ _ _ _ B) as [[-> ->] | [-> ->]], (seg_ends _ _ _ _ _ B') as [[-> ->] | [-> ->]].
    + left. split; apply S1; assumption.
    + right. rewrite (mid_sym (along s1' (lat k (2 * c + 1)))), (mid_sym (along s1' (lat k (2 * c + 2)))). split; apply S1; assumption.
    + right. rewrite (mid_sym (along s1' (lat k (2 * c + 1)))), (mid_sym (along s1' (lat k (2 * c)))). split; apply S1; assumption.
    + left. split; apply S1; assumption.
Qed.

Definition kin (e : Z) (s : side) (p : list half_id) (e' : Z) (s' : side) (p' : list half_id) : Prop :=
  (p = [] /\ p' = []) \/ (exists h h', p = [h] /\ p' = [h'] /\ e' = e) \/
  (exists r a b r' a' b', p = r ++ [a; b] /\ p' = r' ++ [a'; b'] /\ samemid e s r e' s' r').

Definition search : list ((Z * quad) * side) := list_prod M [North; West; East; South].
Lemma shared_dec q s q' s' : {shared fl q s q' s'} + {~ shared fl q s q' s'}.
Proof.
  destruct (list_eq_dec Z.eq_dec [fst (face fl q s); snd (face fl q s)] [fst (face fl q' s'); snd (face fl q' s')]) as [E | E].
  - left. injection E. intros E1 E2. exists (fst (face fl q s)), (snd (face fl q s)). split; [apply side_face|]. left. rewrite E1, E2. apply side_face.
  - destruct (list_eq_dec Z.eq_dec [fst (face fl q s); snd (face fl q s)] [snd (face fl q' s'); fst (face fl q' s')]) as [E' | E'].
    + left. injection E'. intros E1 E2. exists (fst (face fl q s)), (snd (face fl q s)). split; [apply side_face|]. right. rewrite E1, E2. apply side_face.
    + right. intros (n & n' & F & [F' | F']); apply side_face_eq in F; apply side_face_eq in F'; rewrite F, F' in *; cbn in *; auto.
Qed.
Lemma zs_dec (a b : Z * side) : {a = b} + {a <> b}. Proof. decide equality; auto using side_eq_dec, Z.eq_dec. Qed.
Lemma rim_or_shared e q s : In (e, q) M -> rim fl M e s \/ exists e' q' s', In (e', q') M /\ shared fl q s q' s' /\ (e', s') <> (e, s).
Proof.
  intros I. destruct (Exists_dec (fun x : (Z * quad) * side => shared fl q s (snd (fst x)) (snd x) /\ (fst (fst x), snd x) <> (e, s)) search) as [H | H].
  - intros [[e' q'] s']. cbn. destruct (shared_dec q s q' s'), (zs_dec (e', s') (e, s)); tauto.
  - right. apply Exists_exists in H. destruct H as ([[e' q'] s'] & J & K). apply in_prod_iff in J. exists e', q', s'. cbn in K. tauto.
  - left. exists q. split; [exact I|]. intros e' q' s' I' Sh.
    destruct (zs_dec (e', s') (e, s)) as [E | E]; [injection E; auto|]. exfalso. apply H. apply Exists_exists. exists ((e', q'), s'). split; [|cbn; auto].
    apply in_prod_iff. split; [exact I'|]. destruct s'; cbn; auto.
Qed.
Definition next (s : side) : side := match s with North => West | West => South | South => East | East => North end.
Definition prev (s : side) : side := match s with North => East | West => North | South => West | East => South end.
Lemma mid1 s : tmid s [h0] = tmid (prev s) [h2] /\ tmid s [h2] = tmid (next s) [h0].
Proof. split; destruct s; unfold tmid, verts, mid; cbn; apply pair_equal_spec; split; apply Qc_is_canon; reflexivity. Qed.
Lemma root_rim e s : rim fl M e s -> at_rim e s [].
Proof.
  intros H. destruct (mid_side s []) as (s1 & k & c & B). { rewrite root_mid. unfold onb. eauto. }
  exists s1, k, c. split; [exact B|]. pose proof (seg_mid _ _ _ _ _ B) as E. rewrite root_mid in E. destruct zero_strict.
  apply along_inj2 in E; auto. destruct E as [<- _]. exact H.
Qed.
Lemma rim_child e s r s1 k c t t' p : bottom_side s r s1 k c -> rim fl M e s1 -> tmid s p = mid (along s1 t) (along s1 t') -> at_rim e s p.
Proof.
  intros B R E. rewrite mid_along in E. destruct (mid_side s p) as (s2 & k2 & c2 & B2). { rewrite E. unfold onb. eauto. }
  exists s2, k2, c2. split; [exact B2|]. rewrite (seg_mid _ _ _ _ _ B2) in E. destruct (seg_bounds _ _ _ _ _ B2) as (_ & _ & _ & St). apply lat_strict in St. destruct St.
  apply along_inj2 in E; auto. destruct E as [-> _]. exact R.
Qed.
Lemma mate_or_rim n : forall p, (length p <= n)%nat -> forall e s, inM e -> at_rim e s p \/
  exists e' s' p', inM e' /\ (e', s', p') <> (e, s, p) /\ samemid e s p e' s' p' /\ kin e s p e' s' p'.
Proof.
  induction n as [n IH] using lt_wf_ind. intros p L e s I. destruct (last_two p) as [-> | [[h ->] | (r & a & b & ->)]].
  - destruct (inM_q M _ I) as [q Q]. destruct (rim_or_shared e q s Q) as [R | (e' & q' & s' & Q' & Sh & N)]; [left; apply root_rim; exact R|].
    right. exists e', s', []. split; [eapply q_inM; exact Q'|]. split; [congruence|]. split; [|left; auto].
    destruct Sh as (m & m' & F & [F' | F']); [|exfalso; eapply DIR; [exact Q|exact Q'|exact F|exact F']].
    unfold TrfStatic.samemid. rewrite !root_mid. destruct zero_weak. eapply side_glue; eassumption.
  - right. destruct (mid1 s) as [M0 M2]. exists e. destruct h.
    + exists (prev s), [h2]. split; [exact I|]. split; [destruct s; discriminate|]. split; [unfold TrfStatic.samemid; rewrite M0; constructor|]. right. left. eauto.
    + exists (next s), [h0]. split; [exact I|]. split; [destruct s; discriminate|]. split; [unfold TrfStatic.samemid; rewrite M2; constructor|]. right. left. eauto.
  - rewrite app_length in L. cbn [length] in L.
    assert (SK : forall r', samemid e s r e s r' -> forall a' b', kin e s (r ++ [a; b]) e s (r' ++ [a'; b'])).
    { intros r' H a' b'. right. right. exists r, a, b, r', a', b'. auto. }
    assert (RF : samemid e s r e s r) by constructor.
    destruct (IH (length r) ltac:(lia) r (le_n _) e s I) as [(s1 & k & c & B & R) | (e' & s' & r' & I' & N & H & K)].
    + destruct a, b.
      * right. exists e, s, (r ++ [h2; h2]). split; [exact I|]. split; [intros X; apply (f_equal snd) in X; cbn [snd] in X; apply app2_inj in X; destruct X as (_ & X & _); discriminate|].
        split; [unfold TrfStatic.samemid; rewrite mid_h0h0, mid_h2h2, mid_sym; constructor|apply SK; exact RF].
      * left. destruct (seg_ends _ _ _ _ _ B) as [[E1 E2] | [E1 E2]]; eapply rim_child; try eassumption; rewrite mid_h0h2, ?E1, ?E2, (seg_mid _ _ _ _ _ B); reflexivity.
      * left. destruct (seg_ends _ _ _ _ _ B) as [[E1 E2] | [E1 E2]]; eapply rim_child; try eassumption; rewrite mid_h2h0, ?E1, ?E2, (seg_mid _ _ _ _ _ B); reflexivity.
      * right. exists e, s, (r ++ [h0; h0]). split; [exact I|]. split; [intros X; apply (f_equal snd) in X; cbn [snd] in X; apply app2_inj in X; destruct X as (_ & X & _); discriminate|].
        split; [unfold TrfStatic.samemid; rewrite mid_h0h0, mid_h2h2, mid_sym; constructor|apply SK; exact RF].
    + right.
      assert (NN : forall a' b', (e', s', r' ++ [a'; b']) <> (e, s, r ++ [a; b])).
      { intros a' b' X. apply N. apply pair_equal_spec in X. destruct X as [X X']. apply app2_inj in X'. destruct X' as (-> & _). rewrite X. reflexivity. }
      assert (KK : forall a' b', kin e s (r ++ [a; b]) e' s' (r' ++ [a'; b'])) by (intros a' b'; right; right; exists r, a, b, r', a', b'; auto).
      destruct a, b.
      * exists e, s, (r ++ [h2; h2]). split; [exact I|]. split; [intros X; apply (f_equal snd) in X; cbn [snd] in X; apply app2_inj in X; destruct X as (_ & X & _); discriminate|].
        split; [unfold TrfStatic.samemid; rewrite mid_h0h0, mid_h2h2, mid_sym; constructor|apply SK; exact RF].
      * destruct (quarter _ _ _ _ _ _ I I' H) as [[U V] | [U V]].
        -- exists e', s', (r' ++ [h0; h2]). split; [exact I'|]. split; [apply NN|]. split; [unfold TrfStatic.samemid; rewrite !mid_h0h2; exact U|apply KK].
        -- exists e', s', (r' ++ [h2; h0]). split; [exact I'|]. split; [apply NN|]. split; [unfold TrfStatic.samemid; rewrite mid_h0h2, mid_h2h0; exact U|apply KK].
      * destruct (quarter _ _ _ _ _ _ I I' H) as [[U V] | [U V]].
        -- exists e', s', (r' ++ [h2; h0]). split; [exact I'|]. split; [apply NN|]. split; [unfold TrfStatic.samemid; rewrite !mid_h2h0; exact V|apply KK].
        -- exists e', s', (r' ++ [h0; h2]). split; [exact I'|]. split; [apply NN|]. split; [unfold TrfStatic.samemid; rewrite mid_h0h2, mid_h2h0; exact V|apply KK].
      * exists e, s, (r ++ [h0; h0]). split; [exact I|]. split; [intros X; apply (f_equal snd) in X; cbn [snd] in X; apply app2_inj in X; destruct X as (_ & X & _); discriminate|].
        split; [unfold TrfStatic.samemid; rewrite mid_h0h0, mid_h2h2, mid_sym; constructor|apply SK; exact RF].
Qed.
Lemma mate_kin e s p e' s' p' : inM e -> inM e' -> samemid e s p e' s' p' -> (e', s', p') <> (e, s, p) -> kin e s p e' s' p'.
Proof.
  intros I I' H N. destruct (mate_or_rim _ p (le_n _) e s I) as [R | (e2 & s2 & p2 & I2 & N2 & H2 & K)].
  - exfalso. apply N. eapply rim_no_mate; eauto.
  - pose proof (unique_mate fl M OK DIR _ _ _ _ _ _ _ _ _ I I' I2 H H2 N N2) as E. apply pair_equal_spec in E. destruct E as [E ->]. apply pair_equal_spec in E. destruct E as [-> ->]. exact K.
Qed.

(** the refined elements S: closed under parents and mates *)
Definition par (e : Z) (s : side) (p : list half_id) : elem := match p with [] => Base e | _ => Tri e s (removelast p) end.
Lemma par_snoc e s p h : par e s (p ++ [h]) = Tri e s p.
Proof. unfold par. destruct (p ++ [h]) eqn:E; [destruct p; discriminate|]. rewrite <- E, removelast_last. reflexivity. Qed.
Definition active (R : elem -> Prop) (x : elem) : Prop :=
  match x with Base e => inM e | Tri e s p => R (par e s p) end.
Definition closed (R : elem -> Prop) : Prop :=
  (forall x, R x -> active R x) /\
  (forall x, R x -> inM (of_base x)) /\
  (forall e s p e' s' p', R (Tri e s p) -> inM e' -> samemid e s p e' s' p' -> R (Tri e' s' p')).
Definition leaves (R : elem -> Prop) (els : list elem) : Prop := NoDup els /\ forall x, In x els <-> active R x /\ ~ R x.

Section L.
Variable R : elem -> Prop.
Hypothesis CL : closed R.
Hypothesis DEC : forall x, R x \/ ~ R x.
Lemma active_inM x : active R x -> inM (of_base x).
Proof. destruct x as [e|e s p]; cbn; auto. intros H. apply (proj1 (proj2 CL)) in H. destruct p; exact H. Qed.
Lemma active_par e s p : active R (Tri e s p) -> active R (par e s p).
Proof. intros H. apply (proj1 CL). exact H. Qed.
Lemma kin_active e s p e' s' p' : inM e -> inM e' -> active R (par e s p) -> samemid e s p e' s' p' -> (e', s', p') <> (e, s, p) -> active R (par e' s' p').
Proof.
  intros I I' A H N. destruct (mate_kin _ _ _ _ _ _ I I' H N) as [[-> ->] | [(h & h' & -> & -> & ->) | (r & a & b & r' & a' & b' & -> & -> & K)]].
  - exact I'.
  - cbn in *. exact A.
  - change [a; b] with ([a] ++ [b]) in A. change [a'; b'] with ([a'] ++ [b']). rewrite app_assoc, par_snoc in *. cbn [active] in *. rewrite par_snoc in *.
    apply (proj2 (proj2 CL)) with (1 := A); assumption.
Qed.
(** holders of an edge: the triangle itself, or its parent *)
Definition holds (x : elem) (e : Z) (s : side) (p : list half_id) : Prop := x = Tri e s p \/ x = par e s p.
Lemma holder_unique e s p x y : active R x -> ~ R x -> active R y -> ~ R y -> holds x e s p -> holds y e s p -> x = y.
Proof.
  intros A N A' N' [-> | ->] [-> | ->]; auto; exfalso.
  - apply N'. exact A. - apply N. exact A'.
Qed.
Lemma holder_mate e s p x e' s' p' : inM e -> inM e' -> active R x -> ~ R x -> holds x e s p -> samemid e s p e' s' p' -> (e', s', p') <> (e, s, p) ->
  exists y, active R y /\ ~ R y /\ holds y e' s' p'.
Proof.
  intros I I' A N H Sm D.
  assert (P : active R (par e s p)) by (destruct H as [-> | ->]; [apply active_par|]; exact A).
  pose proof (kin_active _ _ _ _ _ _ I I' P Sm D) as P'.
  destruct (DEC (par e' s' p')) as [Y | Y]; [|exists (par e' s' p'); unfold holds; auto].
  destruct (DEC (Tri e' s' p')) as [Z | Z]; [|exists (Tri e' s' p'); unfold holds; auto].
  exfalso. assert (X : R (Tri e s p)) by (apply (proj2 (proj2 CL)) with (1 := Z); auto; apply samemid_sym; auto).
  destruct H as [-> | ->]; auto. apply N. apply (proj1 CL) in X. exact X.
Qed.
End L.
End S.
