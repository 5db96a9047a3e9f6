(** Leaves of a closed set of refined elements: conforming. *)
From Coq Require Import List ZArith QArith Qcanon Bool Lia.
From Verif Require Import TrfModel TrfSpec TrfLattice TrfLattice2 TrfSide TrfGlue TrfStatic TrfConform.
Import ListNotations.
Local Open Scope Qc_scope.

Lemma area_split v h : match v, split_verts v h with (a, b, c), (a', b', c') => area2 a' b' c' = half * area2 a b c end.
Proof.
  destruct v as [[[a1 a2] [b1 b2]] [c1 c2]]. assert (H4 : half * half * (1 + 1) = half) by (apply Qc_is_canon; reflexivity).
  assert (H1 : (1 = half + half)) by (apply Qc_is_canon; reflexivity).
  destruct h; cbn [split_verts mid]; unfold area2, cross, minus_pt, mid; cbn [fst snd];
  assert (HH : forall x y, x + y = (x + y) * (half + half)) by (intros; rewrite <- H1; ring).
  - transitivity (half * half * (1 + 1) * ((b1 - a1) * (c2 - a2) - (b2 - a2) * (c1 - a1))); [|rewrite H4; reflexivity].
    set (h := half) in *. clearbody h.
    transitivity ((a1 * (h + h) - (b1 + c1) * h) * (b2 * (h + h) - (b2 + c2) * h) - (a2 * (h + h) - (b2 + c2) * h) * (b1 * (h + h) - (b1 + c1) * h)).
    + rewrite <- H1. ring. + ring.
  - transitivity (half * half * (1 + 1) * ((b1 - a1) * (c2 - a2) - (b2 - a2) * (c1 - a1))); [|rewrite H4; reflexivity].
    set (h := half) in *. clearbody h.
    transitivity ((c1 * (h + h) - (b1 + c1) * h) * (a2 * (h + h) - (b2 + c2) * h) - (c2 * (h + h) - (b2 + c2) * h) * (a1 * (h + h) - (b1 + c1) * h)).
    + rewrite <- H1. ring. + ring.
Qed.
Lemma area_root s : match verts0 s with (a, b, c) => area2 a b c = 1 + 1 end.
Proof. destruct s; apply Qc_is_canon; reflexivity. Qed.
Lemma area_verts s p : match verts s p with (a, b, c) => area2 a b c = (1 + 1) * half ^ length p end.
Proof.
  induction p as [|h p IH] using rev_ind.
  - change (verts s []) with (verts0 s). pose proof (area_root s) as H. destruct (verts0 s) as [[a b] c]. rewrite H. cbn [length Qcpower]. ring.
  - rewrite verts_snoc, app_length, Nat.add_1_r. cbn [Qcpower]. pose proof (area_split (verts s p) h) as H. destruct (verts s p) as [[a b] c], (split_verts (a, b, c) h) as [[a' b'] c'].
    rewrite H, IH. ring.
Qed.
Lemma half_pos : 0 < half. Proof. reflexivity. Qed.
Lemma pow_pos n : 0 < half ^ n.
Proof. induction n as [|n IH]; [reflexivity|]. cbn [Qcpower]. rewrite <- (Qcmult_0_l (half ^ n)). apply Qcmult_lt_compat_r; [exact IH|exact half_pos]. Qed.
Lemma two_pos x : 0 < x -> 0 < (1 + 1) * x.
Proof. intros H. rewrite <- (Qcmult_0_l x). apply Qcmult_lt_compat_r; [exact H|reflexivity]. Qed.
Lemma vert_neq s p : vert1 s p <> vert2 s p.
Proof.
  intros E. pose proof (area_verts s p) as A. rewrite verts_eta, E in A. unfold area2, cross, minus_pt in A. cbn [fst snd] in A.
  assert (Z : 0 = (1 + 1) * half ^ length p) by (rewrite <- A; ring). pose proof (two_pos _ (pow_pos (length p))) as P. rewrite <- Z in P. exact (Qclt_not_eq _ _ P eq_refl).
Qed.
Lemma mid_cancel a b c : mid a b = mid a c -> b = c.
Proof.
  intros E. unfold mid in E. apply pair_equal_spec in E. destruct E as [E1 E2].
  assert (C : forall x y z : Qc, (x + y) * half = (x + z) * half -> y = z).
  { intros x y z E. assert (T : y = ((x + y) * half) * (1 + 1) - x). { transitivity ((x + y) * (half * (1 + 1)) - x); [rewrite half_2; ring|ring]. }
    rewrite T, E. transitivity ((x + z) * (half * (1 + 1)) - x); [ring|rewrite half_2; ring]. }
  destruct b, c. cbn [fst snd] in *. f_equal; eapply C; eassumption.
Qed.

Section S.
Variables (fl : flavour) (M : mesh).
Hypothesis OK : mesh_ok fl M.
Hypothesis DIR : same_directions fl M.
Notation G := (glued fl M).
Notation samemid := (samemid fl M).
Notation inM := (inM M).

Lemma edge_name x E : In E (edges x) -> exists s p, holds x (of_base x) s p /\
  (E = (of_base x, vert1 s p, vert2 s p) \/ E = (of_base x, vert2 s p, vert1 s p)).
Proof.
  destruct x as [e|e s p]; cbn [edges of_base].
  - intros H. apply in_map_iff in H. destruct H as (s & <- & _). exists s, []. split; [right; reflexivity|].
    destruct (root_verts s) as [[-> ->] | [-> ->]]; auto.
  - rewrite verts_eta. intros [<- | [<- | [<- | []]]].
    + exists s, p. split; [left; reflexivity|auto].
    + exists s, (p ++ [h0]). split; [right; symmetry; apply par_snoc|]. destruct (child0 s p) as [-> ->]. auto.
    + exists s, (p ++ [h2]). split; [right; symmetry; apply par_snoc|]. destruct (child2 s p) as [-> ->]. auto.
Qed.
Lemma name_edge x e s p : holds x e s p -> exists E, In E (edges x) /\ (E = (e, vert1 s p, vert2 s p) \/ E = (e, vert2 s p, vert1 s p)).
Proof.
  intros [-> | ->].
  - exists (e, vert1 s p, vert2 s p). split; [cbn [edges]; rewrite verts_eta; left; reflexivity|auto].
  - destruct p as [|h p _] using rev_ind.
    + exists (e, along s (-(1)), along s 1). split; [cbn [par edges]; apply in_map_iff; exists s; split; [reflexivity|destruct s; cbn; auto]|].
      destruct (root_verts s) as [[-> ->] | [-> ->]]; auto.
    + rewrite par_snoc. cbn [edges]. rewrite verts_eta. destruct h.
      * destruct (child0 s p) as [-> ->]. eexists. split; [right; left; reflexivity|auto].
      * destruct (child2 s p) as [-> ->]. eexists. split; [right; right; left; reflexivity|auto].
Qed.
Lemma names_distinct x e s p e' s' p' : holds x e s p -> holds x e' s' p' -> length p = length p' -> samemid e s p e' s' p' -> (e', s', p') = (e, s, p).
Proof.
  intros [-> | ->] [E | E] L H.
  - congruence.
  - exfalso. destruct p' as [|h' p' _] using rev_ind; [discriminate|]. rewrite par_snoc in E. injection E. intros -> -> ->. rewrite app_length in L. cbn in L. lia.
  - exfalso. destruct p as [|h p _] using rev_ind; [discriminate|]. rewrite par_snoc in E. injection E. intros -> -> ->. rewrite app_length in L. cbn in L. lia.
  - destruct p as [|h p _] using rev_ind; destruct p' as [|h' p' _] using rev_ind; rewrite ?app_length in L; cbn in L; try lia.
    + cbn in E. injection E. intros ->. apply (glued_inj fl M OK DIR) in H. rewrite !root_mid in H. destruct zero_strict. apply along_inj2 in H; auto. destruct H as [-> _]. reflexivity.
    + rewrite !par_snoc in E. injection E. intros -> -> ->. apply (glued_inj fl M OK DIR) in H.
      destruct h, h'; auto; exfalso; rewrite !tmid_eta in H; destruct (child0 s' p') as [E0 E1]; destruct (child2 s' p') as [E2 E3]; rewrite E0, E1, E2, E3 in H.
      * rewrite (mid_sym (vert2 s' p')) in H. apply mid_cancel in H. exact (vert_neq _ _ H).
      * rewrite (mid_sym (vert2 s' p')) in H. apply mid_cancel in H. exact (vert_neq _ _ (eq_sym H)).
Qed.
Lemma edge_same E E' e s p e' s' p' : inM e -> inM e' -> (E = (e, vert1 s p, vert2 s p) \/ E = (e, vert2 s p, vert1 s p)) ->
  (E' = (e', vert1 s' p', vert2 s' p') \/ E' = (e', vert2 s' p', vert1 s' p')) -> (same_edge fl M E E' <-> samemid e s p e' s' p').
Proof.
  intros I I' H H'. transitivity (samebot fl M e s p e' s' p').
  - unfold samebot. destruct H as [-> | ->], H' as [-> | ->]; cbn [same_edge]; tauto.
  - split; [apply samebot_mid | apply samemid_bot]; assumption.
Qed.

Section L.
Variables (R : elem -> Prop) (els : list elem).
Hypothesis CL : closed fl M R.
Hypothesis DEC : forall x, R x \/ ~ R x.
Hypothesis LV : leaves M R els.
Lemma leaf x : In x els <-> active M R x /\ ~ R x. Proof. apply LV. Qed.
Lemma leaf_inM x : In x els -> inM (of_base x).
Proof. intros H. apply leaf in H. apply (active_inM fl M R CL). apply H. Qed.
Lemma holds_base x e s p : holds x e s p -> of_base x = e.
Proof. intros [-> | ->]; [reflexivity|]. destruct p; reflexivity. Qed.
Theorem leaves_conforming : conforming fl M els.
Proof.
  split; [apply LV|]. intros x E Hx HE. pose proof (leaf_inM _ Hx) as I. destruct (edge_name _ _ HE) as (s & p & HX & EX). set (e := of_base x) in *.
  pose proof (proj1 (leaf x) Hx) as [Ax Nx].
  (* anyone with this edge holds this name or the name of its mate *)
  assert (HAS : forall y, In y els -> has_edge fl M y E -> exists s' p', holds y (of_base y) s' p' /\ samemid e s p (of_base y) s' p').
  { intros y Hy (E' & HE' & Sm). destruct (edge_name _ _ HE') as (s' & p' & HY & EY). exists s', p'. split; [exact HY|].
    apply (edge_same E E' _ _ _ _ _ _ I (leaf_inM _ Hy) EX EY). exact Sm. }
  assert (SAME : forall y, In y els -> holds y e s p -> y = x).
  { intros y Hy Hh. apply leaf in Hy. eapply (holder_unique M R e s p); try tauto; eassumption. }
  assert (RIM : rim_edge fl M E <-> at_rim fl M e s p).
  { split.
    - intros Re. unfold rim_edge in Re.
      assert (X : exists s1 t t', vert1 s p = along s1 t /\ vert2 s p = along s1 t' /\ rim fl M e s1).
      { destruct EX as [-> | ->]; destruct Re as (s1 & t & t' & A & B & Rm); exists s1; eauto. }
      clear Re. destruct X as (s1 & t & t' & A & B & Rm).
      destruct (ends_side s p) as (s2 & k & c & Bs). { exists s1, t. exact A. } { exists s1, t'. exact B. }
      exists s2, k, c. split; [exact Bs|]. pose proof (seg_mid _ _ _ _ _ Bs) as Mi. rewrite tmid_eta, A, B, mid_along in Mi.
      destruct (seg_bounds _ _ _ _ _ Bs) as (_ & _ & _ & St). apply lat_strict in St. destruct St. symmetry in Mi. apply along_inj2 in Mi; auto. destruct Mi as [-> _]. exact Rm.
    - intros (s1 & k & c & Bs & Rm). destruct (seg_ends _ _ _ _ _ Bs) as [[A B] | [A B]]; destruct EX as [-> | ->]; cbn [rim_edge]; exists s1; eauto. }
  split.
  - intros Re y Hy Hh. apply RIM in Re. destruct (HAS y Hy Hh) as (s' & p' & HY & Sm).
    apply SAME; auto. pose proof (rim_no_mate fl M OK DIR _ _ _ _ _ _ I (leaf_inM _ Hy) Re Sm) as Eq. apply pair_equal_spec in Eq. destruct Eq as [Eq ->]. apply pair_equal_spec in Eq. destruct Eq as [Eq ->]. rewrite <- Eq. exact HY.
  - intros Re. rewrite RIM in Re. destruct (mate_or_rim fl M OK DIR _ p (le_n _) e s I) as [Rr | (e' & s' & p' & I' & N & Sm & _)]; [tauto|].
    destruct (holder_mate fl M OK DIR R CL DEC _ _ _ x _ _ _ I I' Ax Nx HX Sm N) as (y & Ay & Ny & HY).
    assert (Hy : In y els) by (apply leaf; auto).
    exists y. split; [exact Hy|]. split.
    { intros ->. apply N. apply (names_distinct x); auto. apply (samemid_len fl M OK DIR _ _ _ _ _ _ I I' Sm). }
    split.
    { destruct (name_edge _ _ _ _ HY) as (E' & HE' & EY). exists E'. split; [exact HE'|]. apply (edge_same E E' _ _ _ _ _ _ I I' EX EY). exact Sm. }
    intros y' Hy' Hh. destruct (HAS y' Hy' Hh) as (s2 & p2 & HY2 & Sm2).
    destruct (elem_eq_dec (Tri (of_base y') s2 p2) (Tri e s p)) as [Eq | Nq].
    + left. apply SAME; auto. injection Eq. intros -> -> Eb. rewrite <- Eb. exact HY2.
    + right. assert (NN : (of_base y', s2, p2) <> (e, s, p)) by congruence.
      pose proof (unique_mate fl M OK DIR _ _ _ _ _ _ _ _ _ I I' (leaf_inM _ Hy') Sm Sm2 N NN) as Eq. apply leaf in Hy'.
      apply (holder_unique M R e' s' p'); try tauto. rewrite pair_equal_spec in Eq. destruct Eq as [Eq ->]. rewrite pair_equal_spec in Eq. destruct Eq as [-> ->]. exact HY2.
Qed.
End L.
End S.
