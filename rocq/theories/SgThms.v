From Coq Require Import Reals Bool Lra Psatz Lia.
From Verif Require Import SgModel SgSpec.
Local Open Scope R_scope.

Lemma ltb_t a b : a < b -> ltb a b = true.
Proof. unfold ltb; destruct (Rlt_dec a b); auto; lra. Qed.
Lemma ltb_f a b : b <= a -> ltb a b = false.
Proof. unfold ltb; destruct (Rlt_dec a b); auto; lra. Qed.
Lemma leb_t a b : a <= b -> leb a b = true.
Proof. unfold leb; destruct (Rle_dec a b); auto; lra. Qed.
Lemma leb_f a b : b < a -> leb a b = false.
Proof. unfold leb; destruct (Rle_dec a b); auto; lra. Qed.

Lemma isclose_eq a b tol : a = b -> 0 <= tol -> isclose a b tol = true.
Proof.
  intros -> H; unfold isclose; apply leb_t.
  replace (b - b) with 0 by ring; rewrite Rabs_R0.
  eapply Rle_trans; [exact H | apply Rmax_r].
Qed.
Lemma isclose_zero d tol : 0 <= tol -> isclose d 0 tol = true <-> Rabs d <= tol.
Proof.
  intros Ht; unfold isclose; rewrite Rminus_0_r, Rabs_R0.
  pose proof (Rabs_pos d) as Hp.
  rewrite (Rmax_left (Rabs d) 0) by lra.
  unfold leb; destruct (Rle_dec _ _) as [H|H]; split; intros H0; try discriminate; auto.
  - unfold Rmax in H; destruct (Rle_dec _ _) in H; lra.
  - exfalso; apply H; eapply Rle_trans; [exact H0 | apply Rmax_r].
Qed.

Lemma dist_at s t u : dist (at_ s t) (at_ s u) = Rabs (u - t) * dist (sA s) (sB s).
Proof.
  unfold dist, at_; cbn.
  rewrite <- (sqrt_Rsqr_abs (u - t)), <- sqrt_mult_alt by apply Rle_0_sqr.
  f_equal; unfold Rsqr; ring.
Qed.
Lemma at_0 s : at_ s 0 = sA s.
Proof. destruct s as [[ax ay] [bx by_]]; unfold at_; cbn; f_equal; ring. Qed.
Lemma at_1 s : at_ s 1 = sB s.
Proof. destruct s as [[ax ay] [bx by_]]; unfold at_; cbn; f_equal; ring. Qed.

Lemma on_seg_at s t : 0 <= t <= 1 -> on_seg (at_ s t) s = true.
Proof.
  intros Ht; unfold on_seg.
  destruct (ltb _ _); auto; destruct (ltb _ _); auto.
  apply isclose_eq; [|apply Rlt_le, Rinv_0_lt_compat; lra].
  pose proof (dist_at s 0 t) as H0; pose proof (dist_at s 1 t) as H1; rewrite at_0 in H0; rewrite at_1 in H1.
  rewrite H0, H1, (Rabs_pos_eq (t - 0)), (Rabs_left1 (t - 1)) by lra; ring.
Qed.
Lemma contain_part s g : part_of g s -> contain s g = true.
Proof.
  intros (t & u & Ht & Hu & HA & HB); unfold contain.
  destruct (seg_eq s g); auto.
  rewrite HA, HB, (on_seg_at s t Ht), (on_seg_at s u Hu); auto.
Qed.


Lemma dist_sym p q : dist p q = dist q p.
Proof. unfold dist; f_equal; ring. Qed.
Lemma dist_refl p : dist p p = 0.
Proof. unfold dist; replace (_ + _) with 0 by ring; apply sqrt_0. Qed.
Lemma end_A s : on_seg (sA s) s = true.
Proof. rewrite <- (at_0 s) at 1; apply on_seg_at; lra. Qed.
Lemma end_B s : on_seg (sB s) s = true.
Proof. rewrite <- (at_1 s) at 1; apply on_seg_at; lra. Qed.

(** what is returned lies in both, as the code sees it *)
Lemma par_inter_both s o r : par_inter s o = Some r ->
  match r with
  | INone => on_seg (sA s) o = false /\ on_seg (sB s) o = false /\ on_seg (sA o) s = false /\ on_seg (sB o) s = false
  | IPoint p => on_seg p s = true /\ on_seg p o = true
  | ISeg g => on_seg (sA g) s = true /\ on_seg (sB g) s = true /\ on_seg (sA g) o = true /\ on_seg (sB g) o = true
  end.
Proof.
  unfold par_inter, iseg, new_seg.
  pose proof (end_A s); pose proof (end_B s); pose proof (end_A o); pose proof (end_B o).
  destruct (parallel s o); [|discriminate].
  destruct (on_seg (sA s) o) eqn:E1, (on_seg (sB s) o) eqn:E2, (on_seg (sA o) s) eqn:E3, (on_seg (sB o) s) eqn:E4; cbn;
  repeat match goal with |- context [if ?b then _ else _] => destruct b; cbn end;
  intros [= <-] || (intros X; discriminate X); cbn; auto 6.
Qed.

(** keys *)
Lemma slope_vertical s : ptx (sA s) = ptx (sB s) -> slope s = None.
Proof.
  intros H; unfold slope; rewrite ltb_t; auto.
  rewrite H, Rminus_diag_eq, Rabs_R0 by auto; apply Rinv_0_lt_compat; lra.
Qed.
Lemma slope_clear s : / 10 ^ 8 <= Rabs (ptx (sA s) - ptx (sB s)) ->
  slope s = Some ((pty (sB s) - pty (sA s)) / (ptx (sB s) - ptx (sA s))).
Proof. intros H; unfold slope; rewrite ltb_f; auto. Qed.

Lemma key_part s g : part_of g s -> sA g <> sB g -> steep_or_clear s -> steep_or_clear g -> level_or_clear s ->
  group_key g = group_key s.
Proof.
  intros (t & u & Ht & Hu & HA & HB) Hne Hs Hg Hl.
  assert (Htu : t <> u) by (intros ->; apply Hne; congruence).
  assert (P : 0 < / 10 ^ 8) by (apply Rinv_0_lt_compat; lra).
  destruct s as [[ax ay] [bx by_]]; unfold steep_or_clear, level_or_clear in *.
  destruct g as [gA gB]; cbn in HA, HB; subst gA gB; unfold at_ in *; cbn in *.
  destruct (Req_dec ax bx) as [E|E].
  - subst bx. unfold group_key; rewrite !slope_vertical by (cbn; ring); cbn; f_equal; ring.
  - destruct Hs as [Hs|Hs]; [contradiction|].
    assert (D : bx - ax <> 0) by lra.
    assert (D2 : ax + u * (bx - ax) - (ax + t * (bx - ax)) <> 0).
    { replace (_ - _) with ((u - t) * (bx - ax)) by ring; apply Rmult_integral_contrapositive; split; lra. }
    destruct Hg as [Hg|Hg]; [lra|].
    unfold group_key; rewrite !slope_clear by (cbn; auto); cbn.
    replace ((ay + u * (by_ - ay) - (ay + t * (by_ - ay))) / (ax + u * (bx - ax) - (ax + t * (bx - ax))))
      with ((by_ - ay) / (bx - ax)).
    2: { replace (ax + u * (bx - ax) - (ax + t * (bx - ax))) with ((u - t) * (bx - ax)) in * by ring.
         field; split; lra. }
    destruct Hl as [Hl|Hl].
    + subst by_. replace ((ay - ay) / (bx - ax)) with 0 by (field; lra).
      destruct (ltb _ _); f_equal; ring.
    + rewrite ltb_f.
      * f_equal; field; lra.
      * unfold Rdiv; rewrite Rabs_mult, Rabs_inv.
        assert (0 < Rabs (bx - ax)) by (apply Rabs_pos_lt; lra).
        rewrite (Rabs_minus_sym ax bx), (Rabs_minus_sym ay by_) in Hl.
        apply (Rmult_le_reg_r (Rabs (bx - ax))); auto.
        rewrite Rmult_assoc, Rinv_l by lra; lra.
Qed.

(** crossings *)
Lemma det_at s o t u : at_ s t = at_ o u -> det s o <> 0 ->
  forall t' u', at_ s t' = at_ o u' -> t' = t.
Proof.
  destruct s as [[ax ay] [bx by_]], o as [[cx cy] [dx dy]]; unfold at_, det; cbn.
  intros [= H1 H2] Hd t' u' [= H3 H4].
  assert (E1 : (t' - t) * (bx - ax) = (u' - u) * (dx - cx)) by lra.
  assert (E2 : (t' - t) * (by_ - ay) = (u' - u) * (dy - cy)) by lra.
  assert (Z : (t' - t) * ((by_ - ay) * (cx - dx) - (dy - cy) * (ax - bx)) = 0).
  { replace (_ * _) with ((dy - cy) * ((t' - t) * (bx - ax)) - (dx - cx) * ((t' - t) * (by_ - ay))) by ring.
    rewrite E1, E2; ring. }
  apply Rmult_integral in Z; destruct Z; [lra | contradiction].
Qed.
Lemma inter_on s o p : line_inter s o = Some p -> on_line p s /\ on_line p o /\
  forall q, on_line q s -> on_line q o -> q = p.
Proof.
  intros H. assert (Hd : det s o <> 0).
  { intros E; unfold line_inter in H.
    rewrite E, (isclose_eq 0 0) in H; [discriminate|auto|apply Rlt_le, Rinv_0_lt_compat; lra]. }
  assert (Hs : on_line p s /\ on_line p o).
  { unfold line_inter in H; destruct (isclose _ _ _); [discriminate|].
    apply (f_equal (fun x => match x with Some y => y | None => p end)) in H.
    destruct s as [[ax ay] [bx by_]], o as [[cx cy] [dx dy]]; unfold det in *; cbn in *; subst p; split.
    - exists (((cy - ay) * (cx - dx) - (dy - cy) * (ax - cx)) / ((by_ - ay) * (cx - dx) - (dy - cy) * (ax - bx))).
      unfold at_; cbn; f_equal; field; auto.
    - exists (((cy - ay) * (ax - bx) - (by_ - ay) * (ax - cx)) / ((by_ - ay) * (cx - dx) - (dy - cy) * (ax - bx))).
      unfold at_; cbn; f_equal; field; auto. }
  destruct Hs as [Hs Ho]; split; [auto|split; auto].
  destruct Hs as [t Ht], Ho as [u Hu]; intros q [t' Ht'] [u' Hu'].
  rewrite Ht, Ht'; f_equal; apply (det_at s o t u) with (u' := u'); congruence.
Qed.
Lemma inter_raises s o : line_inter s o = None <-> Rabs (det s o) <= / 10 ^ 9.
Proof.
  rewrite <- isclose_zero by (apply Rlt_le, Rinv_0_lt_compat; lra).
  unfold line_inter; destruct (isclose _ _ _); split; intros H; auto; discriminate.
Qed.
Lemma new_seg_is A B s : new_seg A B = Some s <-> s = mkSeg A B /\ / 10 ^ 3 < dist A B.
Proof.
  unfold new_seg, ltb; destruct (Rlt_dec _ _); split; intros H.
  - injection H as <-; auto.
  - destruct H; congruence.
  - discriminate.
  - destruct H; contradiction.
Qed.

(** how far off the line an accepted point can be *)
Lemma square_le a b : 0 <= b -> a * a <= b * b -> a <= b.
Proof. intros Hb H; destruct (Rle_dec a b); auto; exfalso; nra. Qed.
Lemma detour a b h d1 d2 : 0 <= h -> 0 <= d1 -> 0 <= d2 -> d1 * d1 = a * a + h -> d2 * d2 = b * b + h ->
  (a + b) * (a + b) + 4 * h <= (d1 + d2) * (d1 + d2).
Proof.
  intros Hh H1 H2 E1 E2.
  assert (C : a * b + h <= d1 * d2).
  { apply square_le; [apply Rmult_le_pos; auto|].
    replace (d1 * d2 * (d1 * d2)) with ((d1 * d1) * (d2 * d2)) by ring; rewrite E1, E2.
    assert (0 <= h * ((a - b) * (a - b))) by (apply Rmult_le_pos; [auto | apply Rle_0_sqr]).
    replace ((a * a + h) * (b * b + h)) with ((a * b + h) * (a * b + h) + h * ((a - b) * (a - b))) by ring; lra. }
  replace ((d1 + d2) * (d1 + d2)) with (d1 * d1 + d2 * d2 + 2 * (d1 * d2)) by ring; rewrite E1, E2; nra.
Qed.
Lemma dist_sq p q : dist p q * dist p q = (ptx q - ptx p) ^ 2 + (pty q - pty p) ^ 2.
Proof. unfold dist; apply sqrt_sqrt, Rplus_le_le_0_compat; apply pow2_ge_0. Qed.
Lemma dist_pos p q : 0 <= dist p q.
Proof. apply sqrt_pos. Qed.

Definition foot (p : pt) (s : seg) : R :=
  ((ptx p - ptx (sA s)) * (ptx (sB s) - ptx (sA s)) + (pty p - pty (sA s)) * (pty (sB s) - pty (sA s)))
  / (dist (sA s) (sB s) * dist (sA s) (sB s)).

Lemma detour_seg p s : 0 < dist (sA s) (sB s) ->
  let L := dist (sA s) (sB s) in let q := at_ s (foot p s) in
  L * L + 4 * (dist p q * dist p q) <= (dist (sA s) p + dist (sB s) p) * (dist (sA s) p + dist (sB s) p).
Proof.
  intros HL L q.
  set (t := foot p s).
  assert (LL : L * L <> 0) by (apply Rgt_not_eq, Rmult_lt_0_compat; exact HL).
  assert (Ft : t * (L * L) = (ptx p - ptx (sA s)) * (ptx (sB s) - ptx (sA s)) + (pty p - pty (sA s)) * (pty (sB s) - pty (sA s))).
  { unfold t, foot; fold L; field; unfold L; lra. }
  pose proof (dist_sq (sA s) (sB s)) as EL; fold L in EL.
  pose proof (dist_sq p q) as Eq; unfold q, at_ in Eq; fold t in Eq; cbn [ptx pty] in Eq.
  pose proof (dist_sq (sA s) p) as E1; pose proof (dist_sq (sB s) p) as E2.
  pose proof (detour (t * L) ((1 - t) * L) (dist p q * dist p q) (dist (sA s) p) (dist (sB s) p)) as D.
  replace (t * L + (1 - t) * L) with L in D by ring.
  apply D; try apply dist_pos.
  - apply Rle_0_sqr.
  - change (dist p q) with (dist p (at_ s t)); unfold at_; rewrite Eq, E1.
    replace (t * L * (t * L)) with (2 * t * (t * (L * L)) - t * t * (L * L)) by ring.
    rewrite Ft, EL; ring.
  - change (dist p q) with (dist p (at_ s t)); unfold at_; rewrite Eq, E2.
    replace ((1 - t) * L * ((1 - t) * L)) with (L * L - 2 * (t * (L * L)) + (2 * t * (t * (L * L)) - t * t * (L * L))) by ring.
    rewrite Ft, EL; ring.
Qed.

Lemma on_seg_near p s : on_seg p s = true -> 0 < dist (sA s) (sB s) <= 10 ->
  exists q, on_line q s /\ dist p q <= / 4000.
Proof.
  intros H [HL HT]; unfold on_seg in H; unfold ltb in H.
  assert (S : forall x y, dist x y = dist y x) by (intros; unfold dist; f_equal; ring).
  destruct (Rlt_dec _ _) as [H1|H1] in H.
  { exists (sA s); split; [exists 0; symmetry; apply at_0|]. rewrite S; lra. }
  destruct (Rlt_dec _ _) as [H2|H2] in H.
  { exists (sB s); split; [exists 1; symmetry; apply at_1|]. rewrite S; lra. }
  exists (at_ s (foot p s)); split; [eexists; reflexivity|].
  pose proof (detour_seg p s HL) as D; cbv zeta in D.
  set (h := dist p (at_ s (foot p s))) in *; set (L := dist (sA s) (sB s)) in *.
  pose proof (dist_pos (sA s) p) as P1; pose proof (dist_pos (sB s) p) as P2.
  set (T := dist (sA s) p + dist (sB s) p) in *.
  assert (PT : 0 <= T) by (unfold T; lra).
  unfold isclose, leb in H; destruct (Rle_dec _ _) as [H0|H0] in H; [clear H|discriminate].
  assert (B : T <= L + (101 / 10 ^ 10)).
  { pose proof (Rle_abs (T - L)) as A.
    rewrite (Rabs_pos_eq T), (Rabs_pos_eq L) in H0 by lra.
    unfold Rmax in H0; repeat destruct (Rle_dec _ _) in H0; lra. }
  apply square_le; [lra|].
  assert (T * T <= (L + (101 / 10 ^ 10)) * (L + (101 / 10 ^ 10))) by (apply Rmult_le_compat; lra).
  assert (L * (101 / 10 ^ 10) <= 10 * (101 / 10 ^ 10)) by (apply Rmult_le_compat_r; lra).
  replace ((L + (101 / 10 ^ 10)) * (L + (101 / 10 ^ 10))) with (L * L + 2 * (L * (101 / 10 ^ 10)) + (101 / 10 ^ 10) * (101 / 10 ^ 10)) in * by ring.
  lra.
Qed.

(** refutations *)
Definition o0 := mkPt 0 0.
Lemma dist_x y y' x x' : y = y' -> x <= x' -> dist (mkPt x y) (mkPt x' y') = x' - x.
Proof.
  intros -> H; unfold dist; cbn [ptx pty].
  replace (_ + _) with (Rsqr (x' - x)) by (unfold Rsqr; ring); apply sqrt_Rsqr; lra.
Qed.
Lemma dist_ge_x p q : ptx q - ptx p <= dist p q.
Proof.
  pose proof (dist_pos p q) as P; pose proof (dist_sq p q) as E.
  apply square_le; auto; rewrite E.
  pose proof (pow2_ge_0 (ptx q - ptx p)); pose proof (pow2_ge_0 (pty q - pty p)); lra.
Qed.
Lemma dist_ge_y p q : pty q - pty p <= dist p q.
Proof.
  pose proof (dist_pos p q) as P; pose proof (dist_sq p q) as E.
  apply square_le; auto; rewrite E.
  pose proof (pow2_ge_0 (ptx q - ptx p)); pose proof (pow2_ge_0 (pty q - pty p)); lra.
Qed.
Lemma near_parallel : exists s o s' o',
  new_seg (sA s) (sB s) = Some s /\ new_seg (sA o) (sB o) = Some o /\
  new_seg (sA s') (sB s') = Some s' /\ new_seg (sA o') (sB o') = Some o' /\
  (forall p, on_line p s <-> on_line p s') /\ (forall p, on_line p o <-> on_line p o') /\
  line_inter s o = None /\ line_inter s' o' <> None.
Proof.
  exists (mkSeg o0 (mkPt (/ 500) 0)), (mkSeg o0 (mkPt (/ 500) (4 / 10 ^ 7))),
    (mkSeg o0 (mkPt 2 0)), (mkSeg o0 (mkPt 2 (4 / 10 ^ 4))).
  repeat split; try (apply new_seg_is; split; [reflexivity|]; cbn [sA sB];
    eapply Rlt_le_trans; [|apply dist_ge_x]; unfold o0; cbn [ptx]; lra).
  - intros [t ->]; exists (t / 1000); unfold at_, o0; cbn [sA sB ptx pty]; f_equal; lra.
  - intros [t ->]; exists (t * 1000); unfold at_, o0; cbn [sA sB ptx pty]; f_equal; lra.
  - intros [t ->]; exists (t / 1000); unfold at_, o0; cbn [sA sB ptx pty]; f_equal; lra.
  - intros [t ->]; exists (t * 1000); unfold at_, o0; cbn [sA sB ptx pty]; f_equal; lra.
  - apply inter_raises; unfold det, o0; cbn [sA sB ptx pty]; apply Rabs_le; lra.
  - intros E; apply inter_raises in E; revert E; unfold det, o0; cbn [sA sB ptx pty].
    rewrite Rabs_pos_eq by lra; lra.
Qed.
Definition unit_seg := mkSeg o0 (mkPt 1 0).
Lemma off_line : on_seg (mkPt (/ 2) (/ 20000)) unit_seg = true /\
  forall q, on_line q unit_seg -> / 20000 <= dist (mkPt (/ 2) (/ 20000)) q.
Proof.
  split.
  - unfold on_seg; destruct (ltb _ _); auto; destruct (ltb _ _); auto.
    unfold isclose; apply leb_t; eapply Rle_trans; [|apply Rmax_r].
    cbn [unit_seg sA sB].
    assert (LX : dist o0 (mkPt 1 0) = 1) by (unfold o0; rewrite dist_x; lra).
    rewrite LX.
    pose proof (dist_sq o0 (mkPt (/ 2) (/ 20000))) as E1; pose proof (dist_sq (mkPt 1 0) (mkPt (/ 2) (/ 20000))) as E2.
    pose proof (dist_pos o0 (mkPt (/ 2) (/ 20000))) as P1; pose proof (dist_pos (mkPt 1 0) (mkPt (/ 2) (/ 20000))) as P2.
    unfold o0 in E1; cbn [ptx pty] in E1, E2; fold o0 in E1.
    assert (U1 : dist o0 (mkPt (/ 2) (/ 20000)) <= / 2 + / 2 * / 10 ^ 8) by (apply square_le; [lra | rewrite E1; lra]).
    assert (U2 : dist (mkPt 1 0) (mkPt (/ 2) (/ 20000)) <= / 2 + / 2 * / 10 ^ 8) by (apply square_le; [lra | rewrite E2; lra]).
    assert (V1 : / 2 <= dist o0 (mkPt (/ 2) (/ 20000))) by (apply square_le; [auto | rewrite E1; lra]).
    assert (V2 : / 2 <= dist (mkPt 1 0) (mkPt (/ 2) (/ 20000))) by (apply square_le; [auto | rewrite E2; lra]).
    apply Rabs_le; lra.
  - intros q [t ->].
    assert (X : dist (mkPt (/ 2) (/ 20000)) (at_ unit_seg t) = dist (at_ unit_seg t) (mkPt (/ 2) (/ 20000)))
      by (unfold dist; f_equal; ring).
    rewrite X; eapply Rle_trans; [|apply dist_ge_y]; unfold at_, unit_seg, o0; cbn [sA sB ptx pty]; lra.
Qed.
Definition steep := mkSeg o0 (mkPt (3 / 2 / 10 ^ 8) 1).
Definition steep_half := mkSeg o0 (mkPt (3 / 4 / 10 ^ 8) (/ 2)).
Lemma key_differs : new_seg (sA steep) (sB steep) = Some steep /\ new_seg (sA steep_half) (sB steep_half) = Some steep_half /\
  part_of steep_half steep /\ contain steep steep_half = true /\
  exists x y k, group_key steep_half = KInf x /\ group_key steep = KSlope y k.
Proof.
  assert (P : part_of steep_half steep).
  { exists 0, (/ 2); unfold at_, steep, steep_half, o0; cbn [sA sB ptx pty]; repeat split; try lra; f_equal; lra. }
  repeat split; auto.
  - apply new_seg_is; split; auto; eapply Rlt_le_trans; [|apply dist_ge_y]; cbn [steep o0 sA sB pty]; lra.
  - apply new_seg_is; split; auto; eapply Rlt_le_trans; [|apply dist_ge_y]; cbn [steep_half o0 sA sB pty]; lra.
  - apply contain_part; auto.
  - unfold group_key, slope; rewrite ltb_t, ltb_f.
    + do 3 eexists; split; reflexivity.
    + unfold steep, o0; cbn [sA sB ptx]; rewrite Rabs_minus_sym, Rabs_pos_eq; lra.
    + unfold steep_half, o0; cbn [sA sB ptx]; rewrite Rabs_minus_sym, Rabs_pos_eq; lra.
Qed.
(** collinear segments on the x axis *)
Definition xs a b := mkSeg (mkPt a 0) (mkPt b 0).
Lemma xs_dist a b : dist (mkPt a 0) (mkPt b 0) = Rabs (b - a).
Proof. unfold dist; cbn [ptx pty]; rewrite <- sqrt_Rsqr_abs; f_equal; unfold Rsqr; ring. Qed.
Lemma xs_out c a b : a < b -> b - a <= 100 -> (c <= a - / 10 ^ 4 \/ b + / 10 ^ 4 <= c) -> a - 100 <= c <= b + 100 ->
  on_seg (mkPt c 0) (xs a b) = false.
Proof.
  intros H H2 H0 H3; unfold on_seg, xs; cbn [sA sB]; rewrite !xs_dist.
  destruct H0 as [H0|H0].
  - rewrite (Rabs_left (c - a)), (Rabs_left (c - b)), (Rabs_pos_eq (b - a)) by lra.
    rewrite !ltb_f by lra. unfold isclose; apply leb_f.
    rewrite (Rabs_pos_eq (- (c - a) + - (c - b) - (b - a))), (Rabs_pos_eq (- (c - a) + - (c - b))), (Rabs_pos_eq (b - a)) by lra.
    apply Rmax_lub_lt; [|lra]. rewrite Rmax_left by lra; lra.
  - rewrite (Rabs_pos_eq (c - a)), (Rabs_pos_eq (c - b)), (Rabs_pos_eq (b - a)) by lra.
    rewrite !ltb_f by lra. unfold isclose; apply leb_f.
    rewrite (Rabs_pos_eq (c - a + (c - b) - (b - a))), (Rabs_pos_eq (c - a + (c - b))), (Rabs_pos_eq (b - a)) by lra.
    apply Rmax_lub_lt; [|lra]. rewrite Rmax_left by lra; lra.
Qed.
Lemma xs_in c a b : a < b -> a <= c <= b -> on_seg (mkPt c 0) (xs a b) = true.
Proof.
  intros H H0. replace (mkPt c 0) with (at_ (xs a b) ((c - a) / (b - a))).
  - apply on_seg_at; split.
    + apply Rmult_le_pos; [lra | apply Rlt_le, Rinv_0_lt_compat; lra].
    + apply (Rmult_le_reg_r (b - a)); [lra|]. unfold Rdiv; rewrite Rmult_assoc, Rinv_l by lra; lra.
  - unfold at_, xs; cbn [sA sB ptx pty]; f_equal; field; lra.
Qed.
Lemma xs_parallel a b c d : parallel (xs a b) (xs c d) = true.
Proof.
  unfold parallel; apply isclose_zero; [apply Rlt_le, Rinv_0_lt_compat; lra|].
  unfold det, xs; cbn [sA sB ptx pty]; replace (_ - _) with 0 by ring.
  rewrite Rabs_R0; apply Rlt_le, Rinv_0_lt_compat; lra.
Qed.
Lemma pt_neq_x c d : Rabs c <= 100 -> Rabs d <= 100 -> / 10 ^ 4 <= d - c -> pt_eq (mkPt d 0) (mkPt c 0) = false.
Proof.
  intros Hc Hd H; unfold pt_eq; cbn [ptx pty]; unfold isclose at 1; rewrite leb_f; auto.
  rewrite (Rabs_pos_eq (d - c)) by lra.
  apply Rmax_lub_lt; [|lra].
  assert (Rmax (Rabs d) (Rabs c) <= 100) by (apply Rmax_lub; auto); lra.
Qed.
Lemma pt_neq_x' c d : Rabs c <= 100 -> Rabs d <= 100 -> / 10 ^ 4 <= c - d -> pt_eq (mkPt d 0) (mkPt c 0) = false.
Proof.
  intros Hc Hd H; unfold pt_eq; cbn [ptx pty]; unfold isclose at 1; rewrite leb_f; auto.
  rewrite (Rabs_left1 (d - c)) by lra.
  apply Rmax_lub_lt; [|lra].
  assert (Rmax (Rabs d) (Rabs c) <= 100) by (apply Rmax_lub; auto); lra.
Qed.
(** overlapping segments b-a, d-c with a < c < b < d: the overlap c-b, or an exception if it is short *)
Lemma overlap a b c d : -50 <= a -> d <= 50 -> a + / 10 ^ 4 <= c -> c + / 10 ^ 4 <= b -> b + / 10 ^ 4 <= d ->
  par_inter (xs a b) (xs c d) = if ltb (/ 10 ^ 3) (b - c) then Some (ISeg (xs b c)) else None.
Proof.
  intros Ha Hd H1 H2 H3; unfold par_inter; rewrite xs_parallel.
  change (sA (xs a b)) with (mkPt a 0); change (sB (xs a b)) with (mkPt b 0).
  change (sA (xs c d)) with (mkPt c 0); change (sB (xs c d)) with (mkPt d 0).
  rewrite (xs_out a c d), (xs_in b c d), (xs_in c a b), (xs_out d a b) by lra; cbn [andb negb].
  rewrite (pt_neq_x c b), (pt_neq_x' d b) by (try (apply Rabs_le; lra); lra); cbn [orb].
  unfold iseg, new_seg; rewrite xs_dist, Rabs_left by lra.
  replace (- (c - b)) with (b - c) by ring; destruct (ltb _ _); reflexivity.
Qed.
Lemma overlap_cases a b c d : -50 <= a -> d <= 50 -> a + / 10 ^ 4 <= c -> c + / 10 ^ 4 <= b -> b + / 10 ^ 4 <= d ->
  (/ 10 ^ 3 < b - c -> par_inter (xs a b) (xs c d) = Some (ISeg (xs b c))) /\
  (b - c <= / 10 ^ 3 -> par_inter (xs a b) (xs c d) = None).
Proof.
  intros H1 H2 H3 H4 H5; rewrite (overlap a b c d) by auto; split; intros H.
  - rewrite ltb_t; auto.
  - rewrite ltb_f; auto.
Qed.
Lemma cross_example : exists p, line_inter (xs 0 1) (mkSeg (mkPt 0 (-1)) (mkPt 1 1)) = Some p /\ p = mkPt (/ 2) 0.
Proof.
  destruct (line_inter (xs 0 1) (mkSeg (mkPt 0 (-1)) (mkPt 1 1))) as [p|] eqn:E.
  - exists p; split; auto. symmetry; apply (inter_on _ _ _ E).
    + exists (/ 2); unfold at_, xs; cbn [sA sB ptx pty]; f_equal; lra.
    + exists (/ 2); unfold at_; cbn [sA sB ptx pty]; f_equal; lra.
  - apply inter_raises in E; exfalso; revert E; unfold det, xs; cbn [sA sB ptx pty].
    replace (_ - _) with 2 by ring; rewrite Rabs_pos_eq; lra.
Qed.
Lemma part_clear : steep_or_clear (mkSeg (mkPt 2 4) (mkPt 1 2)) /\ steep_or_clear (mkSeg (mkPt 0 0) (mkPt 3 6)) /\
  level_or_clear (mkSeg (mkPt 0 0) (mkPt 3 6)).
Proof.
  unfold steep_or_clear, level_or_clear; cbn [sA sB ptx pty].
  rewrite (Rabs_pos_eq (2 - 1)), (Rabs_left (0 - 3)), (Rabs_left (0 - 6)) by lra.
  repeat split; right; lra.
Qed.
