From Coq Require Import Reals Bool Lra.
From Verif Require Import SgModel SgSpec SgThms.
Local Open Scope R_scope.

(** equal keys, equal lines *)
Definition on_eq (p : pt) (s : seg) : Prop :=
  (ptx p - ptx (sA s)) * (pty (sB s) - pty (sA s)) = (pty p - pty (sA s)) * (ptx (sB s) - ptx (sA s)).
Lemma on_line_eq p s : sA s <> sB s -> on_line p s <-> on_eq p s.
Proof.
  destruct s as [[ax ay] [bx by_]], p as [x y]; unfold on_line, on_eq, at_; cbn [sA sB ptx pty]; intros Hne; split.
  - intros [t H]; apply (f_equal (fun q => (ptx q, pty q))) in H; cbn [ptx pty] in H; injection H as -> ->; ring.
  - intros H. destruct (Req_dec ax bx) as [E|E].
    + subst bx. assert (N : by_ - ay <> 0) by (intros N; apply Hne; f_equal; lra).
      exists ((y - ay) / (by_ - ay)); f_equal; [|field; auto].
      replace (ax - ax) with 0 in * by ring; rewrite Rmult_0_r in H.
      apply Rmult_integral in H; destruct H; [|contradiction].
      rewrite Rmult_0_r; lra.
    + assert (N : bx - ax <> 0) by lra.
      exists ((x - ax) / (bx - ax)); f_equal; [field; auto|].
      replace ((x - ax) / (bx - ax) * (by_ - ay)) with ((x - ax) * (by_ - ay) / (bx - ax)) by (field; auto).
      rewrite H; field; auto.
Qed.

Lemma key_form s : steep_or_clear s -> level_or_clear s -> sA s <> sB s ->
  (ptx (sA s) = ptx (sB s) /\ pty (sA s) <> pty (sB s) /\ group_key s = KInf (ptx (sA s))) \/
  (ptx (sB s) - ptx (sA s) <> 0 /\ exists k, pty (sB s) - pty (sA s) = k * (ptx (sB s) - ptx (sA s)) /\
     group_key s = KSlope (pty (sA s) - k * ptx (sA s)) k).
Proof.
  intros Hs Hl Hne; destruct s as [[ax ay] [bx by_]]; unfold steep_or_clear, level_or_clear in *; cbn [sA sB ptx pty] in *.
  destruct (Req_dec ax bx) as [E|E].
  - left; subst bx; split; [auto|split; [intros ->; apply Hne; auto|]].
    unfold group_key; rewrite slope_vertical by reflexivity; reflexivity.
  - right; split; [lra|]. destruct Hs as [Hs|Hs]; [contradiction|].
    exists ((by_ - ay) / (bx - ax)); split; [field; lra|].
    unfold group_key; rewrite slope_clear by (cbn [sA sB ptx]; auto); cbn [sA sB ptx pty].
    destruct Hl as [Hl|Hl].
    + subst by_. replace ((ay - ay) / (bx - ax)) with 0 by (field; lra). destruct (ltb _ _); reflexivity.
    + rewrite ltb_f; [reflexivity|].
      unfold Rdiv; rewrite Rabs_mult, Rabs_inv.
      assert (0 < Rabs (bx - ax)) by (apply Rabs_pos_lt; lra).
      rewrite (Rabs_minus_sym ax bx), (Rabs_minus_sym ay by_) in Hl.
      apply (Rmult_le_reg_r (Rabs (bx - ax))); auto.
      rewrite Rmult_assoc, Rinv_l by lra; lra.
Qed.
Lemma keys_lines s g : steep_or_clear s -> level_or_clear s -> sA s <> sB s ->
  steep_or_clear g -> level_or_clear g -> sA g <> sB g -> group_key s = group_key g ->
  forall p, on_line p s <-> on_line p g.
Proof.
  intros S1 S2 S3 G1 G2 G3 E p; rewrite !on_line_eq by auto; unfold on_eq.
  destruct (key_form s S1 S2 S3) as [(X & Y & K)|(X & k & Y & K)];
  destruct (key_form g G1 G2 G3) as [(X' & Y' & K')|(X' & k' & Y' & K')]; rewrite K, K' in E; try discriminate E.
  - injection E as E. rewrite X', X in *. rewrite E in *.
    split; intros H; replace (ptx (sB g) - ptx (sB g)) with 0 in * by ring; rewrite ?Rmult_0_r in *;
    apply Rmult_integral in H; destruct H as [H|H]; try lra; rewrite H; ring.
  - injection E as E1 E2. subst k'. rewrite Y, Y'.
    split; intros H.
    + assert (Z : (ptx p - ptx (sA s)) * k = pty p - pty (sA s)).
      { apply (Rmult_eq_reg_r (ptx (sB s) - ptx (sA s))); auto. rewrite <- H; ring. }
      replace (pty p - pty (sA g)) with ((ptx p - ptx (sA g)) * k) by lra; ring.
    + assert (Z : (ptx p - ptx (sA g)) * k = pty p - pty (sA g)).
      { apply (Rmult_eq_reg_r (ptx (sB g) - ptx (sA g))); auto. rewrite <- H; ring. }
      replace (pty p - pty (sA s)) with ((ptx p - ptx (sA s)) * k) by lra; ring.
Qed.

(** equality *)
Lemma isclose_refl a tol : 0 <= tol -> isclose a a tol = true.
Proof. apply isclose_eq; auto. Qed.
Lemma pt_eq_refl p : pt_eq p p = true.
Proof. unfold pt_eq; rewrite !isclose_refl by (apply Rlt_le, Rinv_0_lt_compat; lra); auto. Qed.
Lemma seg_eq_reversed s : seg_eq s s = true /\ seg_eq s (mkSeg (sB s) (sA s)) = true.
Proof. unfold seg_eq; cbn [sA sB]; rewrite !pt_eq_refl; cbn; split; [auto | destruct (_ && _); auto]. Qed.
Lemma isclose_unit a b : Rabs a <= 1 -> Rabs b <= 1 -> isclose a b (/ 10 ^ 9) = true -> Rabs (a - b) <= / 10 ^ 9.
Proof.
  intros Ha Hb H; unfold isclose, leb in H; destruct (Rle_dec _ _) as [H0|] in H; [clear H|discriminate].
  eapply Rle_trans; [exact H0|]; apply Rmax_lub; [|lra].
  assert (Rmax (Rabs a) (Rabs b) <= 1) by (apply Rmax_lub; auto); lra.
Qed.
Lemma pt_eq_near p q : Rabs (ptx p) <= 1 -> Rabs (pty p) <= 1 -> Rabs (ptx q) <= 1 -> Rabs (pty q) <= 1 ->
  pt_eq p q = true -> Rabs (ptx p - ptx q) <= / 10 ^ 9 /\ Rabs (pty p - pty q) <= / 10 ^ 9.
Proof.
  intros H1 H2 H3 H4 H; unfold pt_eq in H; apply andb_true_iff in H as [Hx Hy].
  split; apply isclose_unit; auto.
Qed.

(** all cases on the x axis *)
Lemma pt_neq a b : -50 <= a <= 50 -> -50 <= b <= 50 -> / 10 ^ 4 <= Rabs (a - b) -> pt_eq (mkPt a 0) (mkPt b 0) = false.
Proof.
  intros Ha Hb H; destruct (Rle_dec a b).
  - apply pt_neq_x'; try (apply Rabs_le; lra). rewrite Rabs_left1 in H; lra.
  - apply pt_neq_x; try (apply Rabs_le; lra). rewrite Rabs_pos_eq in H; lra.
Qed.
Lemma xs_A a b : sA (xs a b) = mkPt a 0. Proof. reflexivity. Qed.
Lemma xs_B a b : sB (xs a b) = mkPt b 0. Proof. reflexivity. Qed.
Lemma touch_right a b d : -50 <= a -> d <= 50 -> a + / 10 ^ 4 <= b -> b + / 10 ^ 4 <= d ->
  par_inter (xs a b) (xs b d) = Some (IPoint (mkPt b 0)).
Proof.
  intros; unfold par_inter; rewrite xs_parallel, !xs_A, !xs_B.
  rewrite (xs_out a b d), (xs_in b b d), (xs_in b a b), (xs_out d a b) by lra; cbn [andb negb].
  rewrite pt_eq_refl; reflexivity.
Qed.
Lemma touch_left a b d : -50 <= a -> d <= 50 -> a + / 10 ^ 4 <= b -> b + / 10 ^ 4 <= d ->
  par_inter (xs b d) (xs a b) = Some (IPoint (mkPt b 0)).
Proof.
  intros; unfold par_inter; rewrite xs_parallel, !xs_A, !xs_B.
  rewrite (xs_out a b d), (xs_in b b d), (xs_in b a b), (xs_out d a b) by lra; cbn [andb negb].
  rewrite pt_eq_refl, orb_true_r; reflexivity.
Qed.
Lemma overlap_left a b c d : -50 <= a -> d <= 50 -> a + / 10 ^ 4 <= c -> c + / 10 ^ 3 < b -> b + / 10 ^ 4 <= d ->
  par_inter (xs c d) (xs a b) = Some (ISeg (xs c b)).
Proof.
  intros; unfold par_inter; rewrite xs_parallel, !xs_A, !xs_B.
  rewrite (xs_out a c d), (xs_in b c d), (xs_in c a b), (xs_out d a b) by lra; cbn [andb negb].
  rewrite (pt_neq c a), (pt_neq c b); try lra.
  2: rewrite Rabs_left1; lra. 2: rewrite Rabs_pos_eq; lra.
  cbn [orb]; unfold iseg, new_seg; rewrite xs_dist, Rabs_pos_eq, ltb_t by lra; reflexivity.
Qed.
Lemma apart a b c d : -50 <= a -> d <= 50 -> a < b -> c < d -> b + / 10 ^ 4 <= c ->
  par_inter (xs a b) (xs c d) = Some INone /\ par_inter (xs c d) (xs a b) = Some INone.
Proof.
  intros; unfold par_inter; rewrite !xs_parallel, !xs_A, !xs_B.
  rewrite (xs_out a c d), (xs_out b c d), (xs_out c a b), (xs_out d a b) by lra; split; reflexivity.
Qed.
Lemma inside a b c d : -50 <= a -> b <= 50 -> a + / 10 ^ 4 <= c -> c < d -> d + / 10 ^ 4 <= b ->
  par_inter (xs a b) (xs c d) = Some (ISeg (xs c d)) /\ par_inter (xs c d) (xs a b) = Some (ISeg (xs c d)).
Proof.
  intros; unfold par_inter; rewrite !xs_parallel, !xs_A, !xs_B.
  rewrite (xs_out a c d), (xs_out b c d), (xs_in c a b), (xs_in d a b) by lra; split; reflexivity.
Qed.
Lemma sticking_out a b c d : -50 <= a <= 50 -> -50 <= b <= 50 -> -50 <= c <= 50 -> -50 <= d <= 50 ->
  a + / 10 ^ 4 <= b -> c + / 10 ^ 4 <= d -> c + / 10 ^ 4 <= a \/ b + / 10 ^ 4 <= d -> contain (xs a b) (xs c d) = false.
Proof.
  intros Ha Hb Hc Hd H1 H2 H. unfold contain, seg_eq; rewrite !xs_A, !xs_B.
  assert (N1 : pt_eq (mkPt a 0) (mkPt c 0) && pt_eq (mkPt b 0) (mkPt d 0) = false).
  { apply andb_false_iff; destruct H as [H|H]; [left|right]; apply pt_neq; auto;
    [rewrite Rabs_pos_eq | rewrite Rabs_left1]; lra. }
  assert (N2 : pt_eq (mkPt a 0) (mkPt d 0) && pt_eq (mkPt b 0) (mkPt c 0) = false).
  { apply andb_false_iff. destruct (Rle_dec (/ 10 ^ 4) (Rabs (a - d))) as [N|N]; [left; apply pt_neq; auto|right].
    apply pt_neq; auto. assert (a - d < / 10 ^ 4 /\ - / 10 ^ 4 < a - d) by (split; apply Rnot_le_lt; intros X; apply N;
      [rewrite Rabs_pos_eq | rewrite Rabs_left1]; lra).
    rewrite Rabs_pos_eq; lra. }
  rewrite N1, N2. destruct H as [H|H].
  - rewrite (xs_out c a b) by lra; auto.
  - rewrite (xs_out d a b) by lra; destruct (on_seg _ _); auto.
Qed.
