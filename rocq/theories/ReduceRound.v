(** Reconstructed fields on mapped elements in 2-d. *)
From Coq Require Import List Arith Reals Lra Lia.
From Coquelicot Require Import Coquelicot.
From Verif Require Import MappingModel MappingSpec MappingProofs JacobianSpec JacobianModel JacobianProofs PolyModel PolySpec PolyProofs PolyCalc NdArray LocalNumberingModel IncidenceModel IncidenceSpec IncidenceThms TensorModel TensorSpec TensorAct TensorProofs TensorThms ReduceModel ReduceSpec ReduceProofs ReduceForms.
Import List ListNotations.
Local Open Scope R_scope.
Local Notation mat := MappingModel.mat.
Local Notation i0 := 0%nat.
Local Notation i1 := 1%nat.
Local Notation i2 := 2%nat.

(** * cochains with the same coefficients *)
Lemma same_coefs ln N l c : numbering_bijective ln N -> length l = N -> length c = N ->
  (forall m ix r, num ln m ix r -> rcoef (cochain l) ln m ix = rcoef (cochain c) ln m ix) -> l = c.
Proof.
  intros (_ & _ & B) Ll Lc H. apply (nth_ext _ _ 0 0); [congruence |]. intros r Hr. destruct (B r) as (m & ix & Nm); [congruence |].
  specialize (H m ix r Nm). rewrite !(rcoef_num _ _ _ _ _ Nm) in H. exact H.
Qed.
(** the cochain [d] is the matrix times the cochain [c] *)
Definition applied (E : IncidenceModel.mat) (N : nat) (c d : list R) : Prop := length d = N /\ forall r, (r < N)%nat -> nth r d 0 = apply E (cochain c) r.
Lemma applied_coef ln N E c d m ix r : numbering_bijective ln N -> applied E N c d -> num ln m ix r -> rcoef (cochain d) ln m ix = rcoef (apply E (cochain c)) ln m ix.
Proof. intros (B & _) [_ A] Nm. rewrite !(rcoef_num _ _ _ _ _ Nm). apply A. exact (B _ _ _ Nm). Qed.

(** * coefficients by rules *)
Lemma ps_form2_x x ln m bx by' y n : (forall i, (i < fst bx)%nat -> poly_of_size n (snd bx i)) -> poly_of_size n (fun t => form2 x ln m bx by' t y).
Proof.
  intros H. unfold form2. apply ps_total. intros i Hi. apply ps_total. intros j Hj.
  apply (ps_ext _ (fun t => (rcoef x ln m [i; j] * snd by' j y) * snd bx i t)); [intros; ring |]. now apply ps_scal, H.
Qed.
Lemma ps_form2_y x ln m bx by' y n : (forall i, (i < fst by')%nat -> poly_of_size n (snd by' i)) -> poly_of_size n (fun t => form2 x ln m bx by' y t).
Proof.
  intros H. unfold form2. apply ps_total. intros i Hi. apply ps_total. intros j Hj.
  apply (ps_ext _ (fun t => (rcoef x ln m [i; j] * snd bx i y) * snd by' j t)); [intros; ring |]. now apply ps_scal, H.
Qed.
Lemma ps_edges s i : nodes_ok s -> (i < fst (edges s))%nat -> poly_of_size (degree s) (snd (edges s) i).
Proof. intros [I L] H. apply ps_edge; [exact I | lia | exact H]. Qed.
Lemma coef_EN x ln m sx sy qx wx i j : nodes_ok sx -> nodes_ok sy -> exact_rule (degree sx) qx wx -> (i < degree sx)%nat -> (j < length sy)%nat ->
  rule_sum qx wx (node sx i) (node sx (S i)) (fun t => form2 x ln m (edges sx) (nodal sy) t (node sy j)) = rcoef x ln m [i; j].
Proof.
  intros Hx Hy H Hi Hj. eapply RInt_unique_R; [| exact (red_EN x ln m sx sy Hx Hy i j Hi Hj)].
  apply (rule_exact (degree sx)); [exact H |]. apply ps_form2_x. intros. now apply ps_edges.
Qed.
Lemma coef_NE x ln m sx sy qy wy i j : nodes_ok sx -> nodes_ok sy -> exact_rule (degree sy) qy wy -> (i < length sx)%nat -> (j < degree sy)%nat ->
  rule_sum qy wy (node sy j) (node sy (S j)) (fun t => form2 x ln m (nodal sx) (edges sy) (node sx i) t) = rcoef x ln m [i; j].
Proof.
  intros Hx Hy H Hi Hj. eapply RInt_unique_R; [| exact (red_NE x ln m sx sy Hx Hy i j Hi Hj)].
  apply (rule_exact (degree sy)); [exact H |]. apply ps_form2_y. intros. now apply ps_edges.
Qed.
Lemma coef_EE x ln m sx sy qx wx qy wy i j : nodes_ok sx -> nodes_ok sy -> exact_rule (degree sx) qx wx -> exact_rule (degree sy) qy wy -> (i < degree sx)%nat -> (j < degree sy)%nat ->
  rule_sum2 qx wx qy wy (node sx i) (node sx (S i)) (node sy j) (node sy (S j)) (form2 x ln m (edges sx) (edges sy)) = rcoef x ln m [i; j].
Proof.
  intros Hx Hy H H' Hi Hj. eapply integral2_unique; [| exact (red_EE x ln m sx sy Hx Hy i j Hi Hj)].
  apply (rule2_exact (degree sx) (degree sy)); [exact H | exact H' | |]; intros; [apply ps_form2_x | apply ps_form2_y]; intros; now apply ps_edges.
Qed.

(** * arrays of physical components *)
Lemma points2_nth xi et a b : (a < length xi)%nat -> (b < length et)%nat -> nth (a + length xi * b) (points2 xi et) (0, 0) = (nth a xi 0, nth b et 0).
Proof. intros Ha Hb. unfold points2. rewrite (rows_nth _ (length xi)); [| intros; apply map_length | assumption..]. now rewrite map_nth_lt. Qed.
Lemma vector2_grid push J xi et u v fu fv : grid2 u xi et fu -> grid2 v xi et fv ->
  exists a b, rc_vector2 push J xi et (Some [u; v]) = Some [a; b] /\
    grid2 a xi et (fun x y => fst (push (inverse 2 (J x y)) (fu x y, fv x y))) /\
    grid2 b xi et (fun x y => snd (push (inverse 2 (J x y)) (fu x y, fv x y))).
Proof.
  intros [Lu Gu] [Lv Gv]. eexists _, _. split; [reflexivity |]. unfold grid2, at_2d in *.
  split; (split; [now rewrite map_length, seq_length |]); intros p q Hp Hq;
    (rewrite nth_map_seq by (rewrite Lu; now apply grid_lt)); rewrite points2_nth, Gu, Gv by assumption; reflexivity.
Qed.
Lemma density2_grid J xi et u fu : grid2 u xi et fu ->
  exists a, rc_density2 J xi et (Some [u]) = Some [a] /\
    grid2 a xi et (fun x y => fu x y * match jac_inv_det 2 (J x y) with Some d => d | None => 0 end).
Proof.
  intros [Lu Gu]. eexists _. split; [reflexivity |]. unfold grid2, at_2d in *.
  split; [now rewrite map_length, seq_length |]. intros p q Hp Hq.
  rewrite nth_map_seq by (rewrite Lu; now apply grid_lt). rewrite points2_nth, Gu by assumption. reflexivity.
Qed.
Lemma grid2_point v x y f : grid2 v [x] [y] f -> v = [f x y].
Proof. intros [L G]. specialize (G i0 i0 ltac:(cbn; lia) ltac:(cbn; lia)). destruct v as [| a [| b v]]; cbn in L; try lia. cbn in G. now rewrite G. Qed.

Lemma push_inner_cancel M u v : determinant 2 M <> 0 -> let p := push_inner2 (inverse 2 M) (u, v) in
  M i0 i0 * fst p + M i1 i0 * snd p = u /\ M i0 i1 * fst p + M i1 i1 * snd p = v.
Proof. rewrite det_expand2. intros D. unfold inverse, jac_inv, push_inner2, mat2. cbn [nth fst snd]. split; field; exact D. Qed.
Lemma push_outer_cancel M u v : determinant 2 M <> 0 -> let p := push_outer2 (inverse 2 M) (u, v) in
  M i1 i1 * fst p - M i0 i1 * snd p = u /\ M i0 i0 * snd p - M i1 i0 * fst p = v.
Proof. rewrite det_expand2. intros D. unfold inverse, jac_inv, push_outer2, mat2. cbn [nth fst snd]. split; field; exact D. Qed.
Lemma inv_det2 M : determinant 2 M <> 0 -> exists d, jac_inv_det 2 M = Some d /\ d * determinant 2 M = 1.
Proof. intros D. rewrite jac_inv_det_spec by (lia || exact D). eexists. split; [reflexivity |]. field. exact D. Qed.

Lemma inner_point J sx sy c x y a b : nodes_ok sx -> nodes_ok sy -> length c = nd_m2n2k1 (degree sx) (degree sy) -> determinant 2 (J x y) <> 0 ->
  rc_vector2 push_inner2 J [x] [y] (rc_m2n2k1_inner sx sy [x] [y] c) = Some [[a]; [b]] ->
  let ln := ln_m2n2k1_inner (degree sx) (degree sy) in
  J x y i0 i0 * a + J x y i1 i0 * b = form2 (cochain c) ln 0 (edges sx) (nodal sy) x y /\ J x y i0 i1 * a + J x y i1 i1 * b = form2 (cochain c) ln 1 (nodal sx) (edges sy) x y.
Proof.
  intros Hx Hy Lc D E ln. destruct (rc_2d_k1_inner sx sy [x] [y] c Hx Hy Lc) as (u & v & Er & Gu & Gv). rewrite Er in E.
  destruct (vector2_grid push_inner2 J [x] [y] u v _ _ Gu Gv) as (p & q & Eq & Gp & Gq). rewrite Eq in E. apply grid2_point in Gp, Gq. subst p q. injection E as <- <-.
  apply push_inner_cancel. exact D.
Qed.
Lemma outer_point J sx sy c x y a b : nodes_ok sx -> nodes_ok sy -> length c = nd_m2n2k1 (degree sx) (degree sy) -> determinant 2 (J x y) <> 0 ->
  rc_vector2 push_outer2 J [x] [y] (rc_m2n2k1_outer sx sy [x] [y] c) = Some [[a]; [b]] ->
  let ln := ln_m2n2k1_outer (degree sx) (degree sy) in
  J x y i1 i1 * a - J x y i0 i1 * b = form2 (cochain c) ln 0 (nodal sx) (edges sy) x y /\ J x y i0 i0 * b - J x y i1 i0 * a = form2 (cochain c) ln 1 (edges sx) (nodal sy) x y.
Proof.
  intros Hx Hy Lc D E ln. destruct (rc_2d_k1_outer sx sy [x] [y] c Hx Hy Lc) as (u & v & Er & Gu & Gv). rewrite Er in E.
  destruct (vector2_grid push_outer2 J [x] [y] u v _ _ Gu Gv) as (p & q & Eq & Gp & Gq). rewrite Eq in E. apply grid2_point in Gp, Gq. subst p q. injection E as <- <-.
  apply push_outer_cancel. exact D.
Qed.
Lemma density_point J sx sy c x y a : nodes_ok sx -> nodes_ok sy -> length c = nd_m2n2k2 (degree sx) (degree sy) -> determinant 2 (J x y) <> 0 ->
  rc_density2 J [x] [y] (rc_m2n2k2 sx sy [x] [y] c) = Some [[a]] ->
  a * determinant 2 (J x y) = form2 (cochain c) (ln_m2n2k2 (degree sx) (degree sy)) 0 (edges sx) (edges sy) x y.
Proof.
  intros Hx Hy Lc D E. destruct (rc_2d_k2 sx sy [x] [y] c Hx Hy Lc) as (u & Er & Gu). rewrite Er in E.
  destruct (density2_grid J [x] [y] u _ Gu) as (p & Eq & Gp). rewrite Eq in E. apply grid2_point in Gp. subst p.
  destruct (inv_det2 _ D) as (d & Ed & Hd). rewrite Ed in E. injection E as <-. rewrite Rmult_assoc, Hd. ring.
Qed.
Lemma scalar_point sx sy c x y a : nodes_ok sx -> nodes_ok sy -> length c = nd_m2n2k0 (degree sx) (degree sy) ->
  rc_m2n2k0 sx sy [x] [y] c = Some [[a]] -> a = form2 (cochain c) (ln_m2n2k0 (degree sx) (degree sy)) 0 (nodal sx) (nodal sy) x y.
Proof.
  intros Hx Hy Lc E. destruct (rc_2d_k0 sx sy [x] [y] c Hx Hy Lc) as (u & Er & Gu). rewrite Er in E. apply grid2_point in Gu. subst u. now injection E as <-.
Qed.

(** * what reconstruction computes on a grid *)
Lemma inner_grid phi J sx sy xi et c vx vy : nodes_ok sx -> nodes_ok sy -> length c = nd_m2n2k1 (degree sx) (degree sy) -> smooth2 phi J -> moves2 phi vx vy ->
  exists a b, rc_vector2 push_inner2 J xi et (rc_m2n2k1_inner sx sy xi et c) = Some [a; b] /\ length a = (length xi * length et)%nat /\ length b = (length xi * length et)%nat /\
    forall p q x y, nth_error xi p = Some x -> nth_error et q = Some y -> ref x -> ref y -> determinant 2 (J x y) <> 0 ->
      let F := (at_2d a (length xi) p q, at_2d b (length xi) p q) in let ln := ln_m2n2k1_inner (degree sx) (degree sy) in
      along2 F (vx x y) = form2 (cochain c) ln 0 (edges sx) (nodal sy) x y /\ along2 F (vy x y) = form2 (cochain c) ln 1 (nodal sx) (edges sy) x y.
Proof.
  intros Hx Hy Lc HS HM. destruct (rc_2d_k1_inner sx sy xi et c Hx Hy Lc) as (u & v & Er & Gu & Gv). rewrite Er.
  destruct (vector2_grid push_inner2 J xi et u v _ _ Gu Gv) as (a & b & Eq & [La Ga] & [Lb Gb]). exists a, b. split; [exact Eq |]. split; [exact La |]. split; [exact Lb |].
  intros p q x y Hp Hq Rx Ry D F ln. destruct (columns2 phi J vx vy x y HS HM Rx Ry) as [-> ->].
  assert (Lp : (p < length xi)%nat) by (apply nth_error_Some; congruence). assert (Lq : (q < length et)%nat) by (apply nth_error_Some; congruence).
  unfold F, along2. cbn [fst snd]. rewrite Ga, Gb by assumption. rewrite (nth_error_nth _ _ _ Hp), (nth_error_nth _ _ _ Hq).
  destruct (push_inner_cancel (J x y) (form2 (cochain c) ln 0 (edges sx) (nodal sy) x y) (form2 (cochain c) ln 1 (nodal sx) (edges sy) x y) D) as [A B].
  unfold ln in *. split; [etransitivity; [| exact A] | etransitivity; [| exact B]]; cbv beta zeta; cbn [fst snd]; ring.
Qed.
Lemma outer_grid phi J sx sy xi et c vx vy : nodes_ok sx -> nodes_ok sy -> length c = nd_m2n2k1 (degree sx) (degree sy) -> smooth2 phi J -> moves2 phi vx vy ->
  exists a b, rc_vector2 push_outer2 J xi et (rc_m2n2k1_outer sx sy xi et c) = Some [a; b] /\ length a = (length xi * length et)%nat /\ length b = (length xi * length et)%nat /\
    forall p q x y, nth_error xi p = Some x -> nth_error et q = Some y -> ref x -> ref y -> determinant 2 (J x y) <> 0 ->
      let F := (at_2d a (length xi) p q, at_2d b (length xi) p q) in let ln := ln_m2n2k1_outer (degree sx) (degree sy) in
      to_right F (vy x y) = form2 (cochain c) ln 0 (nodal sx) (edges sy) x y /\ to_left F (vx x y) = form2 (cochain c) ln 1 (edges sx) (nodal sy) x y.
Proof.
  intros Hx Hy Lc HS HM. destruct (rc_2d_k1_outer sx sy xi et c Hx Hy Lc) as (u & v & Er & Gu & Gv). rewrite Er.
  destruct (vector2_grid push_outer2 J xi et u v _ _ Gu Gv) as (a & b & Eq & [La Ga] & [Lb Gb]). exists a, b. split; [exact Eq |]. split; [exact La |]. split; [exact Lb |].
  intros p q x y Hp Hq Rx Ry D F ln. destruct (columns2 phi J vx vy x y HS HM Rx Ry) as [-> ->].
  assert (Lp : (p < length xi)%nat) by (apply nth_error_Some; congruence). assert (Lq : (q < length et)%nat) by (apply nth_error_Some; congruence).
  unfold F, to_left, to_right. cbn [fst snd]. rewrite Ga, Gb by assumption. rewrite (nth_error_nth _ _ _ Hp), (nth_error_nth _ _ _ Hq).
  destruct (push_outer_cancel (J x y) (form2 (cochain c) ln 0 (nodal sx) (edges sy) x y) (form2 (cochain c) ln 1 (edges sx) (nodal sy) x y) D) as [A B].
  unfold ln in *. split; [etransitivity; [| exact A] | etransitivity; [| exact B]]; cbv beta zeta; cbn [fst snd]; ring.
Qed.
Lemma det_area phi J vx vy x y : smooth2 phi J -> moves2 phi vx vy -> ref x -> ref y -> area2 (vx x y) (vy x y) = determinant 2 (J x y).
Proof. intros HS HM Rx Ry. destruct (columns2 phi J vx vy x y HS HM Rx Ry) as [-> ->]. rewrite det_expand2. unfold area2. cbn. ring. Qed.
Lemma density_grid phi J sx sy xi et c vx vy : nodes_ok sx -> nodes_ok sy -> length c = nd_m2n2k2 (degree sx) (degree sy) -> smooth2 phi J -> moves2 phi vx vy ->
  exists a, rc_density2 J xi et (rc_m2n2k2 sx sy xi et c) = Some [a] /\ length a = (length xi * length et)%nat /\
    forall p q x y, nth_error xi p = Some x -> nth_error et q = Some y -> ref x -> ref y -> determinant 2 (J x y) <> 0 ->
      at_2d a (length xi) p q * area2 (vx x y) (vy x y) = form2 (cochain c) (ln_m2n2k2 (degree sx) (degree sy)) 0 (edges sx) (edges sy) x y.
Proof.
  intros Hx Hy Lc HS HM. destruct (rc_2d_k2 sx sy xi et c Hx Hy Lc) as (u & Er & Gu). rewrite Er.
  destruct (density2_grid J xi et u _ Gu) as (a & Eq & [La Ga]). exists a. split; [exact Eq |]. split; [exact La |].
  intros p q x y Hp Hq Rx Ry D. rewrite (det_area phi J vx vy x y HS HM Rx Ry).
  assert (Lp : (p < length xi)%nat) by (apply nth_error_Some; congruence). assert (Lq : (q < length et)%nat) by (apply nth_error_Some; congruence).
  rewrite Ga by assumption. rewrite (nth_error_nth _ _ _ Hp), (nth_error_nth _ _ _ Hq). destruct (inv_det2 _ D) as (d & -> & Hd). rewrite Rmult_assoc, Hd. ring.
Qed.

(** * reduction of a reconstructed field *)
Section Round.
Variables (phi : R -> R -> pt2) (J : R -> R -> mat) (sx sy qx wx qy wy c : list R).
Hypotheses (Hx : nodes_ok sx) (Hy : nodes_ok sy) (Rx : in_reference sx) (Ry : in_reference sy)
  (PX : proper_rule (degree sx) qx wx) (PY : proper_rule (degree sy) qy wy)
  (D : forall x y, ref x -> ref y -> determinant 2 (J x y) <> 0).
Ltac refs := first [eapply ref_edge; cycle 3; [eassumption | assumption | assumption | assumption] | apply ref_node; [assumption | unfold degree in *; destruct Hx, Hy; lia]].
Ltac deg2 := destruct (deg_len sx Hx) as [Dx _]; destruct (deg_len sy Hy) as [Dy _]; destruct PX as (LX & QX & EX); destruct PY as (LY & QY & EY).
Lemma nums2 l m ix r a0 a1 b0 I0 J0 b1 I1 J1 : l = [a0; a1] -> a0 = mk_arr b0 [I0; J0] -> a1 = mk_arr b1 [I1; J1] -> num (Some l) m ix r ->
  (exists i j, m = 0%nat /\ ix = [i; j] /\ (i < I0)%nat /\ (j < J0)%nat /\ r = (b0 + (i + I0 * j))%nat) \/
  (exists i j, m = 1%nat /\ ix = [i; j] /\ (i < I1)%nat /\ (j < J1)%nat /\ r = (b1 + (i + I1 * j))%nat).
Proof.
  intros -> -> -> Nm. destruct m as [| [| m]].
  - left. apply (num2_iff _ 0 b0 I0 J0) in Nm; [| reflexivity]. destruct Nm as (i & j & H). exists i, j. tauto.
  - right. apply (num2_iff _ 1 b1 I1 J1) in Nm; [| reflexivity]. destruct Nm as (i & j & H). exists i, j. tauto.
  - destruct Nm as (l' & a & [= <-] & Hn & _). cbn in Hn. destruct m; discriminate.
Qed.
Lemma nums1 l m ix r a0 b0 I0 J0 : l = [a0] -> a0 = mk_arr b0 [I0; J0] -> num (Some l) m ix r ->
  (exists i j, m = 0%nat /\ ix = [i; j] /\ (i < I0)%nat /\ (j < J0)%nat /\ r = (b0 + (i + I0 * j))%nat).
Proof.
  intros -> -> Nm. destruct m as [| m].
  - apply (num2_iff _ 0 b0 I0 J0) in Nm; [| reflexivity]. destruct Nm as (i & j & H). exists i, j. tauto.
  - destruct Nm as (l' & a & [= <-] & Hn & _). cbn in Hn. destruct m; discriminate.
Qed.
Lemma inner_round F : length c = nd_m2n2k1 (degree sx) (degree sy) ->
  (forall x y, ref x -> ref y -> rc_vector2 push_inner2 J [x] [y] (rc_m2n2k1_inner sx sy [x] [y] c) = Some [[fst (F (phi x y))]; [snd (F (phi x y))]]) ->
  rd_m2n2k1_inner phi J F sx sy qx wx qy wy = c.
Proof.
  intros Lc H. deg2. assert (B := bij_m2n2k1i (degree sx) (degree sy)). apply (same_coefs _ _ _ _ B); [| exact Lc |].
  { unfold rd_m2n2k1_inner, nd_m2n2k1. rewrite app_length, inner_dx_len, inner_dy_len. lia. }
  intros m ix r Nm. rewrite ln_m2n2k1_inner_eq in Nm |- *.
  destruct (nums2 _ m ix r _ _ _ _ _ _ _ _ eq_refl eq_refl eq_refl Nm) as [(i & j & -> & -> & Hi & Hj & _) | (i & j & -> & -> & Hi & Hj & _)].
  - rewrite <- (coef_EN (cochain c) _ _ sx sy qx wx) by (assumption || lia). rewrite (rcoef2 _ _ 0 0 (degree sx) (degree sy + 1)) by (reflexivity || lia). unfold rd_m2n2k1_inner. cbn [Nat.add].
    rewrite app_nth1 by (rewrite inner_dx_len; apply grid_lt; lia).
    change (rd_inner_dx phi J F sx sy qx wx) with (reduce2 (prep2_x sx sy qx) (fun x y => let M := J x y in let '(u, v) := F (phi x y) in M i0 i0 * u + M i1 i0 * v) wx).
    rewrite (reduce2_x sx sy qx wx Hx Hy LX) by lia. apply rule_sum_ext; [exact LX | exact QX | now apply node_le |]. intros t Ht.
    destruct (inner_point J sx sy c t (node sy j) _ _ Hx Hy Lc (D t (node sy j) ltac:(refs) ltac:(refs)) (H t (node sy j) ltac:(refs) ltac:(refs))) as [A _].
    rewrite ln_m2n2k1_inner_eq in A. rewrite <- A. cbv zeta. destruct (F _). reflexivity.
  - rewrite <- (coef_NE (cochain c) _ _ sx sy qy wy) by (assumption || lia). rewrite (rcoef2 _ _ 1 (degree sx * (degree sy + 1)) (degree sx + 1) (degree sy)) by (reflexivity || lia). unfold rd_m2n2k1_inner.
    rewrite app_nth2 by (rewrite inner_dx_len; lia). rewrite inner_dx_len. replace (_ + _ - _)%nat with (i + (degree sx + 1) * j)%nat by lia.
    change (rd_inner_dy phi J F sx sy qy wy) with (reduce2 (prep2_y sx sy qy) (fun x y => let M := J x y in let '(u, v) := F (phi x y) in M i0 i1 * u + M i1 i1 * v) wy).
    rewrite (reduce2_y sx sy qy wy Hx Hy LY) by lia. apply rule_sum_ext; [exact LY | exact QY | now apply node_le |]. intros t Ht.
    destruct (inner_point J sx sy c (node sx i) t _ _ Hx Hy Lc (D (node sx i) t ltac:(refs) ltac:(refs)) (H (node sx i) t ltac:(refs) ltac:(refs))) as [_ A].
    rewrite ln_m2n2k1_inner_eq in A. rewrite <- A. cbv zeta. destruct (F _). reflexivity.
Qed.
Lemma outer_round F : length c = nd_m2n2k1 (degree sx) (degree sy) ->
  (forall x y, ref x -> ref y -> rc_vector2 push_outer2 J [x] [y] (rc_m2n2k1_outer sx sy [x] [y] c) = Some [[fst (F (phi x y))]; [snd (F (phi x y))]]) ->
  rd_m2n2k1_outer phi J F sx sy qx wx qy wy = c.
Proof.
  intros Lc H. deg2. assert (B := bij_m2n2k1o (degree sx) (degree sy)). apply (same_coefs _ _ _ _ B); [| exact Lc |].
  { unfold rd_m2n2k1_outer, nd_m2n2k1. rewrite app_length, outer_dx_len, outer_dy_len. lia. }
  intros m ix r Nm. rewrite ln_m2n2k1_outer_eq in Nm |- *.
  destruct (nums2 _ m ix r _ _ _ _ _ _ _ _ eq_refl eq_refl eq_refl Nm) as [(i & j & -> & -> & Hi & Hj & _) | (i & j & -> & -> & Hi & Hj & _)].
  - rewrite <- (coef_NE (cochain c) _ _ sx sy qy wy) by (assumption || lia). rewrite (rcoef2 _ _ 0 0 (degree sx + 1) (degree sy)) by (reflexivity || lia). unfold rd_m2n2k1_outer. cbn [Nat.add].
    rewrite app_nth1 by (rewrite outer_dy_len; apply grid_lt; lia).
    change (rd_outer_dy phi J F sx sy qy wy) with (reduce2 (prep2_y sx sy qy) (fun x y => let M := J x y in let '(u, v) := F (phi x y) in - (M i0 i1) * v + M i1 i1 * u) wy).
    rewrite (reduce2_y sx sy qy wy Hx Hy LY) by lia. apply rule_sum_ext; [exact LY | exact QY | now apply node_le |]. intros t Ht.
    destruct (outer_point J sx sy c (node sx i) t _ _ Hx Hy Lc (D (node sx i) t ltac:(refs) ltac:(refs)) (H (node sx i) t ltac:(refs) ltac:(refs))) as [A _].
    rewrite ln_m2n2k1_outer_eq in A. rewrite <- A. cbv zeta. destruct (F _). cbn [fst snd]. ring.
  - rewrite <- (coef_EN (cochain c) _ _ sx sy qx wx) by (assumption || lia). rewrite (rcoef2 _ _ 1 ((degree sx + 1) * degree sy) (degree sx) (degree sy + 1)) by (reflexivity || lia). unfold rd_m2n2k1_outer.
    rewrite app_nth2 by (rewrite outer_dy_len; lia). rewrite outer_dy_len. replace (_ + _ - _)%nat with (i + degree sx * j)%nat by lia.
    change (rd_outer_dx phi J F sx sy qx wx) with (reduce2 (prep2_x sx sy qx) (fun x y => let M := J x y in let '(u, v) := F (phi x y) in M i0 i0 * v - M i1 i0 * u) wx).
    rewrite (reduce2_x sx sy qx wx Hx Hy LX) by lia. apply rule_sum_ext; [exact LX | exact QX | now apply node_le |]. intros t Ht.
    destruct (outer_point J sx sy c t (node sy j) _ _ Hx Hy Lc (D t (node sy j) ltac:(refs) ltac:(refs)) (H t (node sy j) ltac:(refs) ltac:(refs))) as [_ A].
    rewrite ln_m2n2k1_outer_eq in A. rewrite <- A. cbv zeta. destruct (F _). reflexivity.
Qed.
Lemma k2_round det f : length c = nd_m2n2k2 (degree sx) (degree sy) -> (forall x y, jac_det 2 (J x y) = Some (det x y)) ->
  (forall x y, ref x -> ref y -> rc_density2 J [x] [y] (rc_m2n2k2 sx sy [x] [y] c) = Some [[f (phi x y)]]) ->
  rd_m2n2k2 phi det f sx sy qx wx qy wy = c.
Proof.
  intros Lc Hd H. deg2. assert (B := bij_m2n2k2 (degree sx) (degree sy)). destruct (k2_2_entries phi det f sx sy qx wx qy wy Hx Hy) as [L E].
  apply (same_coefs _ _ _ _ B); [exact L | exact Lc |]. intros m ix r Nm. assert (Nm' := Nm). rewrite ln_m2n2k2_eq in Nm'.
  destruct (nums1 _ m ix r _ _ _ _ eq_refl eq_refl Nm') as (i & j & -> & -> & Hi & Hj & _).
  rewrite E by assumption. rewrite <- (coef_EE (cochain c) _ _ sx sy qx wx qy wy) by assumption.
  apply rule_sum2_ext; try assumption; try (now apply node_le). intros x y Tx Ty.
  rewrite <- (density_point J sx sy c x y (f (phi x y))); [| assumption.. | apply D; refs | apply H; refs].
  specialize (Hd x y). cbn in Hd. injection Hd as <-. now rewrite det_expand2.
Qed.
Lemma k0_round f : length c = nd_m2n2k0 (degree sx) (degree sy) ->
  (forall x y, ref x -> ref y -> rc_m2n2k0 sx sy [x] [y] c = Some [[f (phi x y)]]) -> rd_m2n2k0 phi f sx sy = c.
Proof.
  intros Lc H. deg2. assert (B := bij_m2n2k0 (degree sx) (degree sy)). destruct (k0_2_entries phi f sx sy Hx Hy) as [L E].
  apply (same_coefs _ _ _ _ B); [exact L | exact Lc |]. intros m ix r Nm. assert (Nm' := Nm). rewrite ln_m2n2k0_eq in Nm'.
  destruct (nums1 _ m ix r _ _ _ _ eq_refl eq_refl Nm') as (i & j & -> & -> & Hi & Hj & _).
  rewrite E by lia. rewrite (scalar_point sx sy c (node sx i) (node sy j) _ Hx Hy Lc (H (node sx i) (node sy j) ltac:(refs) ltac:(refs))).
  apply red_NN; assumption || lia.
Qed.
End Round.
