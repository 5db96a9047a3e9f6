(** Reconstructed fields on mapped elements in 3-d. *)
From Coq Require Import List Arith Reals Lra Lia.
From Coquelicot Require Import Coquelicot.
From Verif Require Import MappingModel MappingSpec MappingProofs JacobianSpec JacobianModel JacobianProofs PolyModel PolySpec PolyProofs PolyCalc NdArray LocalNumberingModel IncidenceModel IncidenceSpec IncidenceThms TensorModel TensorSpec TensorAct TensorProofs TensorThms ReduceModel ReduceSpec ReduceProofs ReduceForms ReduceRound ReduceStokes ReduceThree.
Import List ListNotations.
Local Open Scope R_scope.
Local Notation mat := MappingModel.mat.
Local Notation i0 := 0%nat.
Local Notation i1 := 1%nat.
Local Notation i2 := 2%nat.

(** * coefficients by rules *)
Lemma ps_form3 x ln m bx by' bz n :
  ((forall i, (i < fst bx)%nat -> poly_of_size n (snd bx i)) -> forall a b, poly_of_size n (fun t => form3 x ln m bx by' bz t a b)) /\
  ((forall i, (i < fst by')%nat -> poly_of_size n (snd by' i)) -> forall a b, poly_of_size n (fun t => form3 x ln m bx by' bz a t b)) /\
  ((forall i, (i < fst bz)%nat -> poly_of_size n (snd bz i)) -> forall a b, poly_of_size n (fun t => form3 x ln m bx by' bz a b t)).
Proof.
  refine (conj _ (conj _ _)); intros H a b; unfold form3; apply ps_total; intros i Hi; apply ps_total; intros j Hj; apply ps_total; intros k Hk.
  - apply (ps_ext _ (fun t => (rcoef x ln m [i; j; k] * snd by' j a * snd bz k b) * snd bx i t)); [intros; ring |]. now apply ps_scal, H.
  - apply (ps_ext _ (fun t => (rcoef x ln m [i; j; k] * snd bx i a * snd bz k b) * snd by' j t)); [intros; ring |]. now apply ps_scal, H.
  - apply (ps_ext _ (fun t => (rcoef x ln m [i; j; k] * snd bx i a * snd by' j b) * snd bz k t)); [intros; ring |]. now apply ps_scal, H.
Qed.
Section Coefs.
Variables (x : nat -> R) (ln : option (list arr)) (m : nat) (sx sy sz qx wx qy wy qz wz : list R).
Hypotheses (Hx : nodes_ok sx) (Hy : nodes_ok sy) (Hz : nodes_ok sz).
Hypotheses (EX : exact_rule (degree sx) qx wx) (EY : exact_rule (degree sy) qy wy) (EZ : exact_rule (degree sz) qz wz).
Ltac pse n := intros; first [apply (proj1 (ps_form3 _ _ _ _ _ _ n)); intros; now apply ps_edges | apply (proj1 (proj2 (ps_form3 _ _ _ _ _ _ n))); intros; now apply ps_edges | apply (proj2 (proj2 (ps_form3 _ _ _ _ _ _ n))); intros; now apply ps_edges].
Lemma coef_ENN i j k : (i < degree sx)%nat -> (j < length sy)%nat -> (k < length sz)%nat ->
  rule_sum qx wx (node sx i) (node sx (S i)) (fun t => form3 x ln m (edges sx) (nodal sy) (nodal sz) t (node sy j) (node sz k)) = rcoef x ln m [i; j; k].
Proof. intros Hi Hj Hk. eapply RInt_unique_R; [| exact (red_ENN x ln m sx sy sz Hx Hy Hz i j k Hi Hj Hk)]. apply (rule_exact (degree sx)); [exact EX | pse (degree sx)]. Qed.
Lemma coef_NEN i j k : (i < length sx)%nat -> (j < degree sy)%nat -> (k < length sz)%nat ->
  rule_sum qy wy (node sy j) (node sy (S j)) (fun t => form3 x ln m (nodal sx) (edges sy) (nodal sz) (node sx i) t (node sz k)) = rcoef x ln m [i; j; k].
Proof. intros Hi Hj Hk. eapply RInt_unique_R; [| exact (red_NEN x ln m sx sy sz Hx Hy Hz i j k Hi Hj Hk)]. apply (rule_exact (degree sy)); [exact EY | pse (degree sy)]. Qed.
Lemma coef_NNE i j k : (i < length sx)%nat -> (j < length sy)%nat -> (k < degree sz)%nat ->
  rule_sum qz wz (node sz k) (node sz (S k)) (fun t => form3 x ln m (nodal sx) (nodal sy) (edges sz) (node sx i) (node sy j) t) = rcoef x ln m [i; j; k].
Proof. intros Hi Hj Hk. eapply RInt_unique_R; [| exact (red_NNE x ln m sx sy sz Hx Hy Hz i j k Hi Hj Hk)]. apply (rule_exact (degree sz)); [exact EZ | pse (degree sz)]. Qed.
Lemma coef_NEE i j k : (i < length sx)%nat -> (j < degree sy)%nat -> (k < degree sz)%nat ->
  rule_sum2 qy wy qz wz (node sy j) (node sy (S j)) (node sz k) (node sz (S k)) (fun y z => form3 x ln m (nodal sx) (edges sy) (edges sz) (node sx i) y z) = rcoef x ln m [i; j; k].
Proof. intros Hi Hj Hk. eapply integral2_unique; [| exact (red_NEE x ln m sx sy sz Hx Hy Hz i j k Hi Hj Hk)]. apply (rule2_exact (degree sy) (degree sz)); [exact EY | exact EZ | pse (degree sy) | pse (degree sz)]. Qed.
Lemma coef_ENE i j k : (i < degree sx)%nat -> (j < length sy)%nat -> (k < degree sz)%nat ->
  rule_sum2 qx wx qz wz (node sx i) (node sx (S i)) (node sz k) (node sz (S k)) (fun t z => form3 x ln m (edges sx) (nodal sy) (edges sz) t (node sy j) z) = rcoef x ln m [i; j; k].
Proof. intros Hi Hj Hk. eapply integral2_unique; [| exact (red_ENE x ln m sx sy sz Hx Hy Hz i j k Hi Hj Hk)]. apply (rule2_exact (degree sx) (degree sz)); [exact EX | exact EZ | pse (degree sx) | pse (degree sz)]. Qed.
Lemma coef_EEN i j k : (i < degree sx)%nat -> (j < degree sy)%nat -> (k < length sz)%nat ->
  rule_sum2 qx wx qy wy (node sx i) (node sx (S i)) (node sy j) (node sy (S j)) (fun t y => form3 x ln m (edges sx) (edges sy) (nodal sz) t y (node sz k)) = rcoef x ln m [i; j; k].
Proof. intros Hi Hj Hk. eapply integral2_unique; [| exact (red_EEN x ln m sx sy sz Hx Hy Hz i j k Hi Hj Hk)]. apply (rule2_exact (degree sx) (degree sy)); [exact EX | exact EY | pse (degree sx) | pse (degree sy)]. Qed.
Lemma coef_EEE i j k : (i < degree sx)%nat -> (j < degree sy)%nat -> (k < degree sz)%nat ->
  rule_sum3 qx wx qy wy qz wz (node sx i) (node sx (S i)) (node sy j) (node sy (S j)) (node sz k) (node sz (S k)) (form3 x ln m (edges sx) (edges sy) (edges sz)) = rcoef x ln m [i; j; k].
Proof.
  intros Hi Hj Hk. eapply integral3_unique; [| exact (red_EEE x ln m sx sy sz Hx Hy Hz i j k Hi Hj Hk)].
  apply (rule3_exact (degree sx) (degree sy) (degree sz)); [exact EX | exact EY | exact EZ | pse (degree sx) | pse (degree sy) | pse (degree sz)].
Qed.
End Coefs.

(** * arrays of physical components *)
Lemma points3_nth xi et sg a b k : (a < length xi)%nat -> (b < length et)%nat -> (k < length sg)%nat ->
  nth (a + length xi * (b + length et * k)) (points3 xi et sg) (0, 0, 0) = (nth a xi 0, nth b et 0, nth k sg 0).
Proof.
  intros Ha Hb Hk. unfold points3. replace (a + length xi * (b + length et * k))%nat with ((a + length xi * b) + (length xi * length et) * k)%nat by ring.
  rewrite (rows_nth _ (length xi * length et)); [| | now apply grid_lt | assumption].
  - rewrite (rows_nth _ (length xi)); [| intros; apply map_length | assumption..]. now rewrite map_nth_lt.
  - intros. rewrite (rows_len _ (length xi)) by (intros; apply map_length). reflexivity.
Qed.
Lemma vector3_grid push J xi et sg u v w fu fv fw : grid3 u xi et sg fu -> grid3 v xi et sg fv -> grid3 w xi et sg fw ->
  exists a b c, rc_vector3 push J xi et sg (Some [u; v; w]) = Some [a; b; c] /\
    grid3 a xi et sg (fun x y z => fst (fst (push (inverse 3 (J x y z)) (fu x y z, fv x y z, fw x y z)))) /\
    grid3 b xi et sg (fun x y z => snd (fst (push (inverse 3 (J x y z)) (fu x y z, fv x y z, fw x y z)))) /\
    grid3 c xi et sg (fun x y z => snd (push (inverse 3 (J x y z)) (fu x y z, fv x y z, fw x y z))).
Proof.
  intros [Lu Gu] [Lv Gv] [Lw Gw]. eexists _, _, _. split; [reflexivity |]. unfold grid3, at_3d in *.
  refine (conj _ (conj _ _)); (split; [now rewrite map_length, seq_length |]); intros p q r Hp Hq Hr;
    (rewrite nth_map_seq by (rewrite Lu; now apply lt3)); rewrite points3_nth, Gu, Gv, Gw by assumption; reflexivity.
Qed.
Lemma density3_grid J xi et sg u fu : grid3 u xi et sg fu ->
  exists a, rc_density3 J xi et sg (Some [u]) = Some [a] /\
    grid3 a xi et sg (fun x y z => fu x y z * match jac_inv_det 3 (J x y z) with Some d => d | None => 0 end).
Proof.
  intros [Lu Gu]. eexists _. split; [reflexivity |]. unfold grid3, at_3d in *.
  split; [now rewrite map_length, seq_length |]. intros p q r Hp Hq Hr.
  rewrite nth_map_seq by (rewrite Lu; now apply lt3). rewrite points3_nth, Gu by assumption. reflexivity.
Qed.
Lemma grid3_point v x y z f : grid3 v [x] [y] [z] f -> v = [f x y z].
Proof. intros [L G]. specialize (G i0 i0 i0 ltac:(cbn; lia) ltac:(cbn; lia) ltac:(cbn; lia)). destruct v as [| a [| b v]]; cbn in L; try lia. cbn in G. now rewrite G. Qed.

Notation dot3 a b := (fst (fst a) * fst (fst b) + snd (fst a) * snd (fst b) + snd a * snd b).
Definition column (M : mat) (m : nat) : pt3 := (M i0 m, M i1 m, M i2 m).
Lemma push1_cancel M u v w : determinant 3 M <> 0 -> let p := push1_3 (inverse 3 M) (u, v, w) in
  dot3 (column M 0) p = u /\ dot3 (column M 1) p = v /\ dot3 (column M 2) p = w.
Proof. rewrite det_expand3. intros D. unfold inverse, jac_inv, push1_3, mat3, column. cbn [nth fst snd]. refine (conj _ (conj _ _)); field; exact D. Qed.
Lemma push2_cancel M u v w : determinant 3 M <> 0 -> let p := push2_3 (inverse 3 M) (u, v, w) in
  dot3 (cof_x M) p = u /\ dot3 (cof_y M) p = v /\ dot3 (cof_z M) p = w.
Proof.
  rewrite det_expand3. intros D. set (d := _ - _) in D. unfold inverse. cbn [jac_inv]. fold d. set (K := mat3 _ _ _ _ _ _ _ _ _).
  assert (X : push2_3 K (u, v, w) = ((u * M i0 i0 + v * M i0 i1 + w * M i0 i2) / d, (u * M i1 i0 + v * M i1 i1 + w * M i1 i2) / d, (u * M i2 i0 + v * M i2 i1 + w * M i2 i2) / d)).
  { unfold K, push2_3, mat3; cbn [nth]. unfold d in *. apply f_equal2; [apply f_equal2 |]; field; exact D. }
  rewrite X. unfold cof_x, cof_y, cof_z. cbn [fst snd]. unfold d in *. refine (conj _ (conj _ _)); field; exact D.
Qed.
Lemma inv_det3 M : determinant 3 M <> 0 -> exists d, jac_inv_det 3 M = Some d /\ d * determinant 3 M = 1.
Proof. intros D. rewrite jac_inv_det_spec by (lia || exact D). eexists. split; [reflexivity |]. field. exact D. Qed.

Lemma k1_point J sx sy sz c x y z a b e : nodes_ok sx -> nodes_ok sy -> nodes_ok sz -> length c = nd_m3n3k1 (degree sx) (degree sy) (degree sz) -> determinant 3 (J x y z) <> 0 ->
  rc_vector3 push1_3 J [x] [y] [z] (rc_m3n3k1 sx sy sz [x] [y] [z] c) = Some [[a]; [b]; [e]] ->
  let ln := ln_m3n3k1 (degree sx) (degree sy) (degree sz) in
  dot3 (column (J x y z) 0) (a, b, e) = form3 (cochain c) ln 0 (edges sx) (nodal sy) (nodal sz) x y z /\
  dot3 (column (J x y z) 1) (a, b, e) = form3 (cochain c) ln 1 (nodal sx) (edges sy) (nodal sz) x y z /\
  dot3 (column (J x y z) 2) (a, b, e) = form3 (cochain c) ln 2 (nodal sx) (nodal sy) (edges sz) x y z.
Proof.
  intros Hx Hy Hz Lc D E ln. destruct (rc_3d_k1 sx sy sz [x] [y] [z] c Hx Hy Hz Lc) as (u & v & w & Er & Gu & Gv & Gw). rewrite Er in E.
  destruct (vector3_grid push1_3 J [x] [y] [z] u v w _ _ _ Gu Gv Gw) as (p & q & r & Eq & Gp & Gq & Gr). rewrite Eq in E.
  apply grid3_point in Gp, Gq, Gr. subst p q r. 
  destruct (push1_cancel (J x y z) (form3 (cochain c) ln 0 (edges sx) (nodal sy) (nodal sz) x y z) (form3 (cochain c) ln 1 (nodal sx) (edges sy) (nodal sz) x y z) (form3 (cochain c) ln 2 (nodal sx) (nodal sy) (edges sz) x y z) D) as (A & B & C).
  change ln with (ln_m3n3k1 (degree sx) (degree sy) (degree sz)) in A, B, C. 
  revert E A B C. destruct (push1_3 _ _) as [[p0 p1] p2]. intros [= <- <- <-] A B C. exact (conj A (conj B C)).
Qed.
Lemma k1_grid phi J sx sy sz xi et sg c vx vy vz : nodes_ok sx -> nodes_ok sy -> nodes_ok sz -> length c = nd_m3n3k1 (degree sx) (degree sy) (degree sz) -> smooth3 phi J -> moves3 phi vx vy vz ->
  exists a b e, rc_vector3 push1_3 J xi et sg (rc_m3n3k1 sx sy sz xi et sg c) = Some [a; b; e] /\
    length a = (length xi * length et * length sg)%nat /\ length b = (length xi * length et * length sg)%nat /\ length e = (length xi * length et * length sg)%nat /\
    forall p q r x y z, nth_error xi p = Some x -> nth_error et q = Some y -> nth_error sg r = Some z -> ref x -> ref y -> ref z -> determinant 3 (J x y z) <> 0 ->
      let F := (at_3d a (length xi) (length et) p q r, at_3d b (length xi) (length et) p q r, at_3d e (length xi) (length et) p q r) in
      let ln := ln_m3n3k1 (degree sx) (degree sy) (degree sz) in
      along3 F (vx x y z) = form3 (cochain c) ln 0 (edges sx) (nodal sy) (nodal sz) x y z /\
      along3 F (vy x y z) = form3 (cochain c) ln 1 (nodal sx) (edges sy) (nodal sz) x y z /\
      along3 F (vz x y z) = form3 (cochain c) ln 2 (nodal sx) (nodal sy) (edges sz) x y z.
Proof.
  intros Hx Hy Hz Lc HS HM. destruct (rc_3d_k1 sx sy sz xi et sg c Hx Hy Hz Lc) as (u & v & w & Er & Gu & Gv & Gw). rewrite Er.
  destruct (vector3_grid push1_3 J xi et sg u v w _ _ _ Gu Gv Gw) as (a & b & e & Eq & [La Ga] & [Lb Gb] & [Le Ge]). exists a, b, e. split; [exact Eq |]. split; [exact La |]. split; [exact Lb |]. split; [exact Le |].
  intros p q r x y z Hp Hq Hr Rx Ry Rz D F ln. destruct (columns3 phi J vx vy vz x y z HS HM Rx Ry Rz) as (-> & -> & ->).
  assert (Lp : (p < length xi)%nat) by (apply nth_error_Some; congruence). assert (Lq : (q < length et)%nat) by (apply nth_error_Some; congruence). assert (Lr : (r < length sg)%nat) by (apply nth_error_Some; congruence).
  unfold F. rewrite Ga, Gb, Ge by assumption. rewrite (nth_error_nth _ _ _ Hp), (nth_error_nth _ _ _ Hq), (nth_error_nth _ _ _ Hr).
  destruct (push1_cancel (J x y z) (form3 (cochain c) ln 0 (edges sx) (nodal sy) (nodal sz) x y z) (form3 (cochain c) ln 1 (nodal sx) (edges sy) (nodal sz) x y z) (form3 (cochain c) ln 2 (nodal sx) (nodal sy) (edges sz) x y z) D) as (A & B & C).
  unfold ln in *. revert A B C. destruct (push1_3 _ _) as [[p0 p1] p2]. intros A B C. unfold through, along3, cross. cbn [fst snd] in *. unfold column, cof_x, cof_y, cof_z in *. cbn [fst snd] in *.
  refine (conj _ (conj _ _)); [etransitivity; [| exact A] | etransitivity; [| exact B] | etransitivity; [| exact C]]; ring.
Qed.

Lemma k2_point J sx sy sz c x y z a b e : nodes_ok sx -> nodes_ok sy -> nodes_ok sz -> length c = nd_m3n3k2 (degree sx) (degree sy) (degree sz) -> determinant 3 (J x y z) <> 0 ->
  rc_vector3 push2_3 J [x] [y] [z] (rc_m3n3k2 sx sy sz [x] [y] [z] c) = Some [[a]; [b]; [e]] ->
  let ln := ln_m3n3k2 (degree sx) (degree sy) (degree sz) in
  dot3 (cof_x (J x y z)) (a, b, e) = form3 (cochain c) ln 0 (nodal sx) (edges sy) (edges sz) x y z /\
  dot3 (cof_y (J x y z)) (a, b, e) = form3 (cochain c) ln 1 (edges sx) (nodal sy) (edges sz) x y z /\
  dot3 (cof_z (J x y z)) (a, b, e) = form3 (cochain c) ln 2 (edges sx) (edges sy) (nodal sz) x y z.
Proof.
  intros Hx Hy Hz Lc D E ln. destruct (rc_3d_k2 sx sy sz [x] [y] [z] c Hx Hy Hz Lc) as (u & v & w & Er & Gu & Gv & Gw). rewrite Er in E.
  destruct (vector3_grid push2_3 J [x] [y] [z] u v w _ _ _ Gu Gv Gw) as (p & q & r & Eq & Gp & Gq & Gr). rewrite Eq in E.
  apply grid3_point in Gp, Gq, Gr. subst p q r. 
  destruct (push2_cancel (J x y z) (form3 (cochain c) ln 0 (nodal sx) (edges sy) (edges sz) x y z) (form3 (cochain c) ln 1 (edges sx) (nodal sy) (edges sz) x y z) (form3 (cochain c) ln 2 (edges sx) (edges sy) (nodal sz) x y z) D) as (A & B & C).
  change ln with (ln_m3n3k2 (degree sx) (degree sy) (degree sz)) in A, B, C. 
  revert E A B C. destruct (push2_3 _ _) as [[p0 p1] p2]. intros [= <- <- <-] A B C. exact (conj A (conj B C)).
Qed.
Lemma k2_grid phi J sx sy sz xi et sg c vx vy vz : nodes_ok sx -> nodes_ok sy -> nodes_ok sz -> length c = nd_m3n3k2 (degree sx) (degree sy) (degree sz) -> smooth3 phi J -> moves3 phi vx vy vz ->
  exists a b e, rc_vector3 push2_3 J xi et sg (rc_m3n3k2 sx sy sz xi et sg c) = Some [a; b; e] /\
    length a = (length xi * length et * length sg)%nat /\ length b = (length xi * length et * length sg)%nat /\ length e = (length xi * length et * length sg)%nat /\
    forall p q r x y z, nth_error xi p = Some x -> nth_error et q = Some y -> nth_error sg r = Some z -> ref x -> ref y -> ref z -> determinant 3 (J x y z) <> 0 ->
      let F := (at_3d a (length xi) (length et) p q r, at_3d b (length xi) (length et) p q r, at_3d e (length xi) (length et) p q r) in
      let ln := ln_m3n3k2 (degree sx) (degree sy) (degree sz) in
      through F (vy x y z) (vz x y z) = form3 (cochain c) ln 0 (nodal sx) (edges sy) (edges sz) x y z /\
      through F (vz x y z) (vx x y z) = form3 (cochain c) ln 1 (edges sx) (nodal sy) (edges sz) x y z /\
      through F (vx x y z) (vy x y z) = form3 (cochain c) ln 2 (edges sx) (edges sy) (nodal sz) x y z.
Proof.
  intros Hx Hy Hz Lc HS HM. destruct (rc_3d_k2 sx sy sz xi et sg c Hx Hy Hz Lc) as (u & v & w & Er & Gu & Gv & Gw). rewrite Er.
  destruct (vector3_grid push2_3 J xi et sg u v w _ _ _ Gu Gv Gw) as (a & b & e & Eq & [La Ga] & [Lb Gb] & [Le Ge]). exists a, b, e. split; [exact Eq |]. split; [exact La |]. split; [exact Lb |]. split; [exact Le |].
  intros p q r x y z Hp Hq Hr Rx Ry Rz D F ln. destruct (columns3 phi J vx vy vz x y z HS HM Rx Ry Rz) as (-> & -> & ->).
  assert (Lp : (p < length xi)%nat) by (apply nth_error_Some; congruence). assert (Lq : (q < length et)%nat) by (apply nth_error_Some; congruence). assert (Lr : (r < length sg)%nat) by (apply nth_error_Some; congruence).
  unfold F. rewrite Ga, Gb, Ge by assumption. rewrite (nth_error_nth _ _ _ Hp), (nth_error_nth _ _ _ Hq), (nth_error_nth _ _ _ Hr).
  destruct (push2_cancel (J x y z) (form3 (cochain c) ln 0 (nodal sx) (edges sy) (edges sz) x y z) (form3 (cochain c) ln 1 (edges sx) (nodal sy) (edges sz) x y z) (form3 (cochain c) ln 2 (edges sx) (edges sy) (nodal sz) x y z) D) as (A & B & C).
  unfold ln in *. revert A B C. destruct (push2_3 _ _) as [[p0 p1] p2]. intros A B C. unfold through, along3, cross. cbn [fst snd] in *. unfold column, cof_x, cof_y, cof_z in *. cbn [fst snd] in *.
  refine (conj _ (conj _ _)); [etransitivity; [| exact A] | etransitivity; [| exact B] | etransitivity; [| exact C]]; ring.
Qed.

Lemma density3_point J sx sy sz c x y z a : nodes_ok sx -> nodes_ok sy -> nodes_ok sz -> length c = nd_m3n3k3 (degree sx) (degree sy) (degree sz) -> determinant 3 (J x y z) <> 0 ->
  rc_density3 J [x] [y] [z] (rc_m3n3k3 sx sy sz [x] [y] [z] c) = Some [[a]] ->
  a * determinant 3 (J x y z) = form3 (cochain c) (ln_m3n3k3 (degree sx) (degree sy) (degree sz)) 0 (edges sx) (edges sy) (edges sz) x y z.
Proof.
  intros Hx Hy Hz Lc D E. destruct (rc_3d_k3 sx sy sz [x] [y] [z] c Hx Hy Hz Lc) as (u & Er & Gu). rewrite Er in E.
  destruct (density3_grid J [x] [y] [z] u _ Gu) as (p & Eq & Gp). rewrite Eq in E. apply grid3_point in Gp. subst p.
  destruct (inv_det3 _ D) as (d & Ed & Hd). rewrite Ed in E. injection E as <-. rewrite Rmult_assoc, Hd. ring.
Qed.
Lemma scalar3_point sx sy sz c x y z a : nodes_ok sx -> nodes_ok sy -> nodes_ok sz -> length c = nd_m3n3k0 (degree sx) (degree sy) (degree sz) ->
  rc_m3n3k0 sx sy sz [x] [y] [z] c = Some [[a]] -> a = form3 (cochain c) (ln_m3n3k0 (degree sx) (degree sy) (degree sz)) 0 (nodal sx) (nodal sy) (nodal sz) x y z.
Proof.
  intros Hx Hy Hz Lc E. destruct (rc_3d_k0 sx sy sz [x] [y] [z] c Hx Hy Hz Lc) as (u & Er & Gu). rewrite Er in E. apply grid3_point in Gu. subst u. now injection E as <-.
Qed.
Lemma density3_grid_values phi J sx sy sz xi et sg c vx vy vz : nodes_ok sx -> nodes_ok sy -> nodes_ok sz -> length c = nd_m3n3k3 (degree sx) (degree sy) (degree sz) -> smooth3 phi J -> moves3 phi vx vy vz ->
  exists a, rc_density3 J xi et sg (rc_m3n3k3 sx sy sz xi et sg c) = Some [a] /\ length a = (length xi * length et * length sg)%nat /\
    forall p q r x y z, nth_error xi p = Some x -> nth_error et q = Some y -> nth_error sg r = Some z -> ref x -> ref y -> ref z -> determinant 3 (J x y z) <> 0 ->
      at_3d a (length xi) (length et) p q r * volume3 (vx x y z) (vy x y z) (vz x y z) = form3 (cochain c) (ln_m3n3k3 (degree sx) (degree sy) (degree sz)) 0 (edges sx) (edges sy) (edges sz) x y z.
Proof.
  intros Hx Hy Hz Lc HS HM. destruct (rc_3d_k3 sx sy sz xi et sg c Hx Hy Hz Lc) as (u & Er & Gu). rewrite Er.
  destruct (density3_grid J xi et sg u _ Gu) as (a & Eq & [La Ga]). exists a. split; [exact Eq |]. split; [exact La |].
  intros p q r x y z Hp Hq Hr Rx Ry Rz D. rewrite (det_volume phi J vx vy vz x y z HS HM Rx Ry Rz).
  assert (Lp : (p < length xi)%nat) by (apply nth_error_Some; congruence). assert (Lq : (q < length et)%nat) by (apply nth_error_Some; congruence). assert (Lr : (r < length sg)%nat) by (apply nth_error_Some; congruence).
  rewrite Ga by assumption. rewrite (nth_error_nth _ _ _ Hp), (nth_error_nth _ _ _ Hq), (nth_error_nth _ _ _ Hr). destruct (inv_det3 _ D) as (d & -> & Hd). rewrite Rmult_assoc, Hd. ring.
Qed.

(** * round trips *)
Lemma nums3 l m ix r b0 I0 J0 K0 b1 I1 J1 K1 b2 I2 J2 K2 : l = [mk_arr b0 [I0; J0; K0]; mk_arr b1 [I1; J1; K1]; mk_arr b2 [I2; J2; K2]] -> num (Some l) m ix r ->
  (exists i j k, m = 0%nat /\ ix = [i; j; k] /\ (i < I0)%nat /\ (j < J0)%nat /\ (k < K0)%nat) \/
  (exists i j k, m = 1%nat /\ ix = [i; j; k] /\ (i < I1)%nat /\ (j < J1)%nat /\ (k < K1)%nat) \/
  (exists i j k, m = 2%nat /\ ix = [i; j; k] /\ (i < I2)%nat /\ (j < J2)%nat /\ (k < K2)%nat).
Proof.
  intros -> Nm. destruct m as [| [| [| m]]].
  - left. apply (num3_iff _ 0 b0 I0 J0 K0) in Nm; [| reflexivity]. destruct Nm as (i & j & k & H). exists i, j, k. tauto.
  - right; left. apply (num3_iff _ 1 b1 I1 J1 K1) in Nm; [| reflexivity]. destruct Nm as (i & j & k & H). exists i, j, k. tauto.
  - right; right. apply (num3_iff _ 2 b2 I2 J2 K2) in Nm; [| reflexivity]. destruct Nm as (i & j & k & H). exists i, j, k. tauto.
  - destruct Nm as (l' & a & [= <-] & Hn & _). cbn in Hn. destruct m; discriminate.
Qed.
Lemma nums3_1 l m ix r b0 I0 J0 K0 : l = [mk_arr b0 [I0; J0; K0]] -> num (Some l) m ix r ->
  exists i j k, m = 0%nat /\ ix = [i; j; k] /\ (i < I0)%nat /\ (j < J0)%nat /\ (k < K0)%nat.
Proof.
  intros -> Nm. destruct m as [| m].
  - apply (num3_iff _ 0 b0 I0 J0 K0) in Nm; [| reflexivity]. destruct Nm as (i & j & k & H). exists i, j, k. tauto.
  - destruct Nm as (l' & a & [= <-] & Hn & _). cbn in Hn. destruct m; discriminate.
Qed.
Section Round3.
Variables (phi : R -> R -> R -> pt3) (J : R -> R -> R -> mat) (sx sy sz qx wx qy wy qz wz c : list R).
Hypotheses (Hx : nodes_ok sx) (Hy : nodes_ok sy) (Hz : nodes_ok sz) (Rx : in_reference sx) (Ry : in_reference sy) (Rz : in_reference sz)
  (PX : proper_rule (degree sx) qx wx) (PY : proper_rule (degree sy) qy wy) (PZ : proper_rule (degree sz) qz wz)
  (D : forall x y z, ref x -> ref y -> ref z -> determinant 3 (J x y z) <> 0).
Ltac deg3 := destruct (deg_len sx Hx) as [?Dx _]; destruct (deg_len sy Hy) as [?Dy _]; destruct (deg_len sz Hz) as [?Dz _]; destruct PX as (LX & QX & EX); destruct PY as (LY & QY & EY); destruct PZ as (LZ & QZ & EZ).
Lemma k1_round F : length c = nd_m3n3k1 (degree sx) (degree sy) (degree sz) ->
  (forall x y z, ref x -> ref y -> ref z -> rc_vector3 push1_3 J [x] [y] [z] (rc_m3n3k1 sx sy sz [x] [y] [z] c) = Some [[fst (fst (F (phi x y z)))]; [snd (fst (F (phi x y z)))]; [snd (F (phi x y z))]]) ->
  rd_m3n3k1 phi J F sx sy sz qx wx qy wy qz wz = c.
Proof.
  intros Lc H. deg3. assert (B := bij_m3n3k1 (degree sx) (degree sy) (degree sz)). apply (same_coefs _ _ _ _ B); [apply k1_len | exact Lc |].
  intros m ix r Nm. rewrite ln_m3n3k1_eq in Nm.
  destruct (nums3 _ m ix r _ _ _ _ _ _ _ _ _ _ _ _ eq_refl Nm) as [(i & j & k & -> & -> & Hi & Hj & Hk) | [(i & j & k & -> & -> & Hi & Hj & Hk) | (i & j & k & -> & -> & Hi & Hj & Hk)]].
  - rewrite k1_coef_x by (assumption || lia). rewrite <- (coef_ENN (cochain c) _ _ sx sy sz qx wx) by (assumption || lia). apply rule_sum_ext; [assumption | assumption | now apply node_le |]. intros tx Ht.
    destruct (k1_point J sx sy sz c tx (node sy j) (node sz k) _ _ _ Hx Hy Hz Lc (D tx (node sy j) (node sz k) ltac:(refs3) ltac:(refs3) ltac:(refs3)) (H tx (node sy j) (node sz k) ltac:(refs3) ltac:(refs3) ltac:(refs3))) as (A & _ & _).
    rewrite <- A. cbv zeta. destruct (F _) as [[? ?] ?]. cbn [fst snd column cof_x cof_y cof_z]. ring.
  - rewrite k1_coef_y by (assumption || lia). rewrite <- (coef_NEN (cochain c) _ _ sx sy sz qy wy) by (assumption || lia). apply rule_sum_ext; [assumption | assumption | now apply node_le |]. intros ty Ht.
    destruct (k1_point J sx sy sz c (node sx i) ty (node sz k) _ _ _ Hx Hy Hz Lc (D (node sx i) ty (node sz k) ltac:(refs3) ltac:(refs3) ltac:(refs3)) (H (node sx i) ty (node sz k) ltac:(refs3) ltac:(refs3) ltac:(refs3))) as (_ & A & _).
    rewrite <- A. cbv zeta. destruct (F _) as [[? ?] ?]. cbn [fst snd column cof_x cof_y cof_z]. ring.
  - rewrite k1_coef_z by (assumption || lia). rewrite <- (coef_NNE (cochain c) _ _ sx sy sz qz wz) by (assumption || lia). apply rule_sum_ext; [assumption | assumption | now apply node_le |]. intros tz Ht.
    destruct (k1_point J sx sy sz c (node sx i) (node sy j) tz _ _ _ Hx Hy Hz Lc (D (node sx i) (node sy j) tz ltac:(refs3) ltac:(refs3) ltac:(refs3)) (H (node sx i) (node sy j) tz ltac:(refs3) ltac:(refs3) ltac:(refs3))) as (_ & _ & A).
    rewrite <- A. cbv zeta. destruct (F _) as [[? ?] ?]. cbn [fst snd column cof_x cof_y cof_z]. ring.
Qed.
Lemma k2_round F : length c = nd_m3n3k2 (degree sx) (degree sy) (degree sz) ->
  (forall x y z, ref x -> ref y -> ref z -> rc_vector3 push2_3 J [x] [y] [z] (rc_m3n3k2 sx sy sz [x] [y] [z] c) = Some [[fst (fst (F (phi x y z)))]; [snd (fst (F (phi x y z)))]; [snd (F (phi x y z))]]) ->
  rd_m3n3k2 phi J F sx sy sz qx wx qy wy qz wz = c.
Proof.
  intros Lc H. deg3. assert (B := bij_m3n3k2 (degree sx) (degree sy) (degree sz)). apply (same_coefs _ _ _ _ B); [apply k2_len | exact Lc |].
  intros m ix r Nm. rewrite ln_m3n3k2_eq in Nm.
  destruct (nums3 _ m ix r _ _ _ _ _ _ _ _ _ _ _ _ eq_refl Nm) as [(i & j & k & -> & -> & Hi & Hj & Hk) | [(i & j & k & -> & -> & Hi & Hj & Hk) | (i & j & k & -> & -> & Hi & Hj & Hk)]].
  - rewrite k2_coef_x by (assumption || lia). rewrite <- (coef_NEE (cochain c) _ _ sx sy sz qy wy qz wz) by (assumption || lia). apply rule_sum2_ext; try assumption; try (now apply node_le). intros ty tz Ht Ht'.
    destruct (k2_point J sx sy sz c (node sx i) ty tz _ _ _ Hx Hy Hz Lc (D (node sx i) ty tz ltac:(refs3) ltac:(refs3) ltac:(refs3)) (H (node sx i) ty tz ltac:(refs3) ltac:(refs3) ltac:(refs3))) as (A & _ & _).
    rewrite <- A. cbv zeta. destruct (F _) as [[? ?] ?]. cbn [fst snd column cof_x cof_y cof_z]. ring.
  - rewrite k2_coef_y by (assumption || lia). rewrite <- (coef_ENE (cochain c) _ _ sx sy sz qx wx qz wz) by (assumption || lia). apply rule_sum2_ext; try assumption; try (now apply node_le). intros tx tz Ht Ht'.
    destruct (k2_point J sx sy sz c tx (node sy j) tz _ _ _ Hx Hy Hz Lc (D tx (node sy j) tz ltac:(refs3) ltac:(refs3) ltac:(refs3)) (H tx (node sy j) tz ltac:(refs3) ltac:(refs3) ltac:(refs3))) as (_ & A & _).
    rewrite <- A. cbv zeta. destruct (F _) as [[? ?] ?]. cbn [fst snd column cof_x cof_y cof_z]. ring.
  - rewrite k2_coef_z by (assumption || lia). rewrite <- (coef_EEN (cochain c) _ _ sx sy sz qx wx qy wy) by (assumption || lia). apply rule_sum2_ext; try assumption; try (now apply node_le). intros tx ty Ht Ht'.
    destruct (k2_point J sx sy sz c tx ty (node sz k) _ _ _ Hx Hy Hz Lc (D tx ty (node sz k) ltac:(refs3) ltac:(refs3) ltac:(refs3)) (H tx ty (node sz k) ltac:(refs3) ltac:(refs3) ltac:(refs3))) as (_ & _ & A).
    rewrite <- A. cbv zeta. destruct (F _) as [[? ?] ?]. cbn [fst snd column cof_x cof_y cof_z]. ring.
Qed.
Lemma k3_round det f : length c = nd_m3n3k3 (degree sx) (degree sy) (degree sz) -> (forall x y z, jac_det 3 (J x y z) = Some (det x y z)) ->
  (forall x y z, ref x -> ref y -> ref z -> rc_density3 J [x] [y] [z] (rc_m3n3k3 sx sy sz [x] [y] [z] c) = Some [[f (phi x y z)]]) ->
  rd_m3n3k3 phi sx sy sz qx wx qy wy qz wz det f = c.
Proof.
  intros Lc Hd H. deg3. assert (B := bij_m3n3k3 (degree sx) (degree sy) (degree sz)). destruct (k3_entries phi det f sx sy sz qx wx qy wy qz wz) as [L E].
  apply (same_coefs _ _ _ _ B); [exact L | exact Lc |]. intros m ix r Nm. rewrite ln_m3n3k3_eq in Nm.
  destruct (nums3_1 _ m ix r _ _ _ _ eq_refl Nm) as (i & j & k & -> & -> & Hi & Hj & Hk).
  rewrite E by assumption. rewrite <- (coef_EEE (cochain c) _ _ sx sy sz qx wx qy wy qz wz) by assumption.
  apply rule_sum3_ext; try assumption; try (now apply node_le). intros x y z Tx Ty Tz.
  rewrite <- (density3_point J sx sy sz c x y z (f (phi x y z))); [| assumption.. | apply D; refs3 | apply H; refs3].
  specialize (Hd x y z). cbn in Hd. injection Hd as <-. now rewrite det_expand3.
Qed.
Lemma k0_round3 f : length c = nd_m3n3k0 (degree sx) (degree sy) (degree sz) ->
  (forall x y z, ref x -> ref y -> ref z -> rc_m3n3k0 sx sy sz [x] [y] [z] c = Some [[f (phi x y z)]]) -> rd_m3n3k0 phi f sx sy sz = c.
Proof.
  intros Lc H. deg3. assert (B := bij_m3n3k0 (degree sx) (degree sy) (degree sz)). destruct (k0_3_entries phi f sx sy sz Hx Hy Hz) as [L E].
  apply (same_coefs _ _ _ _ B); [exact L | exact Lc |]. intros m ix r Nm. rewrite ln_m3n3k0_eq in Nm.
  destruct (nums3_1 _ m ix r _ _ _ _ eq_refl Nm) as (i & j & k & -> & -> & Hi & Hj & Hk).
  rewrite E by lia. rewrite (scalar3_point sx sy sz c (node sx i) (node sy j) (node sz k) _ Hx Hy Hz Lc (H (node sx i) (node sy j) (node sz k) ltac:(refs3) ltac:(refs3) ltac:(refs3))).
  apply red_NNN; assumption || lia.
Qed.
End Round3.
