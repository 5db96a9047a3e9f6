(** Reduction and reconstruction on mapped elements in 3-d. *)
From Coq Require Import List Arith Reals Lra Lia.
From Coquelicot Require Import Coquelicot.
From Verif Require Import MappingModel MappingSpec MappingProofs JacobianSpec JacobianModel JacobianProofs PolyModel PolySpec PolyProofs PolyCalc NdArray LocalNumberingModel IncidenceModel IncidenceSpec IncidenceThms TensorModel TensorSpec TensorAct TensorProofs TensorThms ReduceModel ReduceSpec ReduceProofs ReduceForms ReduceRound ReduceStokes.
Import List ListNotations.
Local Open Scope R_scope.
Local Notation mat := MappingModel.mat.
Local Notation i0 := 0%nat.
Local Notation i1 := 1%nat.
Local Notation i2 := 2%nat.

(** * lengths and entries *)
Lemma reduce3_len p g w : length (reduce3 p g w) = length (snd p). Proof. destruct p as [[[? ?] ?] ?]. apply edges_len. Qed.
Lemma k1c_reduce phi J F m (p : prep3) w : rd_k1_component phi J F m p w =
  reduce3 p (fun x y z => let M := J x y z in let '(u, v, w) := F (phi x y z) in M i0 m * u + M i1 m * v + M i2 m * w) w.
Proof. destruct p as [[[? ?] ?] ?]. reflexivity. Qed.
Lemma k1_len phi J F sx sy sz qx wx qy wy qz wz : length (rd_m3n3k1 phi J F sx sy sz qx wx qy wy qz wz) = nd_m3n3k1 (degree sx) (degree sy) (degree sz).
Proof. unfold rd_m3n3k1, nd_m3n3k1. rewrite !app_length, !k1c_reduce, !reduce3_len, prep3_x_len, prep3_y_len, prep3_z_len. lia. Qed.
Section K1.
Variables (phi : R -> R -> R -> pt3) (J : R -> R -> R -> mat) (F : pt3 -> pt3) (sx sy sz qx wx qy wy qz wz : list R).
Hypotheses (Hx : nodes_ok sx) (Hy : nodes_ok sy) (Hz : nodes_ok sz) (Lx : length qx = length wx) (Ly : length qy = length wy) (Lz : length qz = length wz).
Notation px := (degree sx). Notation py := (degree sy). Notation pz := (degree sz).
Notation g m := (fun x y z => let M := J x y z in let '(u, v, w) := F (phi x y z) in M i0 m * u + M i1 m * v + M i2 m * w).
Notation c := (rd_m3n3k1 phi J F sx sy sz qx wx qy wy qz wz).
Notation ln := (ln_m3n3k1 px py pz).
Lemma k1_coef_x i j k : (i < px)%nat -> (j < length sy)%nat -> (k < length sz)%nat ->
  rcoef (cochain c) ln 0 [i; j; k] = rule_sum qx wx (node sx i) (node sx (S i)) (fun t => g i0 t (node sy j) (node sz k)).
Proof.
  intros Hi Hj Hk. destruct (deg_len sx Hx) as [Dx _]. destruct (deg_len sy Hy) as [Dy _]. destruct (deg_len sz Hz) as [Dz _]. rewrite ln_m3n3k1_eq.
  rewrite (rcoef3 _ _ 0 0 px (py + 1) (pz + 1)) by (reflexivity || lia). unfold rd_m3n3k1. cbn [Nat.add].
  rewrite app_nth1 by (rewrite k1c_reduce, reduce3_len, prep3_x_len; apply lt3; lia). rewrite k1c_reduce. apply reduce3_x; assumption || lia.
Qed.
Lemma k1_coef_y i j k : (i < length sx)%nat -> (j < py)%nat -> (k < length sz)%nat ->
  rcoef (cochain c) ln 1 [i; j; k] = rule_sum qy wy (node sy j) (node sy (S j)) (fun t => g i1 (node sx i) t (node sz k)).
Proof.
  intros Hi Hj Hk. destruct (deg_len sx Hx) as [Dx _]. destruct (deg_len sy Hy) as [Dy _]. destruct (deg_len sz Hz) as [Dz _]. rewrite ln_m3n3k1_eq.
  rewrite (rcoef3 _ _ 1 (px * (py + 1) * (pz + 1)) (px + 1) py (pz + 1)) by (reflexivity || lia). unfold rd_m3n3k1.
  rewrite app_nth2 by (rewrite k1c_reduce, reduce3_len, prep3_x_len; lia). rewrite k1c_reduce, reduce3_len, prep3_x_len, Nat.add_comm, Nat.add_sub.
  rewrite app_nth1 by (rewrite k1c_reduce, reduce3_len, prep3_y_len; apply lt3; lia). rewrite k1c_reduce. apply reduce3_y; assumption || lia.
Qed.
Lemma k1_coef_z i j k : (i < length sx)%nat -> (j < length sy)%nat -> (k < pz)%nat ->
  rcoef (cochain c) ln 2 [i; j; k] = rule_sum qz wz (node sz k) (node sz (S k)) (fun t => g i2 (node sx i) (node sy j) t).
Proof.
  intros Hi Hj Hk. destruct (deg_len sx Hx) as [Dx _]. destruct (deg_len sy Hy) as [Dy _]. destruct (deg_len sz Hz) as [Dz _]. rewrite ln_m3n3k1_eq.
  rewrite (rcoef3 _ _ 2 (px * (py + 1) * (pz + 1) + (px + 1) * py * (pz + 1)) (px + 1) (py + 1) pz) by (reflexivity || lia). unfold rd_m3n3k1.
  rewrite app_nth2 by (rewrite k1c_reduce, reduce3_len, prep3_x_len; lia). rewrite k1c_reduce, reduce3_len, prep3_x_len.
  rewrite app_nth2 by (rewrite k1c_reduce, reduce3_len, prep3_y_len; lia). rewrite k1c_reduce, reduce3_len, prep3_y_len.
  replace (_ + _ + _ - _ - _)%nat with (i + (px + 1) * (j + (py + 1) * k))%nat by lia. rewrite k1c_reduce. apply reduce3_z; assumption || lia.
Qed.
End K1.

Lemma k2c_len phi J F cof n ws w1 w2 : length (rd_k2_component phi J F cof n ws w1 w2) = n.
Proof. unfold rd_k2_component. now rewrite map_length, seq_length. Qed.
Lemma k2_len phi J F sx sy sz qx wx qy wy qz wz : length (rd_m3n3k2 phi J F sx sy sz qx wx qy wy qz wz) = nd_m3n3k2 (degree sx) (degree sy) (degree sz).
Proof. unfold rd_m3n3k2, nd_m3n3k2. rewrite !app_length, !k2c_len. lia. Qed.
Section K2.
Variables (phi : R -> R -> R -> pt3) (J : R -> R -> R -> mat) (F : pt3 -> pt3) (sx sy sz qx wx qy wy qz wz : list R).
Hypotheses (Hx : nodes_ok sx) (Hy : nodes_ok sy) (Hz : nodes_ok sz).
Notation px := (degree sx). Notation py := (degree sy). Notation pz := (degree sz).
Notation g cof := (fun x y z => let '(c0, c1, c2) := cof (J x y z) in let '(u, v, w) := F (phi x y z) in c0 * u + c1 * v + c2 * w).
Notation c := (rd_m3n3k2 phi J F sx sy sz qx wx qy wy qz wz).
Notation ln := (ln_m3n3k2 px py pz).
Lemma k2c_at cof n ws w1 w2 q1 q2 m (a b c d : R) (h : R -> R -> R) xi et sg area : (m < n)%nat -> fill zero_face ws m = (xi, et, sg, area) ->
  (forall r s, g cof (xi r s) (et r s) (sg r s) = h (a + (b - a) / 2 * (nth r q1 0 + 1)) (c + (d - c) / 2 * (nth s q2 0 + 1))) -> area = (b - a) * (d - c) ->
  nth m (rd_k2_component phi J F cof n ws w1 w2) 0 = rule_sum2 q1 w1 q2 w2 a b c d h.
Proof.
  intros Hm Hf Hh Ha. unfold rd_k2_component. rewrite nth_map_seq by exact Hm. rewrite Hf.
  rewrite <- (sum2_rule q1 w1 q2 w2 a b c d h (area * (1 / 4))) by (rewrite Ha; field).
  rewrite !np_sum_total. apply total_ext. intros r _. rewrite !np_sum_total. apply total_ext. intros s _. rewrite <- Hh. reflexivity.
Qed.
Lemma k2_coef_x i j k : (i < length sx)%nat -> (j < py)%nat -> (k < pz)%nat ->
  rcoef (cochain c) ln 0 [i; j; k] = rule_sum2 qy wy qz wz (node sy j) (node sy (S j)) (node sz k) (node sz (S k)) (fun y z => g cof_x (node sx i) y z).
Proof.
  intros Hi Hj Hk. destruct (deg_len sx Hx) as [Dx _]. rewrite ln_m3n3k2_eq.
  rewrite (rcoef3 _ _ 0 0 (px + 1) py pz) by (reflexivity || lia). unfold rd_m3n3k2. cbn [Nat.add].
  assert (Hm : (i + (px + 1) * (j + py * k) < (px + 1) * py * pz)%nat) by (apply lt3; lia).
  rewrite app_nth1 by (rewrite k2c_len; exact Hm).
  eapply k2c_at; [exact Hm | unfold faces_x, faces_y, faces_z; rewrite fill3; [reflexivity | intros; ring | lia | assumption | assumption] | |].
  - intros r s. cbv beta. rewrite !between_eq. reflexivity.
  - unfold size, node. ring.
Qed.
Lemma k2_coef_y i j k : (i < px)%nat -> (j < length sy)%nat -> (k < pz)%nat ->
  rcoef (cochain c) ln 1 [i; j; k] = rule_sum2 qx wx qz wz (node sx i) (node sx (S i)) (node sz k) (node sz (S k)) (fun x z => g cof_y x (node sy j) z).
Proof.
  intros Hi Hj Hk. destruct (deg_len sy Hy) as [Dy _]. rewrite ln_m3n3k2_eq.
  rewrite (rcoef3 _ _ 1 ((px + 1) * py * pz) px (py + 1) pz) by (reflexivity || lia). unfold rd_m3n3k2.
  assert (Hm : (i + px * (j + (py + 1) * k) < px * (py + 1) * pz)%nat) by (apply lt3; lia).
  rewrite app_nth2 by (rewrite k2c_len; lia). rewrite k2c_len, Nat.add_comm, Nat.add_sub.
  rewrite app_nth1 by (rewrite k2c_len; exact Hm).
  eapply k2c_at; [exact Hm | unfold faces_x, faces_y, faces_z; rewrite fill3; [reflexivity | intros; ring | assumption | lia | assumption] | |].
  - intros r s. cbv beta. rewrite !between_eq. reflexivity.
  - unfold size, node. ring.
Qed.
Lemma k2_coef_z i j k : (i < px)%nat -> (j < py)%nat -> (k < length sz)%nat ->
  rcoef (cochain c) ln 2 [i; j; k] = rule_sum2 qx wx qy wy (node sx i) (node sx (S i)) (node sy j) (node sy (S j)) (fun x y => g cof_z x y (node sz k)).
Proof.
  intros Hi Hj Hk. destruct (deg_len sz Hz) as [Dz _]. rewrite ln_m3n3k2_eq.
  rewrite (rcoef3 _ _ 2 ((px + 1) * py * pz + px * (py + 1) * pz) px py (pz + 1)) by (reflexivity || lia). unfold rd_m3n3k2.
  assert (Hm : (i + px * (j + py * k) < px * py * (pz + 1))%nat) by (apply lt3; lia).
  rewrite app_nth2 by (rewrite k2c_len; lia). rewrite k2c_len.
  rewrite app_nth2 by (rewrite k2c_len; lia). rewrite k2c_len. replace (_ + _ + _ - _ - _)%nat with (i + px * (j + py * k))%nat by lia.
  eapply k2c_at; [exact Hm | unfold faces_x, faces_y, faces_z; rewrite fill3; [reflexivity | intros; ring | assumption | assumption | lia] | |].
  - intros r s. cbv beta. rewrite !between_eq. reflexivity.
  - unfold size, node. ring.
Qed.
End K2.
Lemma k3_entries phi det f sx sy sz qx wx qy wy qz wz : 
  length (rd_m3n3k3 phi sx sy sz qx wx qy wy qz wz det f) = nd_m3n3k3 (degree sx) (degree sy) (degree sz) /\
  (forall i j k, (i < degree sx)%nat -> (j < degree sy)%nat -> (k < degree sz)%nat ->
     rcoef (cochain (rd_m3n3k3 phi sx sy sz qx wx qy wy qz wz det f)) (ln_m3n3k3 (degree sx) (degree sy) (degree sz)) 0 [i; j; k]
     = rule_sum3 qx wx qy wy qz wz (node sx i) (node sx (S i)) (node sy j) (node sy (S j)) (node sz k) (node sz (S k)) (fun x y z => f (phi x y z) * det x y z)).
Proof.
  rewrite ln_m3n3k3_eq. unfold rd_m3n3k3, nd_m3n3k3. split; [now rewrite map_length, seq_length |].
  intros i j k Hi Hj Hk. rewrite (rcoef3 _ _ 0 0 (degree sx) (degree sy) (degree sz)) by (reflexivity || lia). cbn [Nat.add].
  rewrite nth_map_seq by (apply lt3; assumption). rewrite fill3; [| intros; ring | assumption..]. cbv beta iota.
  unfold rule_sum3, rule_sum2, rule_sum. rewrite np_sum_total.
  rewrite (total_ext _ _ (fun r => total (length wz) (fun t => total (length wy) (fun s => 
    (node sz (S k) - node sz k) / 2 * nth t wz 0 * ((node sy (S j) - node sy j) / 2 * nth s wy 0 * ((node sx (S i) - node sx i) / 2 * (nth r wx 0 *
      (f (phi (between sx qx i r) (between sy qy j s) (between sz qz k t)) * det (between sx qx i r) (between sy qy j s) (between sz qz k t))))))))).
  2:{ intros r _. rewrite np_sum_total, total_swap. apply total_ext. intros s _. rewrite np_sum_total. apply total_ext. intros t _. unfold size, node. field. }
  rewrite total_swap, <- total_scal. apply total_ext. intros t _. rewrite total_swap.
  rewrite (total_ext _ _ (fun s => (node sz (S k) - node sz k) / 2 * nth t wz 0 * ((node sy (S j) - node sy j) / 2 * (nth s wy 0 * ((node sx (S i) - node sx i) / 2 *
     total (length wx) (fun r => nth r wx 0 * (f (phi (between sx qx i r) (between sy qy j s) (between sz qz k t)) * det (between sx qx i r) (between sy qy j s) (between sz qz k t)))))))).
  2:{ intros s _. rewrite !total_scal. ring. }
  rewrite !total_scal. rewrite Rmult_assoc. f_equal. f_equal. f_equal. apply total_ext. intros s _. f_equal. f_equal. apply total_ext. intros r _. rewrite !between_eq. reflexivity.
Qed.
Lemma k0_3_entries phi f sx sy sz : nodes_ok sx -> nodes_ok sy -> nodes_ok sz ->
  length (rd_m3n3k0 phi f sx sy sz) = nd_m3n3k0 (degree sx) (degree sy) (degree sz) /\
  (forall i j k, (i < length sx)%nat -> (j < length sy)%nat -> (k < length sz)%nat ->
     rcoef (cochain (rd_m3n3k0 phi f sx sy sz)) (ln_m3n3k0 (degree sx) (degree sy) (degree sz)) 0 [i; j; k] = f (phi (node sx i) (node sy j) (node sz k))).
Proof.
  intros Hx Hy Hz. destruct (deg_len sx Hx) as [Dx _]. destruct (deg_len sy Hy) as [Dy _]. destruct (deg_len sz Hz) as [Dz _]. rewrite ln_m3n3k0_eq. unfold rd_m3n3k0.
  assert (L2 : forall z, length (flat_map (fun y => map (fun x => f (phi x y z)) sx) sy) = (length sx * length sy)%nat).
  { intros z. rewrite (rows_len _ (length sx)) by (intros; apply map_length). reflexivity. }
  split.
  - rewrite (rows_len _ (length sx * length sy)) by exact L2. unfold nd_m3n3k0. rewrite Dx, Dy, Dz. reflexivity.
  - intros i j k Hi Hj Hk. rewrite (rcoef3 _ _ 0 0 (degree sx + 1) (degree sy + 1) (degree sz + 1)) by (reflexivity || lia). cbn [Nat.add]. rewrite <- Dx, <- Dy.
    replace (i + length sx * (j + length sy * k))%nat with ((i + length sx * j) + (length sx * length sy) * k)%nat by ring.
    rewrite (rows_nth _ (length sx * length sy)); [| exact L2 | now apply grid_lt | assumption].
    rewrite (rows_nth _ (length sx)); [| intros; apply map_length | assumption..]. now rewrite map_nth_lt.
Qed.

(** * in terms of velocities *)
Ltac refs3 := first [eapply ref_edge; cycle 3; [eassumption | assumption | assumption | assumption] | apply ref_node; [assumption | unfold nodes_ok, degree in *; lia]].
Section Entries.
Variables (phi : R -> R -> R -> pt3) (J : R -> R -> R -> mat) (F : pt3 -> pt3) (sx sy sz qx wx qy wy qz wz : list R) (vx vy vz : R -> R -> R -> R * R * R).
Hypotheses (Hx : nodes_ok sx) (Hy : nodes_ok sy) (Hz : nodes_ok sz) (Rx : in_reference sx) (Ry : in_reference sy) (Rz : in_reference sz)
  (Lx : length qx = length wx) (Ly : length qy = length wy) (Lz : length qz = length wz) (Qx : in_reference qx) (Qy : in_reference qy) (Qz : in_reference qz)
  (HS : smooth3 phi J) (HM : moves3 phi vx vy vz).
Notation px := (degree sx). Notation py := (degree sy). Notation pz := (degree sz).
Ltac fin3 x y z := let A := fresh in let B := fresh in let C := fresh in
  destruct (columns3 phi J vx vy vz x y z HS HM ltac:(refs3) ltac:(refs3) ltac:(refs3)) as (A & B & C); rewrite ?A, ?B, ?C;
  destruct (F _) as [[? ?] ?]; unfold through, along3, cross, cof_x, cof_y, cof_z; cbn [fst snd]; ring.
Lemma k1_entries : let c := rd_m3n3k1 phi J F sx sy sz qx wx qy wy qz wz in let ln := ln_m3n3k1 px py pz in
  length c = nd_m3n3k1 px py pz /\
  (forall i j k, (i < px)%nat -> (j < length sy)%nat -> (k < length sz)%nat ->
    rcoef (cochain c) ln 0 [i; j; k] = rule_sum qx wx (node sx i) (node sx (S i)) (fun t => along3 (F (phi t (node sy j) (node sz k))) (vx t (node sy j) (node sz k)))) /\
  (forall i j k, (i < length sx)%nat -> (j < py)%nat -> (k < length sz)%nat ->
    rcoef (cochain c) ln 1 [i; j; k] = rule_sum qy wy (node sy j) (node sy (S j)) (fun t => along3 (F (phi (node sx i) t (node sz k))) (vy (node sx i) t (node sz k)))) /\
  (forall i j k, (i < length sx)%nat -> (j < length sy)%nat -> (k < pz)%nat ->
    rcoef (cochain c) ln 2 [i; j; k] = rule_sum qz wz (node sz k) (node sz (S k)) (fun t => along3 (F (phi (node sx i) (node sy j) t)) (vz (node sx i) (node sy j) t))).
Proof.
  intros c ln. refine (conj _ (conj _ (conj _ _))); [apply k1_len | intros i j k Hi Hj Hk; unfold c, ln ..].
  - rewrite k1_coef_x by assumption. apply rule_sum_ext; [exact Lx | exact Qx | now apply node_le |]. intros t Ht. fin3 t (node sy j) (node sz k).
  - rewrite k1_coef_y by assumption. apply rule_sum_ext; [exact Ly | exact Qy | now apply node_le |]. intros t Ht. fin3 (node sx i) t (node sz k).
  - rewrite k1_coef_z by assumption. apply rule_sum_ext; [exact Lz | exact Qz | now apply node_le |]. intros t Ht. fin3 (node sx i) (node sy j) t.
Qed.
Lemma k2_entries : let c := rd_m3n3k2 phi J F sx sy sz qx wx qy wy qz wz in let ln := ln_m3n3k2 px py pz in
  length c = nd_m3n3k2 px py pz /\
  (forall i j k, (i < length sx)%nat -> (j < py)%nat -> (k < pz)%nat ->
    rcoef (cochain c) ln 0 [i; j; k] = rule_sum2 qy wy qz wz (node sy j) (node sy (S j)) (node sz k) (node sz (S k)) (fun y z => through (F (phi (node sx i) y z)) (vy (node sx i) y z) (vz (node sx i) y z))) /\
  (forall i j k, (i < px)%nat -> (j < length sy)%nat -> (k < pz)%nat ->
    rcoef (cochain c) ln 1 [i; j; k] = rule_sum2 qx wx qz wz (node sx i) (node sx (S i)) (node sz k) (node sz (S k)) (fun x z => through (F (phi x (node sy j) z)) (vz x (node sy j) z) (vx x (node sy j) z))) /\
  (forall i j k, (i < px)%nat -> (j < py)%nat -> (k < length sz)%nat ->
    rcoef (cochain c) ln 2 [i; j; k] = rule_sum2 qx wx qy wy (node sx i) (node sx (S i)) (node sy j) (node sy (S j)) (fun x y => through (F (phi x y (node sz k))) (vx x y (node sz k)) (vy x y (node sz k)))).
Proof.
  intros c ln. refine (conj _ (conj _ (conj _ _))); [apply k2_len | intros i j k Hi Hj Hk; unfold c, ln ..].
  - rewrite k2_coef_x by assumption. apply rule_sum2_ext; try assumption; try (now apply node_le). intros y z Ty Tz. fin3 (node sx i) y z.
  - rewrite k2_coef_y by assumption. apply rule_sum2_ext; try assumption; try (now apply node_le). intros x z Tx Tz. fin3 x (node sy j) z.
  - rewrite k2_coef_z by assumption. apply rule_sum2_ext; try assumption; try (now apply node_le). intros x y Tx Ty. fin3 x y (node sz k).
Qed.
End Entries.
Lemma det_volume phi J vx vy vz x y z : smooth3 phi J -> moves3 phi vx vy vz -> ref x -> ref y -> ref z -> volume3 (vx x y z) (vy x y z) (vz x y z) = determinant 3 (J x y z).
Proof. intros HS HM Tx Ty Tz. destruct (columns3 phi J vx vy vz x y z HS HM Tx Ty Tz) as (-> & -> & ->). rewrite det_expand3. unfold volume3, along3, cross. cbn [fst snd]. ring. Qed.
