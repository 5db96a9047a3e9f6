(** The mass matrices are the matrices of the inner products of reconstructed forms. *)
From Coq Require Import List Arith Reals Lia Lra.
From Verif Require Import PolyModel PolySpec PolyProofs LocalNumberingModel TensorModel TensorSpec TensorThms MappingModel MappingSpec JacobianModel JacobianSpec JacobianProofs ReduceModel ReduceProofs ReduceForms ReduceRound ReduceRound3 MassModel MassSpec MassProofs.
Import ListNotations.
Local Open Scope R_scope.
Local Notation i0 := 0%nat.
Local Notation i1 := 1%nat.
Local Notation i2 := 2%nat.
Local Notation mat := MappingModel.mat.

(** arrays of physical components *)
Lemma vec2_nth push J xi et u v a b : rc_vector2 push J xi et (Some [u; v]) = Some [a; b] -> forall r, (r < length u)%nat ->
  let P := at2 xi et (fun x y => push (inverse 2 (J x y)) (nth r u 0, nth r v 0)) r in nth r a 0 = fst P /\ nth r b 0 = snd P.
Proof.
  unfold rc_vector2. intros E r Hr. cbn zeta in *. injection E as <- <-. unfold at2. rewrite !nth_map_seq by assumption. auto.
Qed.
Lemma vec3_nth push J xi et sg u v w a b c : rc_vector3 push J xi et sg (Some [u; v; w]) = Some [a; b; c] -> forall r, (r < length u)%nat ->
  let P := at3 xi et sg (fun x y z => push (inverse 3 (J x y z)) (nth r u 0, nth r v 0, nth r w 0)) r in
  nth r a 0 = fst (fst P) /\ nth r b 0 = snd (fst P) /\ nth r c 0 = snd P.
Proof.
  unfold rc_vector3. intros E r Hr. cbn zeta in *. injection E as <- <- <-. unfold at3. rewrite !nth_map_seq by assumption. auto.
Qed.
Lemma den2_nth J xi et u a : rc_density2 J xi et (Some [u]) = Some [a] -> forall r, (r < length u)%nat ->
  nth r a 0 = nth r u 0 * at2 xi et (fun x y => match jac_inv_det 2 (J x y) with Some d => d | None => 0 end) r.
Proof. unfold rc_density2. intros [= <-] r Hr. unfold at2. rewrite nth_map_seq by assumption. now destruct (nth r (points2 xi et) (0, 0)). Qed.
Lemma den3_nth J xi et sg u a : rc_density3 J xi et sg (Some [u]) = Some [a] -> forall r, (r < length u)%nat ->
  nth r a 0 = nth r u 0 * at3 xi et sg (fun x y z => match jac_inv_det 3 (J x y z) with Some d => d | None => 0 end) r.
Proof. unfold rc_density3. intros [= <-] r Hr. unfold at3. rewrite nth_map_seq by assumption. now destruct (nth r (points3 xi et sg) (0, 0, 0)) as [[] ?]. Qed.

Lemma at2_nth {A} qx qy (f : R -> R -> A) p q : (p < length qx)%nat -> (q < length qy)%nat -> at2 qx qy f (p + length qx * q) = f (nth p qx 0) (nth q qy 0).
Proof. intros. unfold at2. now rewrite points2_nth. Qed.
Lemma at3_nth {A} qx qy qz (f : R -> R -> R -> A) p q r : (p < length qx)%nat -> (q < length qy)%nat -> (r < length qz)%nat ->
  at3 qx qy qz f (p + length qx * (q + length qy * r)) = f (nth p qx 0) (nth q qy 0) (nth r qz 0).
Proof. intros. unfold at3. now rewrite points3_nth. Qed.

Lemma diag_off n M : diagonal n M -> forall i j, (i < n)%nat -> (j < n)%nat -> i <> j -> M i j = 0.
Proof. auto. Qed.
Lemma iG_diag2 M : diagonal 2 M -> jac_iG 2 (inverse 2 M) i0 i1 = 0 /\ jac_iG 2 (inverse 2 M) i1 i0 = 0.
Proof.
  intros D. unfold inverse, jac_inv, jac_iG, acc_sum, mat2. cbn [nth seq fold_left Nat.sub Nat.min Nat.max].
  rewrite (D i0 i1), (D i1 i0) by lia. split; ring.
Qed.
Lemma iG_diag3 M : diagonal 3 M -> forall i j, (i < 3)%nat -> (j < 3)%nat -> i <> j -> jac_iG 3 (inverse 3 M) i j = 0.
Proof.
  intros D. assert (E : forall i j, (i < 3)%nat -> (j < 3)%nat -> i <> j -> inverse 3 M i j = 0).
  { intros i j Hi Hj N. unfold inverse, jac_inv, mat3. destruct i as [| [| [|]]], j as [| [| [|]]]; try lia; cbn [nth];
    rewrite ?(D i0 i1), ?(D i0 i2), ?(D i1 i0), ?(D i1 i2), ?(D i2 i0), ?(D i2 i1) by lia; ring. }
  intros i j Hi Hj N. unfold jac_iG, acc_sum. cbn [seq fold_left Nat.sub].
  destruct i as [| [| [|]]], j as [| [| [|]]]; try lia; cbn [Nat.min Nat.max];
    rewrite ?(E i0 i1), ?(E i0 i2), ?(E i1 i0), ?(E i1 i2), ?(E i2 i0), ?(E i2 i1) by lia; ring.
Qed.

(** * 1-D *)
Lemma mass_1d_k0 J sx qx wx a b M ua ub : nodes_ok sx -> length a = nd_m1n1k0 (degree sx) -> length b = nd_m1n1k0 (degree sx) ->
  mm_m1n1k0 J sx qx wx = Some M -> rc_m1n1k0 sx qx a = Some [ua] -> rc_m1n1k0 sx qx b = Some [ub] ->
  square M (nd_m1n1k0 (degree sx)) /\
  bilinear M a b = rule1 qx wx (fun x p => determinant 1 (J x) * (nth p ua 0 * nth p ub 0)).
Proof.
  intros [_ L] La Lb [= <-] Ea Eb. split; [unfold square, nd_m1n1k0, degree; cbn; lia |].
  apply rec_1 in Ea, Eb. destruct Ea as [_ Ha], Eb as [_ Hb]. rewrite bilinear_bil.
  change (bil (fm_rows (node_m sx qx)) (fm_rows (node_m sx qx)) (fm_at (einsum2 (fun m => det_at 1 (J (nth m qx 0)) * nth m wx 0) (node_m sx qx) (node_m sx qx))) (cochain a) (cochain b) = rule1 qx wx (fun x p => determinant 1 (J x) * (nth p ua 0 * nth p ub 0))).
  rewrite bil_einsum2. apply total_ext. intros m Hm. rewrite Ha, Hb by assumption. rewrite det_at_eq by lia. ring.
Qed.
Lemma mass_1d_k1 J sx qx wx a b M ua ub : nodes_ok sx -> length a = nd_m1n1k1 (degree sx) -> length b = nd_m1n1k1 (degree sx) ->
  mm_m1n1k1 J sx qx wx = Some M -> rc_m1n1k1 sx qx a = Some [ua] -> rc_m1n1k1 sx qx b = Some [ub] ->
  (on_rule1 qx (fun x => determinant 1 (J x) <> 0)) ->
  square M (nd_m1n1k1 (degree sx)) /\
  bilinear M a b = rule1 qx wx (fun x p => determinant 1 (J x) * (nth p ua 0 / determinant 1 (J x) * (nth p ub 0 / determinant 1 (J x)))).
Proof.
  intros [_ L] La Lb [= <-] Ea Eb D. split; [unfold square, nd_m1n1k1, degree; cbn; lia |].
  apply rec_1 in Ea, Eb. destruct Ea as [_ Ha], Eb as [_ Hb]. rewrite bilinear_bil.
  change (bil (fm_rows (edge_m sx qx)) (fm_rows (edge_m sx qx)) (fm_at (einsum2 (fun m => / det_at 1 (J (nth m qx 0)) * nth m wx 0) (edge_m sx qx) (edge_m sx qx))) (cochain a) (cochain b) = rule1 qx wx (fun x p => determinant 1 (J x) * (nth p ua 0 / determinant 1 (J x) * (nth p ub 0 / determinant 1 (J x))))).
  rewrite bil_einsum2. apply total_ext. intros m Hm. rewrite Ha, Hb by assumption. rewrite det_at_eq by lia. field. now apply D.
Qed.

(** * 2-D *)
Section Two.
Variables (J : R -> R -> mat) (sx sy qx wx qy wy : list R).
Hypothesis (Hx : nodes_ok sx) (Hy : nodes_ok sy) (Lwx : length wx = length qx) (Lwy : length wy = length qy).

Lemma qw2_nth p q : (p < length qx)%nat -> (q < length qy)%nat -> qw2 wx wy (p + length qx * q) = nth p wx 0 * nth q wy 0.
Proof. intros Hp Hq. unfold qw2. rewrite <- Lwx. apply weights2_nth; lia. Qed.

Lemma mass_2d_k0 a b M ua ub : length a = nd_m2n2k0 (degree sx) (degree sy) -> length b = nd_m2n2k0 (degree sx) (degree sy) ->
  mm_m2n2k0 J sx sy qx wx qy wy = Some M -> rc_m2n2k0 sx sy qx qy a = Some [ua] -> rc_m2n2k0 sx sy qx qy b = Some [ub] ->
  square M (nd_m2n2k0 (degree sx) (degree sy)) /\
  bilinear M a b = rule2 qx wx qy wy (fun x y p q => determinant 2 (J x y) * (at_2d ua (length qx) p q * at_2d ub (length qx) p q)).
Proof.
  destruct Hx as [_ Lx], Hy as [_ Ly]. intros La Lb [= <-] Ea Eb. split; [unfold square, nd_m2n2k0, degree; cbn; nia |].
  apply rec_1 in Ea, Eb. destruct Ea as [_ Ha], Eb as [_ Hb]. rewrite bilinear_bil.
  set (B := kron (node_m sy qy) (node_m sx qx)) in *. change (fm_rows (einsum2 _ B B)) with (fm_rows B). change (fm_cols (einsum2 _ B B)) with (fm_rows B).
  rewrite bil_einsum2. change (fm_cols B) with (length qy * length qx)%nat in *. rewrite sum2.
  apply total_ext. intros p Hp. apply total_ext. intros q Hq. unfold at_2d.
  rewrite Ha, Hb by nia. unfold det2. rewrite at2_nth, qw2_nth, det_at_eq by (assumption || lia). ring.
Qed.
Lemma mass_2d_k2 a b M ra rb ua ub : length a = nd_m2n2k2 (degree sx) (degree sy) -> length b = nd_m2n2k2 (degree sx) (degree sy) ->
  on_rule2 qx qy (fun x y => determinant 2 (J x y) <> 0) ->
  mm_m2n2k2 J sx sy qx wx qy wy = Some M -> rc_m2n2k2 sx sy qx qy a = Some [ra] -> rc_m2n2k2 sx sy qx qy b = Some [rb] ->
  rc_density2 J qx qy (Some [ra]) = Some [ua] -> rc_density2 J qx qy (Some [rb]) = Some [ub] ->
  square M (nd_m2n2k2 (degree sx) (degree sy)) /\
  bilinear M a b = rule2 qx wx qy wy (fun x y p q => determinant 2 (J x y) * (at_2d ua (length qx) p q * at_2d ub (length qx) p q)).
Proof.
  destruct Hx as [_ Lx], Hy as [_ Ly]. intros La Lb D [= <-] Ea Eb Fa Fb. split; [unfold square, nd_m2n2k2, degree; cbn; nia |].
  apply rec_1 in Ea, Eb. destruct Ea as [La' Ha], Eb as [Lb' Hb]. rewrite bilinear_bil.
  set (B := kron (edge_m sy qy) (edge_m sx qx)) in *. change (fm_rows (einsum2 _ B B)) with (fm_rows B). change (fm_cols (einsum2 _ B B)) with (fm_rows B).
  rewrite bil_einsum2. change (fm_cols B) with (length qy * length qx)%nat in *. rewrite sum2.
  apply total_ext. intros p Hp. apply total_ext. intros q Hq. unfold at_2d.
  rewrite (den2_nth _ _ _ _ _ Fa), (den2_nth _ _ _ _ _ Fb) by nia. rewrite Ha, Hb by nia. unfold det2.
  rewrite !at2_nth, qw2_nth, det_at_eq by (assumption || lia).
  rewrite jac_inv_det_spec by (lia || now apply D). field. now apply D.
Qed.

Lemma mass_2d_inner linear a b M ra sa rb sb ua va ub vb :
  length a = nd_m2n2k1 (degree sx) (degree sy) -> length b = nd_m2n2k1 (degree sx) (degree sy) ->
  linear = false \/ on_rule2 qx qy (fun x y => diagonal 2 (J x y)) ->
  mm_m2n2k1_inner J sx sy qx wx qy wy linear = Some M ->
  rc_m2n2k1_inner sx sy qx qy a = Some [ra; sa] -> rc_m2n2k1_inner sx sy qx qy b = Some [rb; sb] ->
  rc_vector2 push_inner2 J qx qy (Some [ra; sa]) = Some [ua; va] -> rc_vector2 push_inner2 J qx qy (Some [rb; sb]) = Some [ub; vb] ->
  square M (nd_m2n2k1 (degree sx) (degree sy)) /\
  bilinear M a b = rule2 qx wx qy wy (fun x y p q => determinant 2 (J x y) *
    (at_2d ua (length qx) p q * at_2d ub (length qx) p q + at_2d va (length qx) p q * at_2d vb (length qx) p q)).
Proof.
  destruct Hx as [_ Lx], Hy as [_ Ly]. intros La Lb D EM Ea Eb Fa Fb.
  set (B0 := kron (node_m sy qy) (edge_m sx qx)) in *. set (B1 := kron (edge_m sy qy) (node_m sx qx)) in *.
  set (n0 := (degree sx * (degree sy + 1))%nat). set (n1 := ((degree sx + 1) * degree sy)%nat).
  assert (R0 : n0 = fm_rows B0) by (subst n0; unfold degree; cbn; nia).
  assert (R1 : n1 = fm_rows B1) by (subst n1; unfold degree; cbn; nia).
  assert (La' : length a = (n0 + n1)%nat) by (rewrite La; unfold nd_m2n2k1, n0, n1; lia).
  assert (Lb' : length b = (n0 + n1)%nat) by (rewrite Lb; unfold nd_m2n2k1, n0, n1; lia).
  assert (C0 : fm_cols B0 = (length qy * length qx)%nat) by reflexivity. assert (C1 : fm_cols B1 = (length qy * length qx)%nat) by reflexivity.
  set (o := if linear then None else Some (einsum2 (fun m => qw2 wx wy m * det2 J qx qy m * g2 J qx qy i0 i1 m) B0 B1)).
  assert (EM' : mm_m2n2k1_inner J sx sy qx wx qy wy linear = Some (bmat [fm_rows B0; fm_rows B1]
    [[Some (einsum2 (fun m => qw2 wx wy m * det2 J qx qy m * g2 J qx qy i0 i0 m) B0 B0); o]; [option_map ft o; Some (einsum2 (fun m => qw2 wx wy m * det2 J qx qy m * g2 J qx qy i1 i1 m) B1 B1)]])) by reflexivity.
  rewrite EM' in EM. clear EM'. assert (Q := f_equal (fun t => match t with Some m => m | None => M end) EM). cbn beta iota in Q. subst M. clear EM.
  split. { unfold square, nd_m2n2k1. cbn [bmat fm_rows fm_cols list_sum fold_right]. rewrite <- R0, <- R1. unfold n0, n1. lia. }
  destruct (rec_2 B0 B1 n0 n1 a ra sa Ea R0 R1 La') as (Lra & Hra & _ & Hsa).
  destruct (rec_2 B0 B1 n0 n1 b rb sb Eb R0 R1 Lb') as (Lrb & Hrb & _ & Hsb). rewrite R0 in Hsa, Hsb. rewrite C0 in *. rewrite C1 in *.
  assert (O : off B0 B1 (fun m => if linear then 0 else  (qw2 wx wy m * det2 J qx qy m * g2 J qx qy i0 i1 m)) o).
  { subst o. destruct linear; [apply off_none | apply off_some]. }
  rewrite (bil_two B0 B1 _ _ _ _ o a b C0 C1 O), sum2.
  apply total_ext. intros p Hp. apply total_ext. intros q Hq. unfold at_2d. set (m := (p + length qx * q)%nat).
  assert (Hm : (m < length qy * length qx)%nat) by (subst m; nia).
  rewrite <- Hra, <- Hsa, <- Hrb, <- Hsb by assumption.
  destruct (vec2_nth _ _ _ _ _ _ _ _ Fa m) as [-> ->]; [lia |]. destruct (vec2_nth _ _ _ _ _ _ _ _ Fb m) as [-> ->]; [lia |].
  unfold det2, g2. subst m. rewrite !at2_nth, qw2_nth, det_at_eq by (assumption || lia).
  assert (Z : linear = false \/ (jac_iG 2 (inverse 2 (J (nth p qx 0) (nth q qy 0))) i0 i1 = 0)).
  { destruct D as [D | D]; [now left | right]. apply iG_diag2. now apply D. }
  revert Z. generalize (inverse 2 (J (nth p qx 0) (nth q qy 0))). intros k Z. unfold jac_iG, acc_sum in *. cbn [seq fold_left Nat.sub Nat.min Nat.max push_inner2 fst snd] in *.
  destruct linear; [| ring]. destruct Z as [Z | Z]; [discriminate |].
  apply Rminus_diag_uniq. transitivity (- nth p wx 0 * nth q wy 0 * determinant 2 (J (nth p qx 0) (nth q qy 0)) * (k i0 i0 * k i1 i0 + k i0 i1 * k i1 i1)
    * (nth (p + length qx * q) ra 0 * nth (p + length qx * q) sb 0 + nth (p + length qx * q) sa 0 * nth (p + length qx * q) rb 0)); [ring | rewrite Z; ring].
Qed.
Lemma mass_2d_outer linear a b M ra sa rb sb ua va ub vb :
  length a = nd_m2n2k1 (degree sx) (degree sy) -> length b = nd_m2n2k1 (degree sx) (degree sy) ->
  linear = false \/ on_rule2 qx qy (fun x y => diagonal 2 (J x y)) ->
  mm_m2n2k1_outer J sx sy qx wx qy wy linear = Some M ->
  rc_m2n2k1_outer sx sy qx qy a = Some [ra; sa] -> rc_m2n2k1_outer sx sy qx qy b = Some [rb; sb] ->
  rc_vector2 push_outer2 J qx qy (Some [ra; sa]) = Some [ua; va] -> rc_vector2 push_outer2 J qx qy (Some [rb; sb]) = Some [ub; vb] ->
  square M (nd_m2n2k1 (degree sx) (degree sy)) /\
  bilinear M a b = rule2 qx wx qy wy (fun x y p q => determinant 2 (J x y) *
    (at_2d ua (length qx) p q * at_2d ub (length qx) p q + at_2d va (length qx) p q * at_2d vb (length qx) p q)).
Proof.
  destruct Hx as [_ Lx], Hy as [_ Ly]. intros La Lb D EM Ea Eb Fa Fb.
  set (B0 := kron (edge_m sy qy) (node_m sx qx)) in *. set (B1 := kron (node_m sy qy) (edge_m sx qx)) in *.
  set (n0 := ((degree sx + 1) * degree sy)%nat). set (n1 := (degree sx * (degree sy + 1))%nat).
  assert (R0 : n0 = fm_rows B0) by (subst n0; unfold degree; cbn; nia).
  assert (R1 : n1 = fm_rows B1) by (subst n1; unfold degree; cbn; nia).
  assert (La' : length a = (n0 + n1)%nat) by (rewrite La; unfold nd_m2n2k1, n0, n1; lia).
  assert (Lb' : length b = (n0 + n1)%nat) by (rewrite Lb; unfold nd_m2n2k1, n0, n1; lia).
  assert (C0 : fm_cols B0 = (length qy * length qx)%nat) by reflexivity. assert (C1 : fm_cols B1 = (length qy * length qx)%nat) by reflexivity.
  set (o := if linear then None else Some (fneg (einsum2 (fun m => qw2 wx wy m * det2 J qx qy m * g2 J qx qy i1 i0 m) B0 B1))).
  assert (EM' : mm_m2n2k1_outer J sx sy qx wx qy wy linear = Some (bmat [fm_rows B0; fm_rows B1]
    [[Some (einsum2 (fun m => qw2 wx wy m * det2 J qx qy m * g2 J qx qy i1 i1 m) B0 B0); o]; [option_map ft o; Some (einsum2 (fun m => qw2 wx wy m * det2 J qx qy m * g2 J qx qy i0 i0 m) B1 B1)]])) by reflexivity.
  rewrite EM' in EM. clear EM'. assert (Q := f_equal (fun t => match t with Some m => m | None => M end) EM). cbn beta iota in Q. subst M. clear EM.
  split. { unfold square, nd_m2n2k1. cbn [bmat fm_rows fm_cols list_sum fold_right]. rewrite <- R0, <- R1. unfold n0, n1. lia. }
  destruct (rec_2 B0 B1 n0 n1 a ra sa Ea R0 R1 La') as (Lra & Hra & _ & Hsa).
  destruct (rec_2 B0 B1 n0 n1 b rb sb Eb R0 R1 Lb') as (Lrb & Hrb & _ & Hsb). rewrite R0 in Hsa, Hsb. rewrite C0 in *. rewrite C1 in *.
  assert (O : off B0 B1 (fun m => if linear then 0 else - (qw2 wx wy m * det2 J qx qy m * g2 J qx qy i1 i0 m)) o).
  { subst o. destruct linear; [apply off_none | apply off_neg]. }
  rewrite (bil_two B0 B1 _ _ _ _ o a b C0 C1 O), sum2.
  apply total_ext. intros p Hp. apply total_ext. intros q Hq. unfold at_2d. set (m := (p + length qx * q)%nat).
  assert (Hm : (m < length qy * length qx)%nat) by (subst m; nia).
  rewrite <- Hra, <- Hsa, <- Hrb, <- Hsb by assumption.
  destruct (vec2_nth _ _ _ _ _ _ _ _ Fa m) as [-> ->]; [lia |]. destruct (vec2_nth _ _ _ _ _ _ _ _ Fb m) as [-> ->]; [lia |].
  unfold det2, g2. subst m. rewrite !at2_nth, qw2_nth, det_at_eq by (assumption || lia).
  assert (Z : linear = false \/ (jac_iG 2 (inverse 2 (J (nth p qx 0) (nth q qy 0))) i0 i1 = 0)).
  { destruct D as [D | D]; [now left | right]. apply iG_diag2. now apply D. }
  revert Z. generalize (inverse 2 (J (nth p qx 0) (nth q qy 0))). intros k Z. unfold jac_iG, acc_sum in *. cbn [seq fold_left Nat.sub Nat.min Nat.max push_outer2 fst snd] in *.
  destruct linear; [| ring]. destruct Z as [Z | Z]; [discriminate |].
  apply Rminus_diag_uniq. transitivity ( nth p wx 0 * nth q wy 0 * determinant 2 (J (nth p qx 0) (nth q qy 0)) * (k i0 i0 * k i1 i0 + k i0 i1 * k i1 i1)
    * (nth (p + length qx * q) ra 0 * nth (p + length qx * q) sb 0 + nth (p + length qx * q) sa 0 * nth (p + length qx * q) rb 0)); [ring | rewrite Z; ring].
Qed.
End Two.
(** * 3-D *)
Section Three.
Variables (J : R -> R -> R -> mat) (sx sy sz qx wx qy wy qz wz : list R).
Hypothesis (Hx : nodes_ok sx) (Hy : nodes_ok sy) (Hz : nodes_ok sz) (Lwx : length wx = length qx) (Lwy : length wy = length qy) (Lwz : length wz = length qz).

Lemma qw3_nth p q r : (p < length qx)%nat -> (q < length qy)%nat -> (r < length qz)%nat ->
  qw3 wx wy wz (p + length qx * (q + length qy * r)) = nth p wx 0 * nth q wy 0 * nth r wz 0.
Proof. intros Hp Hq Hr. unfold qw3. rewrite <- Lwx, <- Lwy. apply weights3_nth; lia. Qed.
Lemma lt3 p q r : (p < length qx)%nat -> (q < length qy)%nat -> (r < length qz)%nat -> (p + length qx * (q + length qy * r) < length qz * length qy * length qx)%nat.
Proof. intros Hp Hq Hr. enough (q + length qy * r < length qz * length qy)%nat by nia. nia. Qed.

Lemma mass_3d_k0 a b M ua ub : length a = nd_m3n3k0 (degree sx) (degree sy) (degree sz) -> length b = nd_m3n3k0 (degree sx) (degree sy) (degree sz) ->
  mm_m3n3k0 J sx sy sz qx wx qy wy qz wz = Some M -> rc_m3n3k0 sx sy sz qx qy qz a = Some [ua] -> rc_m3n3k0 sx sy sz qx qy qz b = Some [ub] ->
  square M (nd_m3n3k0 (degree sx) (degree sy) (degree sz)) /\
  bilinear M a b = rule3 qx wx qy wy qz wz (fun x y z p q r => determinant 3 (J x y z) *
    (at_3d ua (length qx) (length qy) p q r * at_3d ub (length qx) (length qy) p q r)).
Proof.
  destruct Hx as [_ Lx], Hy as [_ Ly], Hz as [_ Lz]. intros La Lb [= <-] Ea Eb.
  assert (Dx : length sx = S (degree sx)) by (unfold degree; lia). assert (Dy : length sy = S (degree sy)) by (unfold degree; lia). assert (Dz : length sz = S (degree sz)) by (unfold degree; lia).
  split; [unfold square, nd_m3n3k0; cbn; rewrite Dx, Dy, Dz; split; ring |].
  apply rec_1 in Ea, Eb. destruct Ea as [_ Ha], Eb as [_ Hb]. rewrite bilinear_bil.
  set (B := kron (kron (node_m sz qz) (node_m sy qy)) (node_m sx qx)) in *. change (fm_rows (einsum2 _ B B)) with (fm_rows B). change (fm_cols (einsum2 _ B B)) with (fm_rows B).
  rewrite bil_einsum2. change (fm_cols B) with (length qz * length qy * length qx)%nat in *. rewrite sum3.
  apply total_ext. intros p Hp. apply total_ext. intros q Hq. apply total_ext. intros r Hr. unfold at_3d.
  rewrite Ha, Hb by (now apply lt3). unfold det3. rewrite at3_nth, qw3_nth, det_at_eq by (assumption || lia). ring.
Qed.
Lemma mass_3d_k3 a b M ra rb ua ub : length a = nd_m3n3k3 (degree sx) (degree sy) (degree sz) -> length b = nd_m3n3k3 (degree sx) (degree sy) (degree sz) ->
  on_rule3 qx qy qz (fun x y z => determinant 3 (J x y z) <> 0) ->
  mm_m3n3k3 J sx sy sz qx wx qy wy qz wz = Some M -> rc_m3n3k3 sx sy sz qx qy qz a = Some [ra] -> rc_m3n3k3 sx sy sz qx qy qz b = Some [rb] ->
  rc_density3 J qx qy qz (Some [ra]) = Some [ua] -> rc_density3 J qx qy qz (Some [rb]) = Some [ub] ->
  square M (nd_m3n3k3 (degree sx) (degree sy) (degree sz)) /\
  bilinear M a b = rule3 qx wx qy wy qz wz (fun x y z p q r => determinant 3 (J x y z) *
    (at_3d ua (length qx) (length qy) p q r * at_3d ub (length qx) (length qy) p q r)).
Proof.
  destruct Hx as [_ Lx], Hy as [_ Ly], Hz as [_ Lz]. intros La Lb D [= <-] Ea Eb Fa Fb.
  split; [unfold square, nd_m3n3k3, degree; cbn; split; ring |].
  apply rec_1 in Ea, Eb. destruct Ea as [La' Ha], Eb as [Lb' Hb]. rewrite bilinear_bil.
  set (B := kron (kron (edge_m sz qz) (edge_m sy qy)) (edge_m sx qx)) in *. change (fm_rows (einsum2 _ B B)) with (fm_rows B). change (fm_cols (einsum2 _ B B)) with (fm_rows B).
  rewrite bil_einsum2. change (fm_cols B) with (length qz * length qy * length qx)%nat in *. rewrite sum3.
  apply total_ext. intros p Hp. apply total_ext. intros q Hq. apply total_ext. intros r Hr. unfold at_3d.
  pose proof (lt3 p q r Hp Hq Hr) as Hm.
  rewrite (den3_nth _ _ _ _ _ _ Fa), (den3_nth _ _ _ _ _ _ Fb) by lia. rewrite Ha, Hb by assumption. unfold det3.
  rewrite !at3_nth, qw3_nth, det_at_eq by (assumption || lia).
  rewrite jac_inv_det_spec by (lia || now apply D). field. now apply D.
Qed.

Lemma mass_3d_k1 linear a b M ra sa ta rb sb tb ua va wa ub vb wb :
  length a = nd_m3n3k1 (degree sx) (degree sy) (degree sz) -> length b = nd_m3n3k1 (degree sx) (degree sy) (degree sz) ->
  linear = false \/ on_rule3 qx qy qz (fun x y z => diagonal 3 (J x y z)) ->
  mm_m3n3k1 J sx sy sz qx wx qy wy qz wz linear = Some M ->
  rc_m3n3k1 sx sy sz qx qy qz a = Some [ra; sa; ta] -> rc_m3n3k1 sx sy sz qx qy qz b = Some [rb; sb; tb] ->
  rc_vector3 push1_3 J qx qy qz (Some [ra; sa; ta]) = Some [ua; va; wa] -> rc_vector3 push1_3 J qx qy qz (Some [rb; sb; tb]) = Some [ub; vb; wb] ->
  square M (nd_m3n3k1 (degree sx) (degree sy) (degree sz)) /\
  bilinear M a b = rule3 qx wx qy wy qz wz (fun x y z p q r => determinant 3 (J x y z) *
    (at_3d ua (length qx) (length qy) p q r * at_3d ub (length qx) (length qy) p q r + at_3d va (length qx) (length qy) p q r * at_3d vb (length qx) (length qy) p q r + at_3d wa (length qx) (length qy) p q r * at_3d wb (length qx) (length qy) p q r)).
Proof.
  destruct Hx as [_ Lx], Hy as [_ Ly], Hz as [_ Lz]. intros La Lb D EM Ea Eb Fa Fb.
  assert (Dx : length sx = (degree sx + 1)%nat) by (unfold degree; lia). assert (Dy : length sy = (degree sy + 1)%nat) by (unfold degree; lia). assert (Dz : length sz = (degree sz + 1)%nat) by (unfold degree; lia).
  set (B0 := kron (kron (node_m sz qz) (node_m sy qy)) (edge_m sx qx)) in *. set (B1 := kron (kron (node_m sz qz) (edge_m sy qy)) (node_m sx qx)) in *. set (B2 := kron (kron (edge_m sz qz) (node_m sy qy)) (node_m sx qx)) in *.
  set (n0 := (degree sx * (degree sy + 1) * (degree sz + 1))%nat). set (n1 := ((degree sx + 1) * degree sy * (degree sz + 1))%nat). set (n2 := ((degree sx + 1) * (degree sy + 1) * degree sz)%nat).
  assert (R0 : n0 = fm_rows B0) by (subst n0; cbn [B0 kron fm_rows node_m edge_m]; rewrite ?Dx, ?Dy, ?Dz; rewrite ?Nat.add_sub; ring).
  assert (R1 : n1 = fm_rows B1) by (subst n1; cbn [B1 kron fm_rows node_m edge_m]; rewrite ?Dx, ?Dy, ?Dz; rewrite ?Nat.add_sub; ring).
  assert (R2 : n2 = fm_rows B2) by (subst n2; cbn [B2 kron fm_rows node_m edge_m]; rewrite ?Dx, ?Dy, ?Dz; rewrite ?Nat.add_sub; ring).
  assert (P2 : (1 <= n2)%nat).
  { assert (1 <= degree sx)%nat by lia. assert (1 <= degree sy)%nat by lia. assert (1 <= degree sz)%nat by lia. subst n2. nia. }
  assert (La' : length a = (n0 + n1 + n2)%nat) by (rewrite La; reflexivity).
  assert (Lb' : length b = (n0 + n1 + n2)%nat) by (rewrite Lb; reflexivity).
  assert (C0 : fm_cols B0 = (length qz * length qy * length qx)%nat) by reflexivity.
  assert (C1 : fm_cols B1 = (length qz * length qy * length qx)%nat) by reflexivity.
  assert (C2 : fm_cols B2 = (length qz * length qy * length qx)%nat) by reflexivity.
  set (o01 := if linear then None else Some (einsum2 (fun m => qw3 wx wy wz m * det3 J qx qy qz m * (g3 J qx qy qz i0 i1 m)) B0 B1)).
  set (o02 := if linear then None else Some (einsum2 (fun m => qw3 wx wy wz m * det3 J qx qy qz m * (g3 J qx qy qz i0 i2 m)) B0 B2)).
  set (o12 := if linear then None else Some (einsum2 (fun m => qw3 wx wy wz m * det3 J qx qy qz m * (g3 J qx qy qz i1 i2 m)) B1 B2)).
  assert (EM' : mm_m3n3k1 J sx sy sz qx wx qy wy qz wz linear = Some (bmat [fm_rows B0; fm_rows B1; fm_rows B2]
    [[Some (einsum2 (fun m => qw3 wx wy wz m * det3 J qx qy qz m * g3 J qx qy qz i0 i0 m) B0 B0); o01; o02]; [option_map ft o01; Some (einsum2 (fun m => qw3 wx wy wz m * det3 J qx qy qz m * g3 J qx qy qz i1 i1 m) B1 B1); o12]; [option_map ft o02; option_map ft o12; Some (einsum2 (fun m => qw3 wx wy wz m * det3 J qx qy qz m * g3 J qx qy qz i2 i2 m) B2 B2)]])) by reflexivity.
  rewrite EM' in EM. clear EM'. assert (Q := f_equal (fun t => match t with Some m => m | None => M end) EM). cbn beta iota in Q. subst M. clear EM.
  split. { unfold square, nd_m3n3k1. cbn [bmat fm_rows fm_cols list_sum fold_right]. rewrite <- R0, <- R1, <- R2. unfold n0, n1, n2. split; ring. }
  destruct (rec_3 B0 B1 B2 n0 n1 n2 a ra sa ta Ea R0 R1 R2 La' P2) as (Lra & Hra & _ & Hsa & _ & Hta).
  destruct (rec_3 B0 B1 B2 n0 n1 n2 b rb sb tb Eb R0 R1 R2 Lb' P2) as (Lrb & Hrb & _ & Hsb & _ & Htb).
  rewrite R0 in Hsa, Hsb, Hta, Htb. rewrite R1 in Hta, Htb. rewrite C0 in Hra, Hrb, Lra, Lrb. rewrite C1 in Hsa, Hsb. rewrite C2 in Hta, Htb.
  assert (O01 : off B0 B1 (fun m => if linear then 0 else qw3 wx wy wz m * det3 J qx qy qz m * (g3 J qx qy qz i0 i1 m)) o01) by (subst o01; destruct linear; [apply off_none | apply off_some]).
  assert (O02 : off B0 B2 (fun m => if linear then 0 else qw3 wx wy wz m * det3 J qx qy qz m * (g3 J qx qy qz i0 i2 m)) o02) by (subst o02; destruct linear; [apply off_none | apply off_some]).
  assert (O12 : off B1 B2 (fun m => if linear then 0 else qw3 wx wy wz m * det3 J qx qy qz m * (g3 J qx qy qz i1 i2 m)) o12) by (subst o12; destruct linear; [apply off_none | apply off_some]).
  rewrite (bil_three B0 B1 B2 _ _ _ _ _ _ _ o01 o02 o12 a b C0 C1 C2 O01 O02 O12), sum3. cbn zeta.
  apply total_ext. intros p Hp. apply total_ext. intros q Hq. apply total_ext. intros r Hr. unfold at_3d.
  pose proof (lt3 p q r Hp Hq Hr) as Hm. rewrite <- Hra, <- Hsa, <- Hta, <- Hrb, <- Hsb, <- Htb by exact Hm.
  destruct (vec3_nth _ _ _ _ _ _ _ _ _ _ _ Fa _ (eq_ind_r (fun t => (_ < t)%nat) Hm Lra)) as (-> & -> & ->).
  destruct (vec3_nth _ _ _ _ _ _ _ _ _ _ _ Fb _ (eq_ind_r (fun t => (_ < t)%nat) Hm Lrb)) as (-> & -> & ->).
  assert (Z : linear = false \/ (forall i j, (i < 3)%nat -> (j < 3)%nat -> i <> j -> jac_iG 3 (inverse 3 (J (nth p qx 0) (nth q qy 0) (nth r qz 0))) i j = 0)).
  { destruct D as [D | D]; [now left | right]. apply iG_diag3. now apply D. }
  transitivity (let k := inverse 3 (J (nth p qx 0) (nth q qy 0) (nth r qz 0)) in (nth p wx 0 * nth q wy 0 * nth r wz 0 * determinant 3 (J (nth p qx 0) (nth q qy 0) (nth r qz 0)) *
    (jac_iG 3 k i0 i0 * (nth (p + length qx * (q + length qy * r)) ra 0 * nth (p + length qx * (q + length qy * r)) rb 0) + jac_iG 3 k i1 i1 * (nth (p + length qx * (q + length qy * r)) sa 0 * nth (p + length qx * (q + length qy * r)) sb 0) + jac_iG 3 k i2 i2 * (nth (p + length qx * (q + length qy * r)) ta 0 * nth (p + length qx * (q + length qy * r)) tb 0)
     + (jac_iG 3 k i0 i1) * (nth (p + length qx * (q + length qy * r)) ra 0 * nth (p + length qx * (q + length qy * r)) sb 0 + nth (p + length qx * (q + length qy * r)) sa 0 * nth (p + length qx * (q + length qy * r)) rb 0) + (jac_iG 3 k i0 i2) * (nth (p + length qx * (q + length qy * r)) ra 0 * nth (p + length qx * (q + length qy * r)) tb 0 + nth (p + length qx * (q + length qy * r)) ta 0 * nth (p + length qx * (q + length qy * r)) rb 0) + (jac_iG 3 k i1 i2) * (nth (p + length qx * (q + length qy * r)) sa 0 * nth (p + length qx * (q + length qy * r)) tb 0 + nth (p + length qx * (q + length qy * r)) ta 0 * nth (p + length qx * (q + length qy * r)) sb 0)))).
  - unfold det3, g3. cbn zeta. destruct linear; rewrite !at3_nth, qw3_nth, det_at_eq by (assumption || lia); [| ring].
    destruct Z as [Z | Z]; [discriminate |]. rewrite (Z i0 i1), (Z i0 i2), (Z i1 i2), ?(Z i1 i0), ?(Z i2 i0), ?(Z i2 i1) by lia. ring.
  - rewrite !at3_nth by assumption. clear Z. cbn zeta.
    generalize (inverse 3 (J (nth p qx 0) (nth q qy 0) (nth r qz 0))). intros k. unfold jac_iG, acc_sum. cbn [seq fold_left Nat.sub Nat.min Nat.max push1_3 fst snd]. ring.
Qed.

Lemma mass_3d_k2 linear a b M ra sa ta rb sb tb ua va wa ub vb wb :
  length a = nd_m3n3k2 (degree sx) (degree sy) (degree sz) -> length b = nd_m3n3k2 (degree sx) (degree sy) (degree sz) ->
  linear = false \/ on_rule3 qx qy qz (fun x y z => diagonal 3 (J x y z)) ->
  mm_m3n3k2 J sx sy sz qx wx qy wy qz wz linear = Some M ->
  rc_m3n3k2 sx sy sz qx qy qz a = Some [ra; sa; ta] -> rc_m3n3k2 sx sy sz qx qy qz b = Some [rb; sb; tb] ->
  rc_vector3 push2_3 J qx qy qz (Some [ra; sa; ta]) = Some [ua; va; wa] -> rc_vector3 push2_3 J qx qy qz (Some [rb; sb; tb]) = Some [ub; vb; wb] ->
  square M (nd_m3n3k2 (degree sx) (degree sy) (degree sz)) /\
  bilinear M a b = rule3 qx wx qy wy qz wz (fun x y z p q r => determinant 3 (J x y z) *
    (at_3d ua (length qx) (length qy) p q r * at_3d ub (length qx) (length qy) p q r + at_3d va (length qx) (length qy) p q r * at_3d vb (length qx) (length qy) p q r + at_3d wa (length qx) (length qy) p q r * at_3d wb (length qx) (length qy) p q r)).
Proof.
  destruct Hx as [_ Lx], Hy as [_ Ly], Hz as [_ Lz]. intros La Lb D EM Ea Eb Fa Fb.
  assert (Dx : length sx = (degree sx + 1)%nat) by (unfold degree; lia). assert (Dy : length sy = (degree sy + 1)%nat) by (unfold degree; lia). assert (Dz : length sz = (degree sz + 1)%nat) by (unfold degree; lia).
  set (B0 := kron (kron (edge_m sz qz) (edge_m sy qy)) (node_m sx qx)) in *. set (B1 := kron (kron (edge_m sz qz) (node_m sy qy)) (edge_m sx qx)) in *. set (B2 := kron (kron (node_m sz qz) (edge_m sy qy)) (edge_m sx qx)) in *.
  set (n0 := ((degree sx + 1) * degree sy * degree sz)%nat). set (n1 := (degree sx * (degree sy + 1) * degree sz)%nat). set (n2 := (degree sx * degree sy * (degree sz + 1))%nat).
  assert (R0 : n0 = fm_rows B0) by (subst n0; cbn [B0 kron fm_rows node_m edge_m]; rewrite ?Dx, ?Dy, ?Dz; rewrite ?Nat.add_sub; ring).
  assert (R1 : n1 = fm_rows B1) by (subst n1; cbn [B1 kron fm_rows node_m edge_m]; rewrite ?Dx, ?Dy, ?Dz; rewrite ?Nat.add_sub; ring).
  assert (R2 : n2 = fm_rows B2) by (subst n2; cbn [B2 kron fm_rows node_m edge_m]; rewrite ?Dx, ?Dy, ?Dz; rewrite ?Nat.add_sub; ring).
  assert (P2 : (1 <= n2)%nat).
  { assert (1 <= degree sx)%nat by lia. assert (1 <= degree sy)%nat by lia. assert (1 <= degree sz)%nat by lia. subst n2. nia. }
  assert (La' : length a = (n0 + n1 + n2)%nat) by (rewrite La; reflexivity).
  assert (Lb' : length b = (n0 + n1 + n2)%nat) by (rewrite Lb; reflexivity).
  assert (C0 : fm_cols B0 = (length qz * length qy * length qx)%nat) by reflexivity.
  assert (C1 : fm_cols B1 = (length qz * length qy * length qx)%nat) by reflexivity.
  assert (C2 : fm_cols B2 = (length qz * length qy * length qx)%nat) by reflexivity.
  set (o01 := if linear then None else Some (einsum2 (fun m => qw3 wx wy wz m * det3 J qx qy qz m * (g3 J qx qy qz i1 i2 m * g3 J qx qy qz i2 i0 m - g3 J qx qy qz i1 i0 m * g3 J qx qy qz i2 i2 m)) B0 B1)).
  set (o02 := if linear then None else Some (einsum2 (fun m => qw3 wx wy wz m * det3 J qx qy qz m * (g3 J qx qy qz i1 i0 m * g3 J qx qy qz i2 i1 m - g3 J qx qy qz i1 i1 m * g3 J qx qy qz i2 i0 m)) B0 B2)).
  set (o12 := if linear then None else Some (einsum2 (fun m => qw3 wx wy wz m * det3 J qx qy qz m * (g3 J qx qy qz i2 i0 m * g3 J qx qy qz i0 i1 m - g3 J qx qy qz i2 i1 m * g3 J qx qy qz i0 i0 m)) B1 B2)).
  assert (EM' : mm_m3n3k2 J sx sy sz qx wx qy wy qz wz linear = Some (bmat [fm_rows B0; fm_rows B1; fm_rows B2]
    [[Some (einsum2 (fun m => qw3 wx wy wz m * det3 J qx qy qz m * (if linear then (fun m => g3 J qx qy qz i1 i1 m * g3 J qx qy qz i2 i2 m) else (fun m => g3 J qx qy qz i1 i1 m * g3 J qx qy qz i2 i2 m - g3 J qx qy qz i1 i2 m * g3 J qx qy qz i2 i1 m)) m) B0 B0); o01; o02]; [option_map ft o01; Some (einsum2 (fun m => qw3 wx wy wz m * det3 J qx qy qz m * (if linear then (fun m => g3 J qx qy qz i2 i2 m * g3 J qx qy qz i0 i0 m) else (fun m => g3 J qx qy qz i2 i2 m * g3 J qx qy qz i0 i0 m - g3 J qx qy qz i2 i0 m * g3 J qx qy qz i0 i2 m)) m) B1 B1); o12]; [option_map ft o02; option_map ft o12; Some (einsum2 (fun m => qw3 wx wy wz m * det3 J qx qy qz m * (if linear then (fun m => g3 J qx qy qz i0 i0 m * g3 J qx qy qz i1 i1 m) else (fun m => g3 J qx qy qz i0 i0 m * g3 J qx qy qz i1 i1 m - g3 J qx qy qz i0 i1 m * g3 J qx qy qz i1 i0 m)) m) B2 B2)]])) by reflexivity.
  rewrite EM' in EM. clear EM'. assert (Q := f_equal (fun t => match t with Some m => m | None => M end) EM). cbn beta iota in Q. subst M. clear EM.
  split. { unfold square, nd_m3n3k2. cbn [bmat fm_rows fm_cols list_sum fold_right]. rewrite <- R0, <- R1, <- R2. unfold n0, n1, n2. split; ring. }
  destruct (rec_3 B0 B1 B2 n0 n1 n2 a ra sa ta Ea R0 R1 R2 La' P2) as (Lra & Hra & _ & Hsa & _ & Hta).
  destruct (rec_3 B0 B1 B2 n0 n1 n2 b rb sb tb Eb R0 R1 R2 Lb' P2) as (Lrb & Hrb & _ & Hsb & _ & Htb).
  rewrite R0 in Hsa, Hsb, Hta, Htb. rewrite R1 in Hta, Htb. rewrite C0 in Hra, Hrb, Lra, Lrb. rewrite C1 in Hsa, Hsb. rewrite C2 in Hta, Htb.
  assert (O01 : off B0 B1 (fun m => if linear then 0 else qw3 wx wy wz m * det3 J qx qy qz m * (g3 J qx qy qz i1 i2 m * g3 J qx qy qz i2 i0 m - g3 J qx qy qz i1 i0 m * g3 J qx qy qz i2 i2 m)) o01) by (subst o01; destruct linear; [apply off_none | apply off_some]).
  assert (O02 : off B0 B2 (fun m => if linear then 0 else qw3 wx wy wz m * det3 J qx qy qz m * (g3 J qx qy qz i1 i0 m * g3 J qx qy qz i2 i1 m - g3 J qx qy qz i1 i1 m * g3 J qx qy qz i2 i0 m)) o02) by (subst o02; destruct linear; [apply off_none | apply off_some]).
  assert (O12 : off B1 B2 (fun m => if linear then 0 else qw3 wx wy wz m * det3 J qx qy qz m * (g3 J qx qy qz i2 i0 m * g3 J qx qy qz i0 i1 m - g3 J qx qy qz i2 i1 m * g3 J qx qy qz i0 i0 m)) o12) by (subst o12; destruct linear; [apply off_none | apply off_some]).
  rewrite (bil_three B0 B1 B2 _ _ _ _ _ _ _ o01 o02 o12 a b C0 C1 C2 O01 O02 O12), sum3. cbn zeta.
  apply total_ext. intros p Hp. apply total_ext. intros q Hq. apply total_ext. intros r Hr. unfold at_3d.
  pose proof (lt3 p q r Hp Hq Hr) as Hm. rewrite <- Hra, <- Hsa, <- Hta, <- Hrb, <- Hsb, <- Htb by exact Hm.
  destruct (vec3_nth _ _ _ _ _ _ _ _ _ _ _ Fa _ (eq_ind_r (fun t => (_ < t)%nat) Hm Lra)) as (-> & -> & ->).
  destruct (vec3_nth _ _ _ _ _ _ _ _ _ _ _ Fb _ (eq_ind_r (fun t => (_ < t)%nat) Hm Lrb)) as (-> & -> & ->).
  assert (Z : linear = false \/ (forall i j, (i < 3)%nat -> (j < 3)%nat -> i <> j -> jac_iG 3 (inverse 3 (J (nth p qx 0) (nth q qy 0) (nth r qz 0))) i j = 0)).
  { destruct D as [D | D]; [now left | right]. apply iG_diag3. now apply D. }
  transitivity (let k := inverse 3 (J (nth p qx 0) (nth q qy 0) (nth r qz 0)) in (nth p wx 0 * nth q wy 0 * nth r wz 0 * determinant 3 (J (nth p qx 0) (nth q qy 0) (nth r qz 0)) *
    ((jac_iG 3 k i1 i1 * jac_iG 3 k i2 i2 - jac_iG 3 k i1 i2 * jac_iG 3 k i2 i1) * (nth (p + length qx * (q + length qy * r)) ra 0 * nth (p + length qx * (q + length qy * r)) rb 0) + (jac_iG 3 k i2 i2 * jac_iG 3 k i0 i0 - jac_iG 3 k i2 i0 * jac_iG 3 k i0 i2) * (nth (p + length qx * (q + length qy * r)) sa 0 * nth (p + length qx * (q + length qy * r)) sb 0) + (jac_iG 3 k i0 i0 * jac_iG 3 k i1 i1 - jac_iG 3 k i0 i1 * jac_iG 3 k i1 i0) * (nth (p + length qx * (q + length qy * r)) ta 0 * nth (p + length qx * (q + length qy * r)) tb 0)
     + (jac_iG 3 k i1 i2 * jac_iG 3 k i2 i0 - jac_iG 3 k i1 i0 * jac_iG 3 k i2 i2) * (nth (p + length qx * (q + length qy * r)) ra 0 * nth (p + length qx * (q + length qy * r)) sb 0 + nth (p + length qx * (q + length qy * r)) sa 0 * nth (p + length qx * (q + length qy * r)) rb 0) + (jac_iG 3 k i1 i0 * jac_iG 3 k i2 i1 - jac_iG 3 k i1 i1 * jac_iG 3 k i2 i0) * (nth (p + length qx * (q + length qy * r)) ra 0 * nth (p + length qx * (q + length qy * r)) tb 0 + nth (p + length qx * (q + length qy * r)) ta 0 * nth (p + length qx * (q + length qy * r)) rb 0) + (jac_iG 3 k i2 i0 * jac_iG 3 k i0 i1 - jac_iG 3 k i2 i1 * jac_iG 3 k i0 i0) * (nth (p + length qx * (q + length qy * r)) sa 0 * nth (p + length qx * (q + length qy * r)) tb 0 + nth (p + length qx * (q + length qy * r)) ta 0 * nth (p + length qx * (q + length qy * r)) sb 0)))).
  - unfold det3, g3. cbn zeta. destruct linear; rewrite !at3_nth, qw3_nth, det_at_eq by (assumption || lia); [| ring].
    destruct Z as [Z | Z]; [discriminate |]. rewrite (Z i0 i1), (Z i0 i2), (Z i1 i2), ?(Z i1 i0), ?(Z i2 i0), ?(Z i2 i1) by lia. ring.
  - rewrite !at3_nth by assumption. clear Z. cbn zeta.
    generalize (inverse 3 (J (nth p qx 0) (nth q qy 0) (nth r qz 0))). intros k. unfold jac_iG, acc_sum. cbn [seq fold_left Nat.sub Nat.min Nat.max push2_3 fst snd]. ring.
Qed.
End Three.
