(** C57: forms on tensor product elements. *)
From Coq Require Import ZArith List Arith Reals Lia Lra.
From Coquelicot Require Import Coquelicot.
From Verif Require Import NdArray LocalNumberingModel IncidenceModel IncidenceSpec IncidenceThms.
From Verif Require Import PolyModel PolySpec PolyProofs TensorModel TensorSpec TensorThms.
Import ListNotations.
Local Open Scope R_scope.

(** * The incidence matrix is the exterior derivative of the reconstructed form *)

(** One dimension: the derivative. *)
Theorem tensor_gradient_1d s E x : nodes_ok s -> E_m1n1k0 (degree s) = Some E ->
  forall xi, is_derive (form1 x (ln_m1n1k0 (degree s)) 0 (nodal s)) xi (form1 (apply E x) (ln_m1n1k1 (degree s)) 0 (edges s) xi).
Proof. exact (@gradient_1d s E x). Qed.
Print Assumptions tensor_gradient_1d.

(** Inner orientation, two dimensions: gradient, *)
Theorem tensor_gradient_2d sx sy E x : nodes_ok sx -> nodes_ok sy -> E_m2n2k0_inner (degree sx) (degree sy) = Some E ->
  let f := form2 x (ln_m2n2k0 (degree sx) (degree sy)) 0 (nodal sx) (nodal sy) in
  let ln := ln_m2n2k1_inner (degree sx) (degree sy) in
  forall xi et, is_derive (fun xi => f xi et) xi (form2 (apply E x) ln 0 (edges sx) (nodal sy) xi et) /\
                is_derive (fun et => f xi et) et (form2 (apply E x) ln 1 (nodal sx) (edges sy) xi et).
Proof. exact (@gradient_2d_inner sx sy E x). Qed.
Print Assumptions tensor_gradient_2d.

(** and rotation. *)
Theorem tensor_rot_2d sx sy E x : nodes_ok sx -> nodes_ok sy -> E_m2n2k1_inner (degree sx) (degree sy) = Some E ->
  let ln := ln_m2n2k1_inner (degree sx) (degree sy) in
  let u := form2 x ln 0 (edges sx) (nodal sy) in let v := form2 x ln 1 (nodal sx) (edges sy) in
  forall xi et, exists vx uy, is_derive (fun xi => v xi et) xi vx /\ is_derive (fun et => u xi et) et uy /\
    form2 (apply E x) (ln_m2n2k2 (degree sx) (degree sy)) 0 (edges sx) (edges sy) xi et = vx - uy.
Proof. exact (@rot_2d_inner sx sy E x). Qed.
Print Assumptions tensor_rot_2d.

(** Outer orientation, two dimensions: curl of a scalar, *)
Theorem tensor_curl_2d sx sy E x : nodes_ok sx -> nodes_ok sy -> E_m2n2k0_outer (degree sx) (degree sy) = Some E ->
  let f := form2 x (ln_m2n2k0 (degree sx) (degree sy)) 0 (nodal sx) (nodal sy) in
  let ln := ln_m2n2k1_outer (degree sx) (degree sy) in
  forall xi et, is_derive (fun et => f xi et) et (form2 (apply E x) ln 0 (nodal sx) (edges sy) xi et) /\
                is_derive (fun xi => f xi et) xi (- form2 (apply E x) ln 1 (edges sx) (nodal sy) xi et).
Proof. exact (@curl_2d_outer sx sy E x). Qed.
Print Assumptions tensor_curl_2d.

(** and divergence. *)
Theorem tensor_divergence_2d sx sy E x : nodes_ok sx -> nodes_ok sy -> E_m2n2k1_outer (degree sx) (degree sy) = Some E ->
  let ln := ln_m2n2k1_outer (degree sx) (degree sy) in
  let u := form2 x ln 0 (nodal sx) (edges sy) in let v := form2 x ln 1 (edges sx) (nodal sy) in
  forall xi et, exists ux vy, is_derive (fun xi => u xi et) xi ux /\ is_derive (fun et => v xi et) et vy /\
    form2 (apply E x) (ln_m2n2k2 (degree sx) (degree sy)) 0 (edges sx) (edges sy) xi et = ux + vy.
Proof. exact (@divergence_2d_outer sx sy E x). Qed.
Print Assumptions tensor_divergence_2d.

(** Three dimensions: gradient, *)
Theorem tensor_gradient_3d sx sy sz E x : nodes_ok sx -> nodes_ok sy -> nodes_ok sz -> E_m3n3k0 (degree sx) (degree sy) (degree sz) = Some E ->
  let f := form3 x (ln_m3n3k0 (degree sx) (degree sy) (degree sz)) 0 (nodal sx) (nodal sy) (nodal sz) in
  let ln := ln_m3n3k1 (degree sx) (degree sy) (degree sz) in
  forall xi et sg,
    is_derive (fun xi => f xi et sg) xi (form3 (apply E x) ln 0 (edges sx) (nodal sy) (nodal sz) xi et sg) /\
    is_derive (fun et => f xi et sg) et (form3 (apply E x) ln 1 (nodal sx) (edges sy) (nodal sz) xi et sg) /\
    is_derive (fun sg => f xi et sg) sg (form3 (apply E x) ln 2 (nodal sx) (nodal sy) (edges sz) xi et sg).
Proof. exact (@gradient_3d sx sy sz E x). Qed.
Print Assumptions tensor_gradient_3d.

(** curl, *)
Theorem tensor_curl_3d sx sy sz E x : nodes_ok sx -> nodes_ok sy -> nodes_ok sz -> E_m3n3k1 (degree sx) (degree sy) (degree sz) = Some E ->
  let l1 := ln_m3n3k1 (degree sx) (degree sy) (degree sz) in let l2 := ln_m3n3k2 (degree sx) (degree sy) (degree sz) in
  let u := form3 x l1 0 (edges sx) (nodal sy) (nodal sz) in let v := form3 x l1 1 (nodal sx) (edges sy) (nodal sz) in
  let w := form3 x l1 2 (nodal sx) (nodal sy) (edges sz) in
  forall xi et sg, exists uy uz vx vz wx wy,
    is_derive (fun et => u xi et sg) et uy /\ is_derive (fun sg => u xi et sg) sg uz /\
    is_derive (fun xi => v xi et sg) xi vx /\ is_derive (fun sg => v xi et sg) sg vz /\
    is_derive (fun xi => w xi et sg) xi wx /\ is_derive (fun et => w xi et sg) et wy /\
    form3 (apply E x) l2 0 (nodal sx) (edges sy) (edges sz) xi et sg = wy - vz /\
    form3 (apply E x) l2 1 (edges sx) (nodal sy) (edges sz) xi et sg = uz - wx /\
    form3 (apply E x) l2 2 (edges sx) (edges sy) (nodal sz) xi et sg = vx - uy.
Proof. exact (@curl_3d sx sy sz E x). Qed.
Print Assumptions tensor_curl_3d.

(** and divergence. *)
Theorem tensor_divergence_3d sx sy sz E x : nodes_ok sx -> nodes_ok sy -> nodes_ok sz -> E_m3n3k2 (degree sx) (degree sy) (degree sz) = Some E ->
  let l2 := ln_m3n3k2 (degree sx) (degree sy) (degree sz) in let l3 := ln_m3n3k3 (degree sx) (degree sy) (degree sz) in
  let u := form3 x l2 0 (nodal sx) (edges sy) (edges sz) in let v := form3 x l2 1 (edges sx) (nodal sy) (edges sz) in
  let w := form3 x l2 2 (edges sx) (edges sy) (nodal sz) in
  forall xi et sg, exists ux vy wz,
    is_derive (fun xi => u xi et sg) xi ux /\ is_derive (fun et => v xi et sg) et vy /\ is_derive (fun sg => w xi et sg) sg wz /\
    form3 (apply E x) l3 0 (edges sx) (edges sy) (edges sz) xi et sg = ux + vy + wz.
Proof. exact (@divergence_3d sx sy sz E x). Qed.
Print Assumptions tensor_divergence_3d.

(** The matrices exist for all degrees. *)
Theorem tensor_matrices_exist p q r : E_m1n1k0 p <> None /\ E_m2n2k0_inner p q <> None /\ E_m2n2k1_inner p q <> None /\
  E_m2n2k0_outer p q <> None /\ E_m2n2k1_outer p q <> None /\ E_m3n3k0 p q r <> None /\ E_m3n3k1 p q r <> None /\ E_m3n3k2 p q r <> None.
Proof. exact (matrices_exist p q r). Qed.
Print Assumptions tensor_matrices_exist.

(** * Reducing a reconstructed form gives its cochain: values at nodes, integrals over edges, faces and cells between nodes *)

Theorem tensor_point_1d (x : nat -> R) ln m sx i : nodes_ok sx ->
  (i < length sx)%nat -> form1 x ln m (nodal sx) (node sx i) = (rcoef x ln m [i]).
Proof. exact (fun Hsx => @red_N x ln m sx Hsx i). Qed.
Print Assumptions tensor_point_1d.

Theorem tensor_edge_1d (x : nat -> R) ln m sx i : nodes_ok sx ->
  (i < degree sx)%nat -> is_RInt (form1 x ln m (edges sx)) (node sx i) (node sx (S i)) (rcoef x ln m [i]).
Proof. exact (fun Hsx => @red_E x ln m sx Hsx i). Qed.
Print Assumptions tensor_edge_1d.

Theorem tensor_point_2d (x : nat -> R) ln m sx sy i j : nodes_ok sx -> nodes_ok sy ->
  (i < length sx)%nat -> (j < length sy)%nat -> form2 x ln m (nodal sx) (nodal sy) (node sx i) (node sy j) = (rcoef x ln m [i; j]).
Proof. exact (fun Hsx Hsy => @red_NN x ln m sx sy Hsx Hsy i j). Qed.
Print Assumptions tensor_point_2d.

Theorem tensor_edge_2d_x (x : nat -> R) ln m sx sy i j : nodes_ok sx -> nodes_ok sy ->
  (i < degree sx)%nat -> (j < length sy)%nat -> is_RInt (fun xi => form2 x ln m (edges sx) (nodal sy) xi (node sy j)) (node sx i) (node sx (S i)) (rcoef x ln m [i; j]).
Proof. exact (fun Hsx Hsy => @red_EN x ln m sx sy Hsx Hsy i j). Qed.
Print Assumptions tensor_edge_2d_x.

Theorem tensor_edge_2d_y (x : nat -> R) ln m sx sy i j : nodes_ok sx -> nodes_ok sy ->
  (i < length sx)%nat -> (j < degree sy)%nat -> is_RInt (fun et => form2 x ln m (nodal sx) (edges sy) (node sx i) et) (node sy j) (node sy (S j)) (rcoef x ln m [i; j]).
Proof. exact (fun Hsx Hsy => @red_NE x ln m sx sy Hsx Hsy i j). Qed.
Print Assumptions tensor_edge_2d_y.

Theorem tensor_face_2d (x : nat -> R) ln m sx sy i j : nodes_ok sx -> nodes_ok sy ->
  (i < degree sx)%nat -> (j < degree sy)%nat -> integral2 (form2 x ln m (edges sx) (edges sy)) (node sx i) (node sx (S i)) (node sy j) (node sy (S j)) (rcoef x ln m [i; j]).
Proof. exact (fun Hsx Hsy => @red_EE x ln m sx sy Hsx Hsy i j). Qed.
Print Assumptions tensor_face_2d.

Theorem tensor_point_3d (x : nat -> R) ln m sx sy sz i j k : nodes_ok sx -> nodes_ok sy -> nodes_ok sz ->
  (i < length sx)%nat -> (j < length sy)%nat -> (k < length sz)%nat -> form3 x ln m (nodal sx) (nodal sy) (nodal sz) (node sx i) (node sy j) (node sz k) = (rcoef x ln m [i; j; k]).
Proof. exact (fun Hsx Hsy Hsz => @red_NNN x ln m sx sy sz Hsx Hsy Hsz i j k). Qed.
Print Assumptions tensor_point_3d.

Theorem tensor_edge_3d_x (x : nat -> R) ln m sx sy sz i j k : nodes_ok sx -> nodes_ok sy -> nodes_ok sz ->
  (i < degree sx)%nat -> (j < length sy)%nat -> (k < length sz)%nat ->
  is_RInt (fun xi => form3 x ln m (edges sx) (nodal sy) (nodal sz) xi (node sy j) (node sz k)) (node sx i) (node sx (S i)) (rcoef x ln m [i; j; k]).
Proof. exact (fun Hsx Hsy Hsz => @red_ENN x ln m sx sy sz Hsx Hsy Hsz i j k). Qed.
Print Assumptions tensor_edge_3d_x.

Theorem tensor_edge_3d_y (x : nat -> R) ln m sx sy sz i j k : nodes_ok sx -> nodes_ok sy -> nodes_ok sz ->
  (i < length sx)%nat -> (j < degree sy)%nat -> (k < length sz)%nat ->
  is_RInt (fun et => form3 x ln m (nodal sx) (edges sy) (nodal sz) (node sx i) et (node sz k)) (node sy j) (node sy (S j)) (rcoef x ln m [i; j; k]).
Proof. exact (fun Hsx Hsy Hsz => @red_NEN x ln m sx sy sz Hsx Hsy Hsz i j k). Qed.
Print Assumptions tensor_edge_3d_y.

Theorem tensor_edge_3d_z (x : nat -> R) ln m sx sy sz i j k : nodes_ok sx -> nodes_ok sy -> nodes_ok sz ->
  (i < length sx)%nat -> (j < length sy)%nat -> (k < degree sz)%nat ->
  is_RInt (fun sg => form3 x ln m (nodal sx) (nodal sy) (edges sz) (node sx i) (node sy j) sg) (node sz k) (node sz (S k)) (rcoef x ln m [i; j; k]).
Proof. exact (fun Hsx Hsy Hsz => @red_NNE x ln m sx sy sz Hsx Hsy Hsz i j k). Qed.
Print Assumptions tensor_edge_3d_z.

Theorem tensor_face_3d_x (x : nat -> R) ln m sx sy sz i j k : nodes_ok sx -> nodes_ok sy -> nodes_ok sz ->
  (i < length sx)%nat -> (j < degree sy)%nat -> (k < degree sz)%nat ->
  integral2 (fun et sg => form3 x ln m (nodal sx) (edges sy) (edges sz) (node sx i) et sg) (node sy j) (node sy (S j)) (node sz k) (node sz (S k)) (rcoef x ln m [i; j; k]).
Proof. exact (fun Hsx Hsy Hsz => @red_NEE x ln m sx sy sz Hsx Hsy Hsz i j k). Qed.
Print Assumptions tensor_face_3d_x.

Theorem tensor_face_3d_y (x : nat -> R) ln m sx sy sz i j k : nodes_ok sx -> nodes_ok sy -> nodes_ok sz ->
  (i < degree sx)%nat -> (j < length sy)%nat -> (k < degree sz)%nat ->
  integral2 (fun xi sg => form3 x ln m (edges sx) (nodal sy) (edges sz) xi (node sy j) sg) (node sx i) (node sx (S i)) (node sz k) (node sz (S k)) (rcoef x ln m [i; j; k]).
Proof. exact (fun Hsx Hsy Hsz => @red_ENE x ln m sx sy sz Hsx Hsy Hsz i j k). Qed.
Print Assumptions tensor_face_3d_y.

Theorem tensor_face_3d_z (x : nat -> R) ln m sx sy sz i j k : nodes_ok sx -> nodes_ok sy -> nodes_ok sz ->
  (i < degree sx)%nat -> (j < degree sy)%nat -> (k < length sz)%nat ->
  integral2 (fun xi et => form3 x ln m (edges sx) (edges sy) (nodal sz) xi et (node sz k)) (node sx i) (node sx (S i)) (node sy j) (node sy (S j)) (rcoef x ln m [i; j; k]).
Proof. exact (fun Hsx Hsy Hsz => @red_EEN x ln m sx sy sz Hsx Hsy Hsz i j k). Qed.
Print Assumptions tensor_face_3d_z.

Theorem tensor_cell_3d (x : nat -> R) ln m sx sy sz i j k : nodes_ok sx -> nodes_ok sy -> nodes_ok sz ->
  (i < degree sx)%nat -> (j < degree sy)%nat -> (k < degree sz)%nat ->
  integral3 (form3 x ln m (edges sx) (edges sy) (edges sz)) (node sx i) (node sx (S i)) (node sy j) (node sy (S j)) (node sz k) (node sz (S k)) (rcoef x ln m [i; j; k]).
Proof. exact (fun Hsx Hsy Hsz => @red_EEE x ln m sx sy sz Hsx Hsy Hsz i j k). Qed.
Print Assumptions tensor_cell_3d.

(** * The arrays computed from a local cochain are the values of the form on the grid of points *)

Theorem tensor_values_1d_k0 s xi c : nodes_ok s -> length c = nd_m1n1k0 (degree s) ->
  exists v, rc_m1n1k0 s xi c = Some [v] /\ grid1 v xi (form1 (cochain c) (ln_m1n1k0 (degree s)) 0 (nodal s)).
Proof. exact (rc_1d_k0 s xi c). Qed.
Print Assumptions tensor_values_1d_k0.

Theorem tensor_values_1d_k1 s xi c : nodes_ok s -> length c = nd_m1n1k1 (degree s) ->
  exists v, rc_m1n1k1 s xi c = Some [v] /\ grid1 v xi (form1 (cochain c) (ln_m1n1k1 (degree s)) 0 (edges s)).
Proof. exact (rc_1d_k1 s xi c). Qed.
Print Assumptions tensor_values_1d_k1.

Theorem tensor_values_2d_k0 sx sy xi et c : nodes_ok sx -> nodes_ok sy -> length c = nd_m2n2k0 (degree sx) (degree sy) ->
  exists v, rc_m2n2k0 sx sy xi et c = Some [v] /\
    grid2 v xi et (form2 (cochain c) (ln_m2n2k0 (degree sx) (degree sy)) 0 (nodal sx) (nodal sy)).
Proof. exact (rc_2d_k0 sx sy xi et c). Qed.
Print Assumptions tensor_values_2d_k0.

Theorem tensor_values_2d_k1_inner sx sy xi et c : nodes_ok sx -> nodes_ok sy -> length c = nd_m2n2k1 (degree sx) (degree sy) ->
  exists u v, rc_m2n2k1_inner sx sy xi et c = Some [u; v] /\
    grid2 u xi et (form2 (cochain c) (ln_m2n2k1_inner (degree sx) (degree sy)) 0 (edges sx) (nodal sy)) /\
    grid2 v xi et (form2 (cochain c) (ln_m2n2k1_inner (degree sx) (degree sy)) 1 (nodal sx) (edges sy)).
Proof. exact (rc_2d_k1_inner sx sy xi et c). Qed.
Print Assumptions tensor_values_2d_k1_inner.

Theorem tensor_values_2d_k1_outer sx sy xi et c : nodes_ok sx -> nodes_ok sy -> length c = nd_m2n2k1 (degree sx) (degree sy) ->
  exists u v, rc_m2n2k1_outer sx sy xi et c = Some [u; v] /\
    grid2 u xi et (form2 (cochain c) (ln_m2n2k1_outer (degree sx) (degree sy)) 0 (nodal sx) (edges sy)) /\
    grid2 v xi et (form2 (cochain c) (ln_m2n2k1_outer (degree sx) (degree sy)) 1 (edges sx) (nodal sy)).
Proof. exact (rc_2d_k1_outer sx sy xi et c). Qed.
Print Assumptions tensor_values_2d_k1_outer.

Theorem tensor_values_2d_k2 sx sy xi et c : nodes_ok sx -> nodes_ok sy -> length c = nd_m2n2k2 (degree sx) (degree sy) ->
  exists v, rc_m2n2k2 sx sy xi et c = Some [v] /\
    grid2 v xi et (form2 (cochain c) (ln_m2n2k2 (degree sx) (degree sy)) 0 (edges sx) (edges sy)).
Proof. exact (rc_2d_k2 sx sy xi et c). Qed.
Print Assumptions tensor_values_2d_k2.

Theorem tensor_values_3d_k0 sx sy sz xi et sg c : nodes_ok sx -> nodes_ok sy -> nodes_ok sz -> length c = nd_m3n3k0 (degree sx) (degree sy) (degree sz) ->
  exists v, rc_m3n3k0 sx sy sz xi et sg c = Some [v] /\
    grid3 v xi et sg (form3 (cochain c) (ln_m3n3k0 (degree sx) (degree sy) (degree sz)) 0 (nodal sx) (nodal sy) (nodal sz)).
Proof. exact (rc_3d_k0 sx sy sz xi et sg c). Qed.
Print Assumptions tensor_values_3d_k0.

Theorem tensor_values_3d_k1 sx sy sz xi et sg c : nodes_ok sx -> nodes_ok sy -> nodes_ok sz -> length c = nd_m3n3k1 (degree sx) (degree sy) (degree sz) ->
  exists u v w, rc_m3n3k1 sx sy sz xi et sg c = Some [u; v; w] /\
    grid3 u xi et sg (form3 (cochain c) (ln_m3n3k1 (degree sx) (degree sy) (degree sz)) 0 (edges sx) (nodal sy) (nodal sz)) /\
    grid3 v xi et sg (form3 (cochain c) (ln_m3n3k1 (degree sx) (degree sy) (degree sz)) 1 (nodal sx) (edges sy) (nodal sz)) /\
    grid3 w xi et sg (form3 (cochain c) (ln_m3n3k1 (degree sx) (degree sy) (degree sz)) 2 (nodal sx) (nodal sy) (edges sz)).
Proof. exact (rc_3d_k1 sx sy sz xi et sg c). Qed.
Print Assumptions tensor_values_3d_k1.

Theorem tensor_values_3d_k2 sx sy sz xi et sg c : nodes_ok sx -> nodes_ok sy -> nodes_ok sz -> length c = nd_m3n3k2 (degree sx) (degree sy) (degree sz) ->
  exists u v w, rc_m3n3k2 sx sy sz xi et sg c = Some [u; v; w] /\
    grid3 u xi et sg (form3 (cochain c) (ln_m3n3k2 (degree sx) (degree sy) (degree sz)) 0 (nodal sx) (edges sy) (edges sz)) /\
    grid3 v xi et sg (form3 (cochain c) (ln_m3n3k2 (degree sx) (degree sy) (degree sz)) 1 (edges sx) (nodal sy) (edges sz)) /\
    grid3 w xi et sg (form3 (cochain c) (ln_m3n3k2 (degree sx) (degree sy) (degree sz)) 2 (edges sx) (edges sy) (nodal sz)).
Proof. exact (rc_3d_k2 sx sy sz xi et sg c). Qed.
Print Assumptions tensor_values_3d_k2.

Theorem tensor_values_3d_k3 sx sy sz xi et sg c : nodes_ok sx -> nodes_ok sy -> nodes_ok sz -> length c = nd_m3n3k3 (degree sx) (degree sy) (degree sz) ->
  exists v, rc_m3n3k3 sx sy sz xi et sg c = Some [v] /\
    grid3 v xi et sg (form3 (cochain c) (ln_m3n3k3 (degree sx) (degree sy) (degree sz)) 0 (edges sx) (edges sy) (edges sz)).
Proof. exact (rc_3d_k3 sx sy sz xi et sg c). Qed.
Print Assumptions tensor_values_3d_k3.

(** Local cochains of a wrong length are rejected for forms with one or two components, *)
Theorem tensor_wrong_length sx sy sz xi et sg c : nodes_ok sx -> nodes_ok sy -> nodes_ok sz ->
  (length c <> nd_m1n1k0 (degree sx) -> rc_m1n1k0 sx xi c = None) /\
  (length c <> nd_m1n1k1 (degree sx) -> rc_m1n1k1 sx xi c = None) /\
  (length c <> nd_m2n2k0 (degree sx) (degree sy) -> rc_m2n2k0 sx sy xi et c = None) /\
  (length c <> nd_m2n2k1 (degree sx) (degree sy) -> rc_m2n2k1_inner sx sy xi et c = None /\ rc_m2n2k1_outer sx sy xi et c = None) /\
  (length c <> nd_m2n2k2 (degree sx) (degree sy) -> rc_m2n2k2 sx sy xi et c = None) /\
  (length c <> nd_m3n3k0 (degree sx) (degree sy) (degree sz) -> rc_m3n3k0 sx sy sz xi et sg c = None) /\
  (length c <> nd_m3n3k3 (degree sx) (degree sy) (degree sz) -> rc_m3n3k3 sx sy sz xi et sg c = None).
Proof. exact (@rc_wrong_length sx sy sz xi et sg c). Qed.
Print Assumptions tensor_wrong_length.

(** but not for forms with three components. *)
Theorem tensor_three_components_any_length b0 b1 b2 c : (1 <= fm_rows b2)%nat -> (fm_rows b0 + fm_rows b1 <= length c)%nat -> (fm_rows b2 <= length c)%nat ->
  reconstruct [b0; b1; b2] [fm_rows b0; fm_rows b1; fm_rows b2] c <> None.
Proof. exact (@three_accepts b0 b1 b2 c). Qed.
Print Assumptions tensor_three_components_any_length.

(** * Examples *)
Example nodes3 : nodes_ok [-1; 0; 1].
Proof. split; [|cbn; lia]. intros i j H. cbn in H. destruct i as [|[|[|]]], j as [|[|[|]]]; cbn; try lia; lra. Qed.
Example nodes2 : nodes_ok [-1; 1].
Proof. split; [|cbn; lia]. intros i j H. cbn in H. destruct i as [|[|]], j as [|[|]]; cbn; try lia; lra. Qed.
(** a bilinear function, its value in the middle, and its gradient's first component *)
Example bilinear xi et : form2 (cochain [1; 2; 3; 5]) (ln_m2n2k0 1 1) 0 (nodal [-1; 1]) (nodal [-1; 1]) xi et
  = (1 * (1 - xi) * (1 - et) + 2 * (1 + xi) * (1 - et) + 3 * (1 - xi) * (1 + et) + 5 * (1 + xi) * (1 + et)) / 4.
Proof. unfold form2. cbn. unfold lagrange, node. cbn. field. Qed.
Example bilinear_gradient : exists E, E_m2n2k0_inner 1 1 = Some E /\
  map (apply E (cochain [1; 2; 3; 5])) (seq 0 4) = [1; 2; 2; 3].
Proof. eexists. split; [reflexivity|]. unfold apply. cbn. repeat (f_equal; try lra). Qed.
Example bilinear_values : exists v, rc_m2n2k0 [-1; 1] [-1; 1] [0; 1] [0] [1; 2; 3; 5] = Some [v] /\ at_2d v 2 1 0 = 7 / 2.
Proof.
  destruct (tensor_values_2d_k0 [-1; 1] [-1; 1] [0; 1] [0] [1; 2; 3; 5] nodes2 nodes2 eq_refl) as (v & E & _ & G).
  exists v. split; [exact E|]. change 2%nat with (length [0; 1]). rewrite (G 1%nat 0%nat) by (cbn; lia). change (degree [-1; 1]) with 1%nat. rewrite bilinear. cbn. field.
Qed.
