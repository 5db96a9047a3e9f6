(** C58: forms on triangles (squares with the side x- at one point).  Only statements and references to proofs; the values are those of the reconstruction of
    msehtt (TriBasisModel.v) on the reference element; the matrices are those of IncidenceModel.v. *)
From Coq Require Import List Arith Reals Lra Lia.
From Coquelicot Require Import Coquelicot.
From Verif Require Import NdArray LocalNumberingModel IncidenceModel PolyModel PolySpec PolyCalc TensorModel TensorSpec TensorThms FaceModel TriBasisModel FaceSpec TriBasisThms.
Import ListNotations.
Local Open Scope R_scope.


Theorem triangle_values_k0 sx sy xi et c : nodes_ok sx -> nodes_ok sy -> length c = (1 + (degree sx) * ((degree sy) + 1))%nat ->
  exists v, rc_tri_m2n2k0 sx sy xi et c = Some [v] /\ grid2 v xi et (tri_form0 (cochain c) sx sy).
Proof. exact (fun Hx Hy => rc_tri_k0 sx sy Hx Hy xi et c). Qed.
Print Assumptions triangle_values_k0.


Theorem triangle_values_outer sx sy xi et c : nodes_ok sx -> nodes_ok sy -> length c = ((degree sx) * (degree sy) + (degree sx) * ((degree sy) + 1))%nat ->
  exists u v, rc_tri_m2n2k1_outer sx sy xi et c = Some [u; v] /\
    grid2 u xi et (form2 (cochain c) (ln_m2n2k1_outer_tri (degree sx) (degree sy)) 0 (later_nodal sx) (edges sy)) /\
    grid2 v xi et (form2 (cochain c) (ln_m2n2k1_outer_tri (degree sx) (degree sy)) 1 (edges sx) (nodal sy)).
Proof. exact (fun Hx Hy => rc_tri_outer sx sy Hy xi et c). Qed.
Print Assumptions triangle_values_outer.


Theorem triangle_values_inner sx sy xi et c : nodes_ok sx -> nodes_ok sy -> length c = ((degree sx) * ((degree sy) + 1) + (degree sx) * (degree sy))%nat ->
  exists u v, rc_tri_m2n2k1_inner sx sy xi et c = Some [u; v] /\
    grid2 u xi et (form2 (cochain c) (ln_m2n2k1_inner_tri (degree sx) (degree sy)) 0 (edges sx) (nodal sy)) /\
    grid2 v xi et (form2 (cochain c) (ln_m2n2k1_inner_tri (degree sx) (degree sy)) 1 (later_nodal sx) (edges sy)).
Proof. exact (fun Hx Hy => rc_tri_inner sx sy Hy xi et c). Qed.
Print Assumptions triangle_values_inner.


Theorem triangle_curl sx sy E x : nodes_ok sx -> nodes_ok sy -> E_tri_k0_outer (degree sx) (degree sy) = Some E -> forall xi et, let ln := ln_m2n2k1_outer_tri (degree sx) (degree sy) in
  is_derive (fun et => tri_form0 x sx sy xi et) et (form2 (apply E x) ln 0 (later_nodal sx) (edges sy) xi et) /\
  is_derive (fun xi => tri_form0 x sx sy xi et) xi (- form2 (apply E x) ln 1 (edges sx) (nodal sy) xi et).
Proof. exact (fun Hx Hy => tri_curl_outer sx sy Hx Hy E x). Qed.
Print Assumptions triangle_curl.


Theorem triangle_gradient sx sy E x : nodes_ok sx -> nodes_ok sy -> ((degree sx) <= (degree sy))%nat -> E_tri_k0_inner (degree sx) (degree sy) = Some E -> forall xi et, let ln := ln_m2n2k1_inner_tri (degree sx) (degree sy) in
  is_derive (fun xi => tri_form0 x sx sy xi et) xi (form2 (apply E x) ln 0 (edges sx) (nodal sy) xi et) /\
  is_derive (fun et => tri_form0 x sx sy xi et) et (form2 (apply E x) ln 1 (later_nodal sx) (edges sy) xi et).
Proof. exact (fun Hx Hy => tri_gradient_inner sx sy Hx Hy E x). Qed.
Print Assumptions triangle_gradient.


Theorem triangle_divergence sx sy E x : nodes_ok sx -> nodes_ok sy -> E_tri_k1_outer (degree sx) (degree sy) = Some E -> forall xi et, let ln := ln_m2n2k1_outer_tri (degree sx) (degree sy) in
  exists ux vy, is_derive (fun xi => form2 x ln 0 (later_nodal sx) (edges sy) xi et) xi ux /\ is_derive (fun et => form2 x ln 1 (edges sx) (nodal sy) xi et) et vy /\
    form2 (apply E x) (ln_m2n2k2 (degree sx) (degree sy)) 0 (edges sx) (edges sy) xi et = ux + vy.
Proof. exact (fun Hx Hy => tri_divergence_outer sx sy Hx Hy E x). Qed.
Print Assumptions triangle_divergence.


Theorem triangle_rot sx sy E x : nodes_ok sx -> nodes_ok sy -> ((degree sx) <= (degree sy))%nat -> E_tri_k1_inner (degree sx) (degree sy) = Some E -> forall xi et, let ln := ln_m2n2k1_inner_tri (degree sx) (degree sy) in
  exists vx uy, is_derive (fun xi => form2 x ln 1 (later_nodal sx) (edges sy) xi et) xi vx /\ is_derive (fun et => form2 x ln 0 (edges sx) (nodal sy) xi et) et uy /\
    form2 (apply E x) (ln_m2n2k2 (degree sx) (degree sy)) 0 (edges sx) (edges sy) xi et = vx - uy.
Proof. exact (fun Hx Hy => tri_rot_inner sx sy Hx Hy E x). Qed.
Print Assumptions triangle_rot.


(** * Examples *)
Example tri_nodes2 : nodes_ok [-1; 1].
Proof. split; [|cbn; lia]. intros i j H. cbn in H. destruct i as [|[|]], j as [|[|]]; cbn; try lia; lra. Qed.
(** the 0-form with the values 1 at the tip and 2, 4 at the two other corners *)
Example tri_linear xi et : tri_form0 (cochain [1; 2; 4]) [-1; 1] [-1; 1] xi et = (1 * (1 - xi) * 2 + 2 * (1 + xi) * (1 - et) + 4 * (1 + xi) * (1 + et)) / 4.
Proof. unfold tri_form0. cbn. unfold lagrange, node. cbn. field. Qed.
Example tri_linear_gradient : exists E, E_tri_k0_inner 1 1 = Some E /\ map (apply E (cochain [1; 2; 4])) (seq 0 3) = [1; 3; 2].
Proof. eexists. split; [reflexivity|]. unfold apply. cbn. repeat (f_equal; try lra). Qed.
Example tri_linear_curl : exists E, E_tri_k0_outer 1 1 = Some E /\ map (apply E (cochain [1; 2; 4])) (seq 0 3) = [2; -1; -3].
Proof. eexists. split; [reflexivity|]. unfold apply. cbn. repeat (f_equal; try lra). Qed.
Example tri_linear_value : exists v, rc_tri_m2n2k0 [-1; 1] [-1; 1] [0; 1] [0] [1; 2; 4] = Some [v] /\ at_2d v 2 1 0 = 3.
Proof.
  destruct (triangle_values_k0 [-1; 1] [-1; 1] [0; 1] [0] [1; 2; 4] tri_nodes2 tri_nodes2 eq_refl) as (v & E & _ & G). exists v. split; [exact E|].
  change 2%nat with (length [0; 1]). rewrite (G 1%nat 0%nat) by (cbn; lia). rewrite tri_linear. cbn. field.
Qed.
Example tri_linear_slope : exists E, E_tri_k0_inner 1 1 = Some E /\ forall et, is_derive (fun xi => tri_form0 (cochain [1; 2; 4]) [-1; 1] [-1; 1] xi et) 0
  (form2 (apply E (cochain [1; 2; 4])) (ln_m2n2k1_inner_tri 1 1) 0 (edges [-1; 1]) (nodal [-1; 1]) 0 et).
Proof.
  destruct tri_linear_gradient as (E & EE & _). exists E. split; [exact EE|]. intros et.
  exact (proj1 (triangle_gradient [-1; 1] [-1; 1] E (cochain [1; 2; 4]) tri_nodes2 tri_nodes2 (le_n _) EE 0 et)).
Qed.

