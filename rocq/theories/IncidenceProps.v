(** C01-C04 and related: incidence matrices and local numberings.
    Only statements and references to proofs; the specification vocabulary is in
    IncidenceSpec.v and the model in LocalNumberingModel.v, IncidenceModel.v. *)
From Coq Require Import ZArith List Arith.
From Verif Require Import NdArray LocalNumberingModel IncidenceModel Sums IncidenceSpec IncidenceThms TriangleThms.
Import ListNotations.

(** * C04 local numberings are bijections *)

Theorem numbering_bijective_m1n1k0 p : numbering_bijective (ln_m1n1k0 p) (nd_m1n1k0 p).
Proof. exact (bij_m1n1k0 p). Qed.
Print Assumptions numbering_bijective_m1n1k0.

Theorem component_blocks_m1n1k0 p : component_blocks (ln_m1n1k0 p) (ndc_m1n1k0 p).
Proof. exact (blk_m1n1k0 p). Qed.
Print Assumptions component_blocks_m1n1k0.

Theorem numbering_bijective_m1n1k1 p : numbering_bijective (ln_m1n1k1 p) (nd_m1n1k1 p).
Proof. exact (bij_m1n1k1 p). Qed.
Print Assumptions numbering_bijective_m1n1k1.

Theorem component_blocks_m1n1k1 p : component_blocks (ln_m1n1k1 p) (ndc_m1n1k1 p).
Proof. exact (blk_m1n1k1 p). Qed.
Print Assumptions component_blocks_m1n1k1.

Theorem numbering_bijective_m2n2k0 px py : numbering_bijective (ln_m2n2k0 px py) (nd_m2n2k0 px py).
Proof. exact (bij_m2n2k0 px py). Qed.
Print Assumptions numbering_bijective_m2n2k0.

Theorem component_blocks_m2n2k0 px py : component_blocks (ln_m2n2k0 px py) (ndc_m2n2k0 px py).
Proof. exact (blk_m2n2k0 px py). Qed.
Print Assumptions component_blocks_m2n2k0.

Theorem numbering_bijective_m2n2k1i px py : numbering_bijective (ln_m2n2k1_inner px py) (nd_m2n2k1 px py).
Proof. exact (bij_m2n2k1i px py). Qed.
Print Assumptions numbering_bijective_m2n2k1i.

Theorem component_blocks_m2n2k1i px py : component_blocks (ln_m2n2k1_inner px py) (ndc_m2n2k1_inner px py).
Proof. exact (blk_m2n2k1i px py). Qed.
Print Assumptions component_blocks_m2n2k1i.

Theorem numbering_bijective_m2n2k1o px py : numbering_bijective (ln_m2n2k1_outer px py) (nd_m2n2k1 px py).
Proof. exact (bij_m2n2k1o px py). Qed.
Print Assumptions numbering_bijective_m2n2k1o.

Theorem component_blocks_m2n2k1o px py : component_blocks (ln_m2n2k1_outer px py) (ndc_m2n2k1_outer px py).
Proof. exact (blk_m2n2k1o px py). Qed.
Print Assumptions component_blocks_m2n2k1o.

Theorem numbering_bijective_m2n2k2 px py : numbering_bijective (ln_m2n2k2 px py) (nd_m2n2k2 px py).
Proof. exact (bij_m2n2k2 px py). Qed.
Print Assumptions numbering_bijective_m2n2k2.

Theorem component_blocks_m2n2k2 px py : component_blocks (ln_m2n2k2 px py) (ndc_m2n2k2 px py).
Proof. exact (blk_m2n2k2 px py). Qed.
Print Assumptions component_blocks_m2n2k2.

Theorem numbering_bijective_m3n3k0 px py pz : numbering_bijective (ln_m3n3k0 px py pz) (nd_m3n3k0 px py pz).
Proof. exact (bij_m3n3k0 px py pz). Qed.
Print Assumptions numbering_bijective_m3n3k0.

Theorem component_blocks_m3n3k0 px py pz : component_blocks (ln_m3n3k0 px py pz) (ndc_m3n3k0 px py pz).
Proof. exact (blk_m3n3k0 px py pz). Qed.
Print Assumptions component_blocks_m3n3k0.

Theorem numbering_bijective_m3n3k1 px py pz : numbering_bijective (ln_m3n3k1 px py pz) (nd_m3n3k1 px py pz).
Proof. exact (bij_m3n3k1 px py pz). Qed.
Print Assumptions numbering_bijective_m3n3k1.

Theorem component_blocks_m3n3k1 px py pz : component_blocks (ln_m3n3k1 px py pz) (ndc_m3n3k1 px py pz).
Proof. exact (blk_m3n3k1 px py pz). Qed.
Print Assumptions component_blocks_m3n3k1.

Theorem numbering_bijective_m3n3k2 px py pz : numbering_bijective (ln_m3n3k2 px py pz) (nd_m3n3k2 px py pz).
Proof. exact (bij_m3n3k2 px py pz). Qed.
Print Assumptions numbering_bijective_m3n3k2.

Theorem component_blocks_m3n3k2 px py pz : component_blocks (ln_m3n3k2 px py pz) (ndc_m3n3k2 px py pz).
Proof. exact (blk_m3n3k2 px py pz). Qed.
Print Assumptions component_blocks_m3n3k2.

Theorem numbering_bijective_m3n3k3 px py pz : numbering_bijective (ln_m3n3k3 px py pz) (nd_m3n3k3 px py pz).
Proof. exact (bij_m3n3k3 px py pz). Qed.
Print Assumptions numbering_bijective_m3n3k3.

Theorem component_blocks_m3n3k3 px py pz : component_blocks (ln_m3n3k3 px py pz) (ndc_m3n3k3 px py pz).
Proof. exact (blk_m3n3k3 px py pz). Qed.
Print Assumptions component_blocks_m3n3k3.

Theorem component_blocks_htt_m2n2k1_inner px py :
  component_blocks (ln_m2n2k1_inner px py) (snd (htt_nd_m2n2k1_inner px py)).
Proof. exact (blk_htt_m2n2k1i px py). Qed.
Print Assumptions component_blocks_htt_m2n2k1_inner.

(** the component sizes reported by msehtt for outer 1-forms are not the sizes
    of the components of the numbering, for every px <> py *)
Theorem component_sizes_htt_m2n2k1_outer_refuted px py :
  px <> py -> ~ component_blocks (ln_m2n2k1_outer px py) (snd (htt_nd_m2n2k1_outer px py)).
Proof. exact (htt_outer_components_wrong px py). Qed.
Print Assumptions component_sizes_htt_m2n2k1_outer_refuted.

Theorem numbering_bijective_triangle_outer px py : numbering_bijective (ln_m2n2k1_outer_tri px py) (px*py + px*(py+1)).
Proof. exact (bij_outer_tri px py). Qed.
Print Assumptions numbering_bijective_triangle_outer.

Theorem numbering_bijective_triangle_inner px py : numbering_bijective (ln_m2n2k1_inner_tri px py) (px*(py+1) + px*py).
Proof. exact (bij_inner_tri px py). Qed.
Print Assumptions numbering_bijective_triangle_inner.

Theorem triangle_node_numbers_injective px py i j i' j' r :
  ln_m2n2k0_tri px py [i; j] = Some r -> ln_m2n2k0_tri px py [i'; j'] = Some r ->
  (i = 0 /\ i' = 0) \/ (i = i' /\ j = j').
Proof. exact (tri_inj px py i j i' j' r). Qed.
Print Assumptions triangle_node_numbers_injective.

Theorem triangle_node_numbers_onto px py r : r < px * (py+1) + 1 -> exists i j, ln_m2n2k0_tri px py [i; j] = Some r.
Proof. exact (tri_surj px py r). Qed.
Print Assumptions triangle_node_numbers_onto.

Theorem triangle_node_numbers_range px py i j r : ln_m2n2k0_tri px py [i; j] = Some r -> r < px * (py+1) + 1.
Proof. exact (tri_range px py i j r). Qed.
Print Assumptions triangle_node_numbers_range.

Example numbering_example :
  ln_m2n2k1_outer 2 3 = Some [mk_arr 0 [3; 3]; mk_arr 9 [2; 4]] /\ nd_m2n2k1 2 3 = 17.
Proof. vm_compute. auto. Qed.

Local Open Scope Z_scope.

(** * C03 the matrices act as the discrete gradient, curl, rot and divergence *)

Theorem gradient_1d p : exists E, E_m1n1k0 p = Some E /\
  m_rows E = nd_m1n1k1 p /\ m_cols E = nd_m1n1k0 p /\
  forall x i r, num (ln_m1n1k1 p) 0 [i] r ->
    exists_dof (ln_m1n1k0 p) 0 [i] /\ exists_dof (ln_m1n1k0 p) 0 [(i+1)%nat] /\
    matvec E x r = coef x (ln_m1n1k0 p) 0 [(i+1)%nat] - coef x (ln_m1n1k0 p) 0 [i].
Proof. exact (act_m1n1k0 p). Qed.
Print Assumptions gradient_1d.

Theorem gradient_2d_inner px py : exists E, E_m2n2k0_inner px py = Some E /\
  m_rows E = nd_m2n2k1 px py /\ m_cols E = nd_m2n2k0 px py /\
  (forall x i j r, num (ln_m2n2k1_inner px py) 0 [i; j] r ->
    exists_dof (ln_m2n2k0 px py) 0 [i; j] /\ exists_dof (ln_m2n2k0 px py) 0 [(i+1)%nat; j] /\
    matvec E x r = coef x (ln_m2n2k0 px py) 0 [(i+1)%nat; j] - coef x (ln_m2n2k0 px py) 0 [i; j]) /\
  (forall x i j r, num (ln_m2n2k1_inner px py) 1 [i; j] r ->
    exists_dof (ln_m2n2k0 px py) 0 [i; j] /\ exists_dof (ln_m2n2k0 px py) 0 [i; (j+1)%nat] /\
    matvec E x r = coef x (ln_m2n2k0 px py) 0 [i; (j+1)%nat] - coef x (ln_m2n2k0 px py) 0 [i; j]).
Proof. exact (act_m2n2k0i px py). Qed.
Print Assumptions gradient_2d_inner.

Theorem rot_2d_inner px py : exists E, E_m2n2k1_inner px py = Some E /\
  m_rows E = nd_m2n2k2 px py /\ m_cols E = nd_m2n2k1 px py /\
  forall x i j r, num (ln_m2n2k2 px py) 0 [i; j] r ->
    let u := coef x (ln_m2n2k1_inner px py) 0 in
    let v := coef x (ln_m2n2k1_inner px py) 1 in
    exists_dof (ln_m2n2k1_inner px py) 0 [i; j] /\
    exists_dof (ln_m2n2k1_inner px py) 0 [i; (j+1)%nat] /\
    exists_dof (ln_m2n2k1_inner px py) 1 [i; j] /\
    exists_dof (ln_m2n2k1_inner px py) 1 [(i+1)%nat; j] /\
    matvec E x r = (v [(i+1)%nat; j] - v [i; j]) - (u [i; (j+1)%nat] - u [i; j]).
Proof. exact (act_m2n2k1i px py). Qed.
Print Assumptions rot_2d_inner.

Theorem curl_2d_outer px py : exists E, E_m2n2k0_outer px py = Some E /\
  m_rows E = nd_m2n2k1 px py /\ m_cols E = nd_m2n2k0 px py /\
  (forall x i j r, num (ln_m2n2k1_outer px py) 0 [i; j] r ->
    exists_dof (ln_m2n2k0 px py) 0 [i; j] /\ exists_dof (ln_m2n2k0 px py) 0 [i; (j+1)%nat] /\
    matvec E x r = coef x (ln_m2n2k0 px py) 0 [i; (j+1)%nat] - coef x (ln_m2n2k0 px py) 0 [i; j]) /\
  (forall x i j r, num (ln_m2n2k1_outer px py) 1 [i; j] r ->
    exists_dof (ln_m2n2k0 px py) 0 [i; j] /\ exists_dof (ln_m2n2k0 px py) 0 [(i+1)%nat; j] /\
    matvec E x r = - (coef x (ln_m2n2k0 px py) 0 [(i+1)%nat; j] - coef x (ln_m2n2k0 px py) 0 [i; j])).
Proof. exact (act_m2n2k0o px py). Qed.
Print Assumptions curl_2d_outer.

Theorem divergence_2d_outer px py : exists E, E_m2n2k1_outer px py = Some E /\
  m_rows E = nd_m2n2k2 px py /\ m_cols E = nd_m2n2k1 px py /\
  forall x i j r, num (ln_m2n2k2 px py) 0 [i; j] r ->
    let u := coef x (ln_m2n2k1_outer px py) 0 in
    let v := coef x (ln_m2n2k1_outer px py) 1 in
    exists_dof (ln_m2n2k1_outer px py) 0 [i; j] /\
    exists_dof (ln_m2n2k1_outer px py) 0 [(i+1)%nat; j] /\
    exists_dof (ln_m2n2k1_outer px py) 1 [i; j] /\
    exists_dof (ln_m2n2k1_outer px py) 1 [i; (j+1)%nat] /\
    matvec E x r = (u [(i+1)%nat; j] - u [i; j]) + (v [i; (j+1)%nat] - v [i; j]).
Proof. exact (act_m2n2k1o px py). Qed.
Print Assumptions divergence_2d_outer.

Theorem gradient_3d px py pz : exists E, E_m3n3k0 px py pz = Some E /\
  m_rows E = nd_m3n3k1 px py pz /\ m_cols E = nd_m3n3k0 px py pz /\
  (forall x i j k r, num (ln_m3n3k1 px py pz) 0 [i; j; k] r ->
    exists_dof (ln_m3n3k0 px py pz) 0 [i; j; k] /\ exists_dof (ln_m3n3k0 px py pz) 0 [(i+1)%nat; j; k] /\
    matvec E x r = coef x (ln_m3n3k0 px py pz) 0 [(i+1)%nat; j; k] - coef x (ln_m3n3k0 px py pz) 0 [i; j; k]) /\
  (forall x i j k r, num (ln_m3n3k1 px py pz) 1 [i; j; k] r ->
    exists_dof (ln_m3n3k0 px py pz) 0 [i; j; k] /\ exists_dof (ln_m3n3k0 px py pz) 0 [i; (j+1)%nat; k] /\
    matvec E x r = coef x (ln_m3n3k0 px py pz) 0 [i; (j+1)%nat; k] - coef x (ln_m3n3k0 px py pz) 0 [i; j; k]) /\
  (forall x i j k r, num (ln_m3n3k1 px py pz) 2 [i; j; k] r ->
    exists_dof (ln_m3n3k0 px py pz) 0 [i; j; k] /\ exists_dof (ln_m3n3k0 px py pz) 0 [i; j; (k+1)%nat] /\
    matvec E x r = coef x (ln_m3n3k0 px py pz) 0 [i; j; (k+1)%nat] - coef x (ln_m3n3k0 px py pz) 0 [i; j; k]).
Proof. exact (act_m3n3k0 px py pz). Qed.
Print Assumptions gradient_3d.

Theorem curl_3d px py pz : exists E, E_m3n3k1 px py pz = Some E /\
  m_rows E = nd_m3n3k2 px py pz /\ m_cols E = nd_m3n3k1 px py pz /\
  (forall x i j k r, num (ln_m3n3k2 px py pz) 0 [i; j; k] r ->
    let v := coef x (ln_m3n3k1 px py pz) 1 in let w := coef x (ln_m3n3k1 px py pz) 2 in
    exists_dof (ln_m3n3k1 px py pz) 2 [i; j; k] /\ exists_dof (ln_m3n3k1 px py pz) 2 [i; (j+1)%nat; k] /\
    exists_dof (ln_m3n3k1 px py pz) 1 [i; j; k] /\ exists_dof (ln_m3n3k1 px py pz) 1 [i; j; (k+1)%nat] /\
    matvec E x r = (w [i; (j+1)%nat; k] - w [i; j; k]) - (v [i; j; (k+1)%nat] - v [i; j; k])) /\
  (forall x i j k r, num (ln_m3n3k2 px py pz) 1 [i; j; k] r ->
    let u := coef x (ln_m3n3k1 px py pz) 0 in let w := coef x (ln_m3n3k1 px py pz) 2 in
    exists_dof (ln_m3n3k1 px py pz) 0 [i; j; k] /\ exists_dof (ln_m3n3k1 px py pz) 0 [i; j; (k+1)%nat] /\
    exists_dof (ln_m3n3k1 px py pz) 2 [i; j; k] /\ exists_dof (ln_m3n3k1 px py pz) 2 [(i+1)%nat; j; k] /\
    matvec E x r = (u [i; j; (k+1)%nat] - u [i; j; k]) - (w [(i+1)%nat; j; k] - w [i; j; k])) /\
  (forall x i j k r, num (ln_m3n3k2 px py pz) 2 [i; j; k] r ->
    let u := coef x (ln_m3n3k1 px py pz) 0 in let v := coef x (ln_m3n3k1 px py pz) 1 in
    exists_dof (ln_m3n3k1 px py pz) 1 [i; j; k] /\ exists_dof (ln_m3n3k1 px py pz) 1 [(i+1)%nat; j; k] /\
    exists_dof (ln_m3n3k1 px py pz) 0 [i; j; k] /\ exists_dof (ln_m3n3k1 px py pz) 0 [i; (j+1)%nat; k] /\
    matvec E x r = (v [(i+1)%nat; j; k] - v [i; j; k]) - (u [i; (j+1)%nat; k] - u [i; j; k])).
Proof. exact (act_m3n3k1 px py pz). Qed.
Print Assumptions curl_3d.

Theorem divergence_3d px py pz : exists E, E_m3n3k2 px py pz = Some E /\
  m_rows E = nd_m3n3k3 px py pz /\ m_cols E = nd_m3n3k2 px py pz /\
  forall x i j k r, num (ln_m3n3k3 px py pz) 0 [i; j; k] r ->
    let u := coef x (ln_m3n3k2 px py pz) 0 in
    let v := coef x (ln_m3n3k2 px py pz) 1 in
    let w := coef x (ln_m3n3k2 px py pz) 2 in
    exists_dof (ln_m3n3k2 px py pz) 0 [i; j; k] /\ exists_dof (ln_m3n3k2 px py pz) 0 [(i+1)%nat; j; k] /\
    exists_dof (ln_m3n3k2 px py pz) 1 [i; j; k] /\ exists_dof (ln_m3n3k2 px py pz) 1 [i; (j+1)%nat; k] /\
    exists_dof (ln_m3n3k2 px py pz) 2 [i; j; k] /\ exists_dof (ln_m3n3k2 px py pz) 2 [i; j; (k+1)%nat] /\
    matvec E x r = (u [(i+1)%nat; j; k] - u [i; j; k]) + (v [i; (j+1)%nat; k] - v [i; j; k])
                 + (w [i; j; (k+1)%nat] - w [i; j; k]).
Proof. exact (act_m3n3k2 px py pz). Qed.
Print Assumptions divergence_3d.

Theorem curl_triangle_outer px py : exists E, E_tri_k0_outer px py = Some E /\
  m_rows E = (px*py + px*(py+1))%nat /\ m_cols E = (px*(py+1)+1)%nat /\
  (forall x i j r, num (ln_m2n2k1_outer_tri px py) 0 [i; j] r ->
    tri_node px py (i+1) j /\ tri_node px py (i+1) (j+1) /\
    matvec E x r = tri_coef px py x (i+1) (j+1) - tri_coef px py x (i+1) j) /\
  (forall x i j r, num (ln_m2n2k1_outer_tri px py) 1 [i; j] r ->
    tri_node px py i j /\ tri_node px py (i+1) j /\
    matvec E x r = - (tri_coef px py x (i+1) j - tri_coef px py x i j)).
Proof. exact (act_tri_k0_outer px py). Qed.
Print Assumptions curl_triangle_outer.

Theorem divergence_triangle_outer px py : exists E, E_tri_k1_outer px py = Some E /\
  m_rows E = (px*py)%nat /\ m_cols E = (px*py + px*(py+1))%nat /\
  forall x i j r, num (ln_m2n2k2 px py) 0 [i; j] r ->
    let ln := ln_m2n2k1_outer_tri px py in
    let v := coef x ln 1 in
    (forall i', i = S i' -> exists_dof ln 0 [i'; j]) /\ exists_dof ln 0 [i; j] /\
    exists_dof ln 1 [i; j] /\ exists_dof ln 1 [i; (j+1)%nat] /\
    matvec E x r = (coef x ln 0 [i; j] - edge_left x ln 0 i j) + (v [i; (j+1)%nat] - v [i; j]).
Proof. exact (act_tri_k1_outer px py). Qed.
Print Assumptions divergence_triangle_outer.

Theorem gradient_triangle_inner px py : (px <= py)%nat -> exists E, E_tri_k0_inner px py = Some E /\
  m_rows E = ((px+1)*py + px*py)%nat /\ m_cols E = (px*(py+1)+1)%nat /\
  (forall x i j r, num (ln_m2n2k1_inner_tri px py) 0 [i; j] r ->
    tri_node px py i j /\ tri_node px py (i+1) j /\
    matvec E x r = tri_coef px py x (i+1) j - tri_coef px py x i j) /\
  (forall x i j r, num (ln_m2n2k1_inner_tri px py) 1 [i; j] r ->
    tri_node px py (i+1) j /\ tri_node px py (i+1) (j+1) /\
    matvec E x r = tri_coef px py x (i+1) (j+1) - tri_coef px py x (i+1) j).
Proof. exact (act_tri_k0_inner px py). Qed.
Print Assumptions gradient_triangle_inner.

Theorem rot_triangle_inner px py : (px <= py)%nat -> exists E, E_tri_k1_inner px py = Some E /\
  m_rows E = (px*py)%nat /\ m_cols E = ((px+1)*py + px*py)%nat /\
  forall x i j r, num (ln_m2n2k2 px py) 0 [i; j] r ->
    let ln := ln_m2n2k1_inner_tri px py in
    let u := coef x ln 0 in
    (forall i', i = S i' -> exists_dof ln 1 [i'; j]) /\ exists_dof ln 1 [i; j] /\
    exists_dof ln 0 [i; j] /\ exists_dof ln 0 [i; (j+1)%nat] /\
    matvec E x r = (coef x ln 1 [i; j] - edge_left x ln 1 i j) - (u [i; (j+1)%nat] - u [i; j]).
Proof. exact (act_tri_k1_inner px py). Qed.
Print Assumptions rot_triangle_inner.

Example gradient_example : exists E, E_m2n2k0_inner 2 1 = Some E /\
  map (matvec E (fun n => Z.of_nat (n * n))) (seq 0 7) = [1; 3; 7; 9; 9; 15; 21].
Proof. eexists. split; vm_compute; reflexivity. Qed.

(** ... and the hypotheses of the triangle theorems hold for equal degrees *)
Example triangle_example : exists E, E_tri_k0_inner 2 2 = Some E /\
  map (matvec E (fun n => Z.of_nat n)) (seq 0 10) = [1; 1; 3; 1; 5; 1; 2; 2; 2; 2].
Proof. eexists. split; vm_compute; reflexivity. Qed.

(** * C01, C02 d after d is zero *)

Theorem dd_zero_2d_inner px py E0 E1 :
  E_m2n2k0_inner px py = Some E0 -> E_m2n2k1_inner px py = Some E1 -> annihilates E1 E0.
Proof. exact (dd_2d_inner px py E0 E1). Qed.
Print Assumptions dd_zero_2d_inner.

Theorem dd_zero_2d_outer px py E0 E1 :
  E_m2n2k0_outer px py = Some E0 -> E_m2n2k1_outer px py = Some E1 -> annihilates E1 E0.
Proof. exact (dd_2d_outer px py E0 E1). Qed.
Print Assumptions dd_zero_2d_outer.

Theorem dd_zero_3d_curl_grad px py pz E0 E1 :
  E_m3n3k0 px py pz = Some E0 -> E_m3n3k1 px py pz = Some E1 -> annihilates E1 E0.
Proof. exact (dd_3d_curl_grad px py pz E0 E1). Qed.
Print Assumptions dd_zero_3d_curl_grad.

Theorem dd_zero_3d_div_curl px py pz E1 E2 :
  E_m3n3k1 px py pz = Some E1 -> E_m3n3k2 px py pz = Some E2 -> annihilates E2 E1.
Proof. exact (dd_3d_div_curl px py pz E1 E2). Qed.
Print Assumptions dd_zero_3d_div_curl.

Theorem dd_zero_triangle_outer px py E0 E1 :
  E_tri_k0_outer px py = Some E0 -> E_tri_k1_outer px py = Some E1 -> annihilates E1 E0.
Proof. exact (dd_tri_outer px py E0 E1). Qed.
Print Assumptions dd_zero_triangle_outer.

Theorem dd_zero_triangle_inner px py E0 E1 : (px <= py)%nat ->
  E_tri_k0_inner px py = Some E0 -> E_tri_k1_inner px py = Some E1 -> annihilates E1 E0.
Proof. exact (dd_tri_inner px py E0 E1). Qed.
Print Assumptions dd_zero_triangle_inner.

Theorem reversal_value_rows fs E r c :
  reverse_rows fs E r c = (if reversed fs r then -1 else 1) * E r c.
Proof. exact (reverse_rows_val fs E r c). Qed.
Print Assumptions reversal_value_rows.

Theorem reversal_value_cols fs E r c :
  reverse_cols fs E r c = (if reversed fs c then -1 else 1) * E r c.
Proof. exact (reverse_cols_val fs E r c). Qed.
Print Assumptions reversal_value_cols.

Theorem dd_zero_reversed_faces fs E1 E0 r c : annihilates E1 E0 ->
  (r < m_rows E1)%nat -> (c < m_cols E0)%nat ->
  fmatmul (m_cols E1) (reverse_cols fs (entry E1)) (reverse_rows fs (entry E0)) r c = 0.
Proof. exact (reverse_annihilates fs E1 E0 r c). Qed.
Print Assumptions dd_zero_reversed_faces.

Example dd_example : exists E0 E1, E_m3n3k0 1 2 1 = Some E0 /\ E_m3n3k1 1 2 1 = Some E1 /\
  m_rows E0 = 20%nat /\ m_cols E0 = 12%nat /\ m_rows E1 = 11%nat /\
  entry E1 0 6 = 1 /\ entry E0 6 0 = -1.
Proof. do 2 eexists. repeat split; vm_compute; reflexivity. Qed.

(** * the inner triangle gradient is not available for every degree *)

(** raises for every px > py *)
Theorem gradient_triangle_inner_refuted px py : (py < px)%nat -> E_tri_k0_inner px py = None.
Proof. exact (tri_k0_inner_fails px py). Qed.
Print Assumptions gradient_triangle_inner_refuted.

(** for px < py some rows belong to no basis function *)
Theorem gradient_triangle_inner_rows_refuted px py E : (px < py)%nat -> E_tri_k0_inner px py = Some E ->
  exists r, (r < m_rows E)%nat /\ forall c ix, ~ num (ln_m2n2k1_inner_tri px py) c ix r.
Proof. exact (tri_k0_inner_extra_rows px py E). Qed.
Print Assumptions gradient_triangle_inner_rows_refuted.
