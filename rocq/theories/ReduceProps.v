(** C63: reduction of fields to cochains and reconstruction of fields from cochains on mapped elements.  Only statements and references
    to proofs; vocabulary in ReduceSpec.v, MappingSpec.v, TensorSpec.v, models in ReduceModel.v, TensorModel.v, JacobianModel.v.
    [smooth2 phi J]: on the reference element J is the matrix of derivatives of phi; [moves2 phi vx vy]: velocities of the images
    of the coordinate lines; [rcoef (cochain c) ln m [i; j]]: entry of c at the number that ln gives to dof (i, j) of component m. *)
From Coq Require Import List Arith Reals Lra Lia.
From Coquelicot Require Import Coquelicot.
From Verif Require Import MappingModel MappingSpec MappingProofs JacobianSpec JacobianModel JacobianProofs PolyModel PolySpec PolyProofs PolyCalc NdArray LocalNumberingModel IncidenceModel IncidenceSpec TensorModel TensorSpec TensorThms ReduceModel ReduceSpec ReduceProofs ReduceForms ReduceRound ReduceStokes ReduceThree ReduceRound3 ReduceStokes3 ReduceTri.
Import List ListNotations.
Local Open Scope R_scope.
Local Notation mat := MappingModel.mat.
Local Notation i0 := 0%nat.
Local Notation i1 := 1%nat.


(** * rules *)

(** moved rules integrate polynomials exactly *)
Theorem reduce_rule_exact d qn qw f a b : exact_rule d qn qw -> poly_of_size d f -> is_RInt f a b (rule_sum qn qw a b f).
Proof. exact (rule_exact d qn qw f a b). Qed.
Print Assumptions reduce_rule_exact.

(** * reduction in 2-d: nodal values, line integrals, fluxes, integrals of densities *)

Theorem reduce_2d_k0 phi f sx sy : nodes_ok sx -> nodes_ok sy ->
  length (rd_m2n2k0 phi f sx sy) = nd_m2n2k0 (degree sx) (degree sy) /\
  (forall i j, (i < length sx)%nat -> (j < length sy)%nat ->
     rcoef (cochain (rd_m2n2k0 phi f sx sy)) (ln_m2n2k0 (degree sx) (degree sy)) 0 [i; j] = f (phi (node sx i) (node sy j))).
Proof. exact (k0_2_entries phi f sx sy). Qed.
Print Assumptions reduce_2d_k0.

Theorem reduce_2d_inner phi J F sx sy qx wx qy wy vx vy : nodes_ok sx -> nodes_ok sy -> in_reference sx -> in_reference sy ->
  length qx = length wx -> length qy = length wy -> in_reference qx -> in_reference qy -> smooth2 phi J -> moves2 phi vx vy ->
  length (rd_m2n2k1_inner phi J F sx sy qx wx qy wy) = nd_m2n2k1 (degree sx) (degree sy) /\
  (forall i j, (i < degree sx)%nat -> (j < length sy)%nat ->
     rcoef (cochain (rd_m2n2k1_inner phi J F sx sy qx wx qy wy)) (ln_m2n2k1_inner (degree sx) (degree sy)) 0 [i; j]
     = rule_sum qx wx (node sx i) (node sx (S i)) (fun t => along2 (F (phi t (node sy j))) (vx t (node sy j)))) /\
  (forall i j, (i < length sx)%nat -> (j < degree sy)%nat ->
     rcoef (cochain (rd_m2n2k1_inner phi J F sx sy qx wx qy wy)) (ln_m2n2k1_inner (degree sx) (degree sy)) 1 [i; j]
     = rule_sum qy wy (node sy j) (node sy (S j)) (fun t => along2 (F (phi (node sx i) t)) (vy (node sx i) t))).
Proof. exact (inner_entries phi J F sx sy qx wx qy wy vx vy). Qed.
Print Assumptions reduce_2d_inner.

Theorem reduce_2d_outer phi J F sx sy qx wx qy wy vx vy : nodes_ok sx -> nodes_ok sy -> in_reference sx -> in_reference sy ->
  length qx = length wx -> length qy = length wy -> in_reference qx -> in_reference qy -> smooth2 phi J -> moves2 phi vx vy ->
  length (rd_m2n2k1_outer phi J F sx sy qx wx qy wy) = nd_m2n2k1 (degree sx) (degree sy) /\
  (forall i j, (i < length sx)%nat -> (j < degree sy)%nat ->
     rcoef (cochain (rd_m2n2k1_outer phi J F sx sy qx wx qy wy)) (ln_m2n2k1_outer (degree sx) (degree sy)) 0 [i; j]
     = rule_sum qy wy (node sy j) (node sy (S j)) (fun t => to_right (F (phi (node sx i) t)) (vy (node sx i) t))) /\
  (forall i j, (i < degree sx)%nat -> (j < length sy)%nat ->
     rcoef (cochain (rd_m2n2k1_outer phi J F sx sy qx wx qy wy)) (ln_m2n2k1_outer (degree sx) (degree sy)) 1 [i; j]
     = rule_sum qx wx (node sx i) (node sx (S i)) (fun t => to_left (F (phi t (node sy j))) (vx t (node sy j)))).
Proof. exact (outer_entries phi J F sx sy qx wx qy wy vx vy). Qed.
Print Assumptions reduce_2d_outer.

Theorem reduce_2d_k2 phi J det f sx sy qx wx qy wy vx vy : nodes_ok sx -> nodes_ok sy -> in_reference sx -> in_reference sy -> length qx = length wx -> length qy = length wy -> in_reference qx -> in_reference qy ->
  smooth2 phi J -> moves2 phi vx vy -> (forall x y, jac_det 2 (J x y) = Some (det x y)) ->
  length (rd_m2n2k2 phi det f sx sy qx wx qy wy) = nd_m2n2k2 (degree sx) (degree sy) /\
  (forall i j, (i < degree sx)%nat -> (j < degree sy)%nat ->
     rcoef (cochain (rd_m2n2k2 phi det f sx sy qx wx qy wy)) (ln_m2n2k2 (degree sx) (degree sy)) 0 [i; j]
     = rule_sum2 qx wx qy wy (node sx i) (node sx (S i)) (node sy j) (node sy (S j)) (fun x y => f (phi x y) * area2 (vx x y) (vy x y))).
Proof. exact (k2_2_area phi J det f sx sy qx wx qy wy vx vy). Qed.
Print Assumptions reduce_2d_k2.

(** triangles: the x- side is one corner; its row is left out *)

Theorem reduce_triangle_k0 phi f sx sy i j : nodes_ok sx -> nodes_ok sy -> (i < length sx)%nat -> (j < length sy)%nat -> phi (node sx 0) (node sy j) = phi (node sx 0) (node sy 0) ->
  exists r, ln_m2n2k0_tri (degree sx) (degree sy) [i; j] = Some r /\ (r < length (rd_m2n2k0_tri phi f sx sy))%nat /\ nth r (rd_m2n2k0_tri phi f sx sy) 0 = f (phi (node sx i) (node sy j)).
Proof. exact (k0_tri_entries phi f sx sy i j). Qed.
Print Assumptions reduce_triangle_k0.

Theorem reduce_triangle_inner phi J F sx sy qx wx qy wy vx vy : nodes_ok sx -> nodes_ok sy -> in_reference sx -> in_reference sy ->
  length qx = length wx -> length qy = length wy -> in_reference qx -> in_reference qy -> smooth2 phi J -> moves2 phi vx vy ->
  length (rd_m2n2k1_inner_tri phi J F sx sy qx wx qy wy) = ((degree sx) * ((degree sy) + 1) + (degree sx) * (degree sy))%nat /\
  (forall i j, (i < degree sx)%nat -> (j < length sy)%nat ->
     rcoef (cochain (rd_m2n2k1_inner_tri phi J F sx sy qx wx qy wy)) (ln_m2n2k1_inner_tri (degree sx) (degree sy)) 0 [i; j]
     = rule_sum qx wx (node sx i) (node sx (S i)) (fun t => along2 (F (phi t (node sy j))) (vx t (node sy j)))) /\
  (forall i j, (i < degree sx)%nat -> (j < degree sy)%nat ->
     rcoef (cochain (rd_m2n2k1_inner_tri phi J F sx sy qx wx qy wy)) (ln_m2n2k1_inner_tri (degree sx) (degree sy)) 1 [i; j]
     = rule_sum qy wy (node sy j) (node sy (S j)) (fun t => along2 (F (phi (node sx (S i)) t)) (vy (node sx (S i)) t))).
Proof. exact (inner_tri_entries phi J F sx sy qx wx qy wy vx vy). Qed.
Print Assumptions reduce_triangle_inner.

Theorem reduce_triangle_outer phi J F sx sy qx wx qy wy vx vy : nodes_ok sx -> nodes_ok sy -> in_reference sx -> in_reference sy ->
  length qx = length wx -> length qy = length wy -> in_reference qx -> in_reference qy -> smooth2 phi J -> moves2 phi vx vy ->
  length (rd_m2n2k1_outer_tri phi J F sx sy qx wx qy wy) = ((degree sx) * (degree sy) + (degree sx) * ((degree sy) + 1))%nat /\
  (forall i j, (i < degree sx)%nat -> (j < degree sy)%nat ->
     rcoef (cochain (rd_m2n2k1_outer_tri phi J F sx sy qx wx qy wy)) (ln_m2n2k1_outer_tri (degree sx) (degree sy)) 0 [i; j]
     = rule_sum qy wy (node sy j) (node sy (S j)) (fun t => to_right (F (phi (node sx (S i)) t)) (vy (node sx (S i)) t))) /\
  (forall i j, (i < degree sx)%nat -> (j < length sy)%nat ->
     rcoef (cochain (rd_m2n2k1_outer_tri phi J F sx sy qx wx qy wy)) (ln_m2n2k1_outer_tri (degree sx) (degree sy)) 1 [i; j]
     = rule_sum qx wx (node sx i) (node sx (S i)) (fun t => to_left (F (phi t (node sy j))) (vx t (node sy j)))).
Proof. exact (outer_tri_entries phi J F sx sy qx wx qy wy vx vy). Qed.
Print Assumptions reduce_triangle_outer.

(** * reduction in 3-d *)

Theorem reduce_3d_k0 phi f sx sy sz : nodes_ok sx -> nodes_ok sy -> nodes_ok sz ->
  length (rd_m3n3k0 phi f sx sy sz) = nd_m3n3k0 (degree sx) (degree sy) (degree sz) /\
  (forall i j k, (i < length sx)%nat -> (j < length sy)%nat -> (k < length sz)%nat ->
     rcoef (cochain (rd_m3n3k0 phi f sx sy sz)) (ln_m3n3k0 (degree sx) (degree sy) (degree sz)) 0 [i; j; k] = f (phi (node sx i) (node sy j) (node sz k))).
Proof. exact (k0_3_entries phi f sx sy sz). Qed.
Print Assumptions reduce_3d_k0.

Theorem reduce_3d_k1 (phi : R -> R -> R -> pt3) (J : R -> R -> R -> mat) (F : pt3 -> pt3) (sx sy sz qx wx qy wy qz wz : list R) (vx vy vz : R -> R -> R -> R * R * R) :
  nodes_ok sx -> nodes_ok sy -> nodes_ok sz -> in_reference sx -> in_reference sy -> in_reference sz -> length qx = length wx -> length qy = length wy -> length qz = length wz -> in_reference qx -> in_reference qy -> in_reference qz -> smooth3 phi J -> moves3 phi vx vy vz ->
  let c := rd_m3n3k1 phi J F sx sy sz qx wx qy wy qz wz in let ln := ln_m3n3k1 (degree sx) (degree sy) (degree sz) in
  length c = nd_m3n3k1 (degree sx) (degree sy) (degree sz) /\
  (forall i j k, (i < (degree sx))%nat -> (j < length sy)%nat -> (k < length sz)%nat ->
    rcoef (cochain c) ln 0 [i; j; k] = rule_sum qx wx (node sx i) (node sx (S i)) (fun t => along3 (F (phi t (node sy j) (node sz k))) (vx t (node sy j) (node sz k)))) /\
  (forall i j k, (i < length sx)%nat -> (j < (degree sy))%nat -> (k < length sz)%nat ->
    rcoef (cochain c) ln 1 [i; j; k] = rule_sum qy wy (node sy j) (node sy (S j)) (fun t => along3 (F (phi (node sx i) t (node sz k))) (vy (node sx i) t (node sz k)))) /\
  (forall i j k, (i < length sx)%nat -> (j < length sy)%nat -> (k < (degree sz))%nat ->
    rcoef (cochain c) ln 2 [i; j; k] = rule_sum qz wz (node sz k) (node sz (S k)) (fun t => along3 (F (phi (node sx i) (node sy j) t)) (vz (node sx i) (node sy j) t))).
Proof. intros ? ? ? ? ? ? ? ? ? ? ? ? ? ?. eapply k1_entries; eassumption. Qed.
Print Assumptions reduce_3d_k1.


Theorem reduce_3d_k2 (phi : R -> R -> R -> pt3) (J : R -> R -> R -> mat) (F : pt3 -> pt3) (sx sy sz qx wx qy wy qz wz : list R) (vx vy vz : R -> R -> R -> R * R * R) :
  nodes_ok sx -> nodes_ok sy -> nodes_ok sz -> in_reference sx -> in_reference sy -> in_reference sz -> length qx = length wx -> length qy = length wy -> length qz = length wz -> in_reference qx -> in_reference qy -> in_reference qz -> smooth3 phi J -> moves3 phi vx vy vz ->
  let c := rd_m3n3k2 phi J F sx sy sz qx wx qy wy qz wz in let ln := ln_m3n3k2 (degree sx) (degree sy) (degree sz) in
  length c = nd_m3n3k2 (degree sx) (degree sy) (degree sz) /\
  (forall i j k, (i < length sx)%nat -> (j < (degree sy))%nat -> (k < (degree sz))%nat ->
    rcoef (cochain c) ln 0 [i; j; k] = rule_sum2 qy wy qz wz (node sy j) (node sy (S j)) (node sz k) (node sz (S k)) (fun y z => through (F (phi (node sx i) y z)) (vy (node sx i) y z) (vz (node sx i) y z))) /\
  (forall i j k, (i < (degree sx))%nat -> (j < length sy)%nat -> (k < (degree sz))%nat ->
    rcoef (cochain c) ln 1 [i; j; k] = rule_sum2 qx wx qz wz (node sx i) (node sx (S i)) (node sz k) (node sz (S k)) (fun x z => through (F (phi x (node sy j) z)) (vz x (node sy j) z) (vx x (node sy j) z))) /\
  (forall i j k, (i < (degree sx))%nat -> (j < (degree sy))%nat -> (k < length sz)%nat ->
    rcoef (cochain c) ln 2 [i; j; k] = rule_sum2 qx wx qy wy (node sx i) (node sx (S i)) (node sy j) (node sy (S j)) (fun x y => through (F (phi x y (node sz k))) (vx x y (node sz k)) (vy x y (node sz k)))).
Proof. intros ? ? ? ? ? ? ? ? ? ? ? ? ? ?. eapply k2_entries; eassumption. Qed.
Print Assumptions reduce_3d_k2.


Theorem reduce_3d_k3 phi J det f sx sy sz qx wx qy wy qz wz vx vy vz : nodes_ok sx -> nodes_ok sy -> nodes_ok sz -> in_reference sx -> in_reference sy -> in_reference sz ->
  length qx = length wx -> length qy = length wy -> length qz = length wz -> in_reference qx -> in_reference qy -> in_reference qz ->
  smooth3 phi J -> moves3 phi vx vy vz -> (forall x y z, jac_det 3 (J x y z) = Some (det x y z)) ->
  length (rd_m3n3k3 phi sx sy sz qx wx qy wy qz wz det f) = nd_m3n3k3 (degree sx) (degree sy) (degree sz) /\
  (forall i j k, (i < degree sx)%nat -> (j < degree sy)%nat -> (k < degree sz)%nat ->
     rcoef (cochain (rd_m3n3k3 phi sx sy sz qx wx qy wy qz wz det f)) (ln_m3n3k3 (degree sx) (degree sy) (degree sz)) 0 [i; j; k]
     = rule_sum3 qx wx qy wy qz wz (node sx i) (node sx (S i)) (node sy j) (node sy (S j)) (node sz k) (node sz (S k)) (fun x y z => f (phi x y z) * volume3 (vx x y z) (vy x y z) (vz x y z))).
Proof. exact (k3_volume phi J det f sx sy sz qx wx qy wy qz wz vx vy vz). Qed.
Print Assumptions reduce_3d_k3.

(** * reconstruction: the components along and across the images of the coordinate lines are the polynomials on the reference element *)

Theorem reconstruct_2d_inner phi J sx sy xi et c vx vy : nodes_ok sx -> nodes_ok sy -> length c = nd_m2n2k1 (degree sx) (degree sy) -> smooth2 phi J -> moves2 phi vx vy ->
  exists a b, rc_vector2 push_inner2 J xi et (rc_m2n2k1_inner sx sy xi et c) = Some [a; b] /\ length a = (length xi * length et)%nat /\ length b = (length xi * length et)%nat /\
    forall p q x y, nth_error xi p = Some x -> nth_error et q = Some y -> ref x -> ref y -> determinant 2 (J x y) <> 0 ->
      let F := (at_2d a (length xi) p q, at_2d b (length xi) p q) in let ln := ln_m2n2k1_inner (degree sx) (degree sy) in
      along2 F (vx x y) = form2 (cochain c) ln 0 (edges sx) (nodal sy) x y /\ along2 F (vy x y) = form2 (cochain c) ln 1 (nodal sx) (edges sy) x y.
Proof. exact (inner_grid phi J sx sy xi et c vx vy). Qed.
Print Assumptions reconstruct_2d_inner.

Theorem reconstruct_2d_outer phi J sx sy xi et c vx vy : nodes_ok sx -> nodes_ok sy -> length c = nd_m2n2k1 (degree sx) (degree sy) -> smooth2 phi J -> moves2 phi vx vy ->
  exists a b, rc_vector2 push_outer2 J xi et (rc_m2n2k1_outer sx sy xi et c) = Some [a; b] /\ length a = (length xi * length et)%nat /\ length b = (length xi * length et)%nat /\
    forall p q x y, nth_error xi p = Some x -> nth_error et q = Some y -> ref x -> ref y -> determinant 2 (J x y) <> 0 ->
      let F := (at_2d a (length xi) p q, at_2d b (length xi) p q) in let ln := ln_m2n2k1_outer (degree sx) (degree sy) in
      to_right F (vy x y) = form2 (cochain c) ln 0 (nodal sx) (edges sy) x y /\ to_left F (vx x y) = form2 (cochain c) ln 1 (edges sx) (nodal sy) x y.
Proof. exact (outer_grid phi J sx sy xi et c vx vy). Qed.
Print Assumptions reconstruct_2d_outer.

Theorem reconstruct_2d_k2 phi J sx sy xi et c vx vy : nodes_ok sx -> nodes_ok sy -> length c = nd_m2n2k2 (degree sx) (degree sy) -> smooth2 phi J -> moves2 phi vx vy ->
  exists a, rc_density2 J xi et (rc_m2n2k2 sx sy xi et c) = Some [a] /\ length a = (length xi * length et)%nat /\
    forall p q x y, nth_error xi p = Some x -> nth_error et q = Some y -> ref x -> ref y -> determinant 2 (J x y) <> 0 ->
      at_2d a (length xi) p q * area2 (vx x y) (vy x y) = form2 (cochain c) (ln_m2n2k2 (degree sx) (degree sy)) 0 (edges sx) (edges sy) x y.
Proof. exact (density_grid phi J sx sy xi et c vx vy). Qed.
Print Assumptions reconstruct_2d_k2.

Theorem reconstruct_3d_k1 phi J sx sy sz xi et sg c vx vy vz : nodes_ok sx -> nodes_ok sy -> nodes_ok sz -> length c = nd_m3n3k1 (degree sx) (degree sy) (degree sz) -> smooth3 phi J -> moves3 phi vx vy vz ->
  exists a b e, rc_vector3 push1_3 J xi et sg (rc_m3n3k1 sx sy sz xi et sg c) = Some [a; b; e] /\
    length a = (length xi * length et * length sg)%nat /\ length b = (length xi * length et * length sg)%nat /\ length e = (length xi * length et * length sg)%nat /\
    forall p q r x y z, nth_error xi p = Some x -> nth_error et q = Some y -> nth_error sg r = Some z -> ref x -> ref y -> ref z -> determinant 3 (J x y z) <> 0 ->
      let F := (at_3d a (length xi) (length et) p q r, at_3d b (length xi) (length et) p q r, at_3d e (length xi) (length et) p q r) in
      let ln := ln_m3n3k1 (degree sx) (degree sy) (degree sz) in
      along3 F (vx x y z) = form3 (cochain c) ln 0 (edges sx) (nodal sy) (nodal sz) x y z /\
      along3 F (vy x y z) = form3 (cochain c) ln 1 (nodal sx) (edges sy) (nodal sz) x y z /\
      along3 F (vz x y z) = form3 (cochain c) ln 2 (nodal sx) (nodal sy) (edges sz) x y z.
Proof. exact (k1_grid phi J sx sy sz xi et sg c vx vy vz). Qed.
Print Assumptions reconstruct_3d_k1.

Theorem reconstruct_3d_k2 phi J sx sy sz xi et sg c vx vy vz : nodes_ok sx -> nodes_ok sy -> nodes_ok sz -> length c = nd_m3n3k2 (degree sx) (degree sy) (degree sz) -> smooth3 phi J -> moves3 phi vx vy vz ->
  exists a b e, rc_vector3 push2_3 J xi et sg (rc_m3n3k2 sx sy sz xi et sg c) = Some [a; b; e] /\
    length a = (length xi * length et * length sg)%nat /\ length b = (length xi * length et * length sg)%nat /\ length e = (length xi * length et * length sg)%nat /\
    forall p q r x y z, nth_error xi p = Some x -> nth_error et q = Some y -> nth_error sg r = Some z -> ref x -> ref y -> ref z -> determinant 3 (J x y z) <> 0 ->
      let F := (at_3d a (length xi) (length et) p q r, at_3d b (length xi) (length et) p q r, at_3d e (length xi) (length et) p q r) in
      let ln := ln_m3n3k2 (degree sx) (degree sy) (degree sz) in
      through F (vy x y z) (vz x y z) = form3 (cochain c) ln 0 (nodal sx) (edges sy) (edges sz) x y z /\
      through F (vz x y z) (vx x y z) = form3 (cochain c) ln 1 (edges sx) (nodal sy) (edges sz) x y z /\
      through F (vx x y z) (vy x y z) = form3 (cochain c) ln 2 (edges sx) (edges sy) (nodal sz) x y z.
Proof. exact (k2_grid phi J sx sy sz xi et sg c vx vy vz). Qed.
Print Assumptions reconstruct_3d_k2.

Theorem reconstruct_3d_k3 phi J sx sy sz xi et sg c vx vy vz : nodes_ok sx -> nodes_ok sy -> nodes_ok sz -> length c = nd_m3n3k3 (degree sx) (degree sy) (degree sz) -> smooth3 phi J -> moves3 phi vx vy vz ->
  exists a, rc_density3 J xi et sg (rc_m3n3k3 sx sy sz xi et sg c) = Some [a] /\ length a = (length xi * length et * length sg)%nat /\
    forall p q r x y z, nth_error xi p = Some x -> nth_error et q = Some y -> nth_error sg r = Some z -> ref x -> ref y -> ref z -> determinant 3 (J x y z) <> 0 ->
      at_3d a (length xi) (length et) p q r * volume3 (vx x y z) (vy x y z) (vz x y z) = form3 (cochain c) (ln_m3n3k3 (degree sx) (degree sy) (degree sz)) 0 (edges sx) (edges sy) (edges sz) x y z.
Proof. exact (density3_grid_values phi J sx sy sz xi et sg c vx vy vz). Qed.
Print Assumptions reconstruct_3d_k3.

(** * reducing a reconstructed field gives the cochain back *)

Theorem reduce_reconstructed_2d_k0 (phi : R -> R -> pt2) (sx sy qx wx qy wy c : list R) f :
  nodes_ok sx -> nodes_ok sy -> in_reference sx -> in_reference sy -> proper_rule (degree sx) qx wx -> proper_rule (degree sy) qy wy ->
  length c = nd_m2n2k0 (degree sx) (degree sy) ->
  (forall x y, ref x -> ref y -> rc_m2n2k0 sx sy [x] [y] c = Some [[f (phi x y)]]) -> rd_m2n2k0 phi f sx sy = c.
Proof. intros ? ? ? ? ? ?. eapply k0_round; eassumption. Qed.
Print Assumptions reduce_reconstructed_2d_k0.


Theorem reduce_reconstructed_2d_inner (phi : R -> R -> pt2) (J : R -> R -> mat) (sx sy qx wx qy wy c : list R) F :
  nodes_ok sx -> nodes_ok sy -> in_reference sx -> in_reference sy -> proper_rule (degree sx) qx wx -> proper_rule (degree sy) qy wy -> (forall x y, ref x -> ref y -> determinant 2 (J x y) <> 0) ->
  length c = nd_m2n2k1 (degree sx) (degree sy) ->
  (forall x y, ref x -> ref y -> rc_vector2 push_inner2 J [x] [y] (rc_m2n2k1_inner sx sy [x] [y] c) = Some [[fst (F (phi x y))]; [snd (F (phi x y))]]) ->
  rd_m2n2k1_inner phi J F sx sy qx wx qy wy = c.
Proof. intros ? ? ? ? ? ? ?. eapply inner_round; eassumption. Qed.
Print Assumptions reduce_reconstructed_2d_inner.


Theorem reduce_reconstructed_2d_outer (phi : R -> R -> pt2) (J : R -> R -> mat) (sx sy qx wx qy wy c : list R) F :
  nodes_ok sx -> nodes_ok sy -> in_reference sx -> in_reference sy -> proper_rule (degree sx) qx wx -> proper_rule (degree sy) qy wy -> (forall x y, ref x -> ref y -> determinant 2 (J x y) <> 0) ->
  length c = nd_m2n2k1 (degree sx) (degree sy) ->
  (forall x y, ref x -> ref y -> rc_vector2 push_outer2 J [x] [y] (rc_m2n2k1_outer sx sy [x] [y] c) = Some [[fst (F (phi x y))]; [snd (F (phi x y))]]) ->
  rd_m2n2k1_outer phi J F sx sy qx wx qy wy = c.
Proof. intros ? ? ? ? ? ? ?. eapply outer_round; eassumption. Qed.
Print Assumptions reduce_reconstructed_2d_outer.


Theorem reduce_reconstructed_2d_k2 (phi : R -> R -> pt2) (J : R -> R -> mat) (sx sy qx wx qy wy c : list R) det f :
  nodes_ok sx -> nodes_ok sy -> in_reference sx -> in_reference sy -> proper_rule (degree sx) qx wx -> proper_rule (degree sy) qy wy -> (forall x y, ref x -> ref y -> determinant 2 (J x y) <> 0) ->
  length c = nd_m2n2k2 (degree sx) (degree sy) -> (forall x y, jac_det 2 (J x y) = Some (det x y)) ->
  (forall x y, ref x -> ref y -> rc_density2 J [x] [y] (rc_m2n2k2 sx sy [x] [y] c) = Some [[f (phi x y)]]) ->
  rd_m2n2k2 phi det f sx sy qx wx qy wy = c.
Proof. intros ? ? ? ? ? ? ?. eapply ReduceRound.k2_round; eassumption. Qed.
Print Assumptions reduce_reconstructed_2d_k2.


Theorem reduce_reconstructed_3d_k0 (phi : R -> R -> R -> pt3) (sx sy sz qx wx qy wy qz wz c : list R) f :
  nodes_ok sx -> nodes_ok sy -> nodes_ok sz -> in_reference sx -> in_reference sy -> in_reference sz -> proper_rule (degree sx) qx wx -> proper_rule (degree sy) qy wy -> proper_rule (degree sz) qz wz ->
  length c = nd_m3n3k0 (degree sx) (degree sy) (degree sz) ->
  (forall x y z, ref x -> ref y -> ref z -> rc_m3n3k0 sx sy sz [x] [y] [z] c = Some [[f (phi x y z)]]) -> rd_m3n3k0 phi f sx sy sz = c.
Proof. intros ? ? ? ? ? ? ? ? ?. eapply k0_round3; eassumption. Qed.
Print Assumptions reduce_reconstructed_3d_k0.


Theorem reduce_reconstructed_3d_k1 (phi : R -> R -> R -> pt3) (J : R -> R -> R -> mat) (sx sy sz qx wx qy wy qz wz c : list R) F :
  nodes_ok sx -> nodes_ok sy -> nodes_ok sz -> in_reference sx -> in_reference sy -> in_reference sz -> proper_rule (degree sx) qx wx -> proper_rule (degree sy) qy wy -> proper_rule (degree sz) qz wz -> (forall x y z, ref x -> ref y -> ref z -> determinant 3 (J x y z) <> 0) ->
  length c = nd_m3n3k1 (degree sx) (degree sy) (degree sz) ->
  (forall x y z, ref x -> ref y -> ref z -> rc_vector3 push1_3 J [x] [y] [z] (rc_m3n3k1 sx sy sz [x] [y] [z] c) = Some [[fst (fst (F (phi x y z)))]; [snd (fst (F (phi x y z)))]; [snd (F (phi x y z))]]) ->
  rd_m3n3k1 phi J F sx sy sz qx wx qy wy qz wz = c.
Proof. intros ? ? ? ? ? ? ? ? ? ?. eapply k1_round; eassumption. Qed.
Print Assumptions reduce_reconstructed_3d_k1.


Theorem reduce_reconstructed_3d_k2 (phi : R -> R -> R -> pt3) (J : R -> R -> R -> mat) (sx sy sz qx wx qy wy qz wz c : list R) F :
  nodes_ok sx -> nodes_ok sy -> nodes_ok sz -> in_reference sx -> in_reference sy -> in_reference sz -> proper_rule (degree sx) qx wx -> proper_rule (degree sy) qy wy -> proper_rule (degree sz) qz wz -> (forall x y z, ref x -> ref y -> ref z -> determinant 3 (J x y z) <> 0) ->
  length c = nd_m3n3k2 (degree sx) (degree sy) (degree sz) ->
  (forall x y z, ref x -> ref y -> ref z -> rc_vector3 push2_3 J [x] [y] [z] (rc_m3n3k2 sx sy sz [x] [y] [z] c) = Some [[fst (fst (F (phi x y z)))]; [snd (fst (F (phi x y z)))]; [snd (F (phi x y z))]]) ->
  rd_m3n3k2 phi J F sx sy sz qx wx qy wy qz wz = c.
Proof. intros ? ? ? ? ? ? ? ? ? ?. eapply ReduceRound3.k2_round; eassumption. Qed.
Print Assumptions reduce_reconstructed_3d_k2.


Theorem reduce_reconstructed_3d_k3 (phi : R -> R -> R -> pt3) (J : R -> R -> R -> mat) (sx sy sz qx wx qy wy qz wz c : list R) det f :
  nodes_ok sx -> nodes_ok sy -> nodes_ok sz -> in_reference sx -> in_reference sy -> in_reference sz -> proper_rule (degree sx) qx wx -> proper_rule (degree sy) qy wy -> proper_rule (degree sz) qz wz -> (forall x y z, ref x -> ref y -> ref z -> determinant 3 (J x y z) <> 0) ->
  length c = nd_m3n3k3 (degree sx) (degree sy) (degree sz) -> (forall x y z, jac_det 3 (J x y z) = Some (det x y z)) ->
  (forall x y z, ref x -> ref y -> ref z -> rc_density3 J [x] [y] [z] (rc_m3n3k3 sx sy sz [x] [y] [z] c) = Some [[f (phi x y z)]]) ->
  rd_m3n3k3 phi sx sy sz qx wx qy wy qz wz det f = c.
Proof. intros ? ? ? ? ? ? ? ? ? ?. eapply k3_round; eassumption. Qed.
Print Assumptions reduce_reconstructed_3d_k3.


(** * theorems of Gauss, Green and Stokes between reconstructed fields and those of the cochain after the incidence matrix *)

Theorem reconstructed_gauss_2d (phi : R -> R -> pt2) (J : R -> R -> mat) (sx sy c d : list R) (vx vy : R -> R -> R * R) E V g :
  nodes_ok sx -> nodes_ok sy -> in_reference sx -> in_reference sy -> smooth2 phi J -> moves2 phi vx vy -> (forall x y, ref x -> ref y -> determinant 2 (J x y) <> 0) ->
  E_m2n2k1_outer (degree sx) (degree sy) = Some E -> length c = nd_m2n2k1 (degree sx) (degree sy) -> applied E (nd_m2n2k2 (degree sx) (degree sy)) c d ->
  (forall x y, ref x -> ref y -> rc_vector2 push_outer2 J [x] [y] (rc_m2n2k1_outer sx sy [x] [y] c) = Some [[fst (V (phi x y))]; [snd (V (phi x y))]]) ->
  (forall x y, ref x -> ref y -> rc_density2 J [x] [y] (rc_m2n2k2 sx sy [x] [y] d) = Some [[g (phi x y)]]) ->
  forall i j, (i < (degree sx))%nat -> (j < (degree sy))%nat -> exists right left top bottom,
    is_RInt (fun t => to_right (V (phi (node sx (S i)) t)) (vy (node sx (S i)) t)) (node sy j) (node sy (S j)) right /\
    is_RInt (fun t => to_right (V (phi (node sx i) t)) (vy (node sx i) t)) (node sy j) (node sy (S j)) left /\
    is_RInt (fun t => to_left (V (phi t (node sy (S j)))) (vx t (node sy (S j)))) (node sx i) (node sx (S i)) top /\
    is_RInt (fun t => to_left (V (phi t (node sy j))) (vx t (node sy j))) (node sx i) (node sx (S i)) bottom /\
    integral_on2 (fun x y => g (phi x y) * area2 (vx x y) (vy x y)) (node sx i) (node sx (S i)) (node sy j) (node sy (S j)) (right - left + (top - bottom)).
Proof. intros ? ? ? ? ? ? ?. eapply gauss2; eassumption. Qed.
Print Assumptions reconstructed_gauss_2d.


Theorem reconstructed_green_2d (phi : R -> R -> pt2) (J : R -> R -> mat) (sx sy c d : list R) (vx vy : R -> R -> R * R) E V g :
  nodes_ok sx -> nodes_ok sy -> in_reference sx -> in_reference sy -> smooth2 phi J -> moves2 phi vx vy -> (forall x y, ref x -> ref y -> determinant 2 (J x y) <> 0) ->
  E_m2n2k1_inner (degree sx) (degree sy) = Some E -> length c = nd_m2n2k1 (degree sx) (degree sy) -> applied E (nd_m2n2k2 (degree sx) (degree sy)) c d ->
  (forall x y, ref x -> ref y -> rc_vector2 push_inner2 J [x] [y] (rc_m2n2k1_inner sx sy [x] [y] c) = Some [[fst (V (phi x y))]; [snd (V (phi x y))]]) ->
  (forall x y, ref x -> ref y -> rc_density2 J [x] [y] (rc_m2n2k2 sx sy [x] [y] d) = Some [[g (phi x y)]]) ->
  forall i j, (i < (degree sx))%nat -> (j < (degree sy))%nat -> exists right left top bottom,
    is_RInt (fun t => along2 (V (phi (node sx (S i)) t)) (vy (node sx (S i)) t)) (node sy j) (node sy (S j)) right /\
    is_RInt (fun t => along2 (V (phi (node sx i) t)) (vy (node sx i) t)) (node sy j) (node sy (S j)) left /\
    is_RInt (fun t => along2 (V (phi t (node sy (S j)))) (vx t (node sy (S j)))) (node sx i) (node sx (S i)) top /\
    is_RInt (fun t => along2 (V (phi t (node sy j))) (vx t (node sy j))) (node sx i) (node sx (S i)) bottom /\
    integral_on2 (fun x y => g (phi x y) * area2 (vx x y) (vy x y)) (node sx i) (node sx (S i)) (node sy j) (node sy (S j)) (bottom + right - top - left).
Proof. intros ? ? ? ? ? ? ?. eapply green2; eassumption. Qed.
Print Assumptions reconstructed_green_2d.


Theorem reconstructed_gradient_2d (phi : R -> R -> pt2) (J : R -> R -> mat) (sx sy c d : list R) (vx vy : R -> R -> R * R) E V f :
  nodes_ok sx -> nodes_ok sy -> in_reference sx -> in_reference sy -> smooth2 phi J -> moves2 phi vx vy -> (forall x y, ref x -> ref y -> determinant 2 (J x y) <> 0) ->
  E_m2n2k0_inner (degree sx) (degree sy) = Some E -> length c = nd_m2n2k0 (degree sx) (degree sy) -> applied E (nd_m2n2k1 (degree sx) (degree sy)) c d ->
  (forall x y, ref x -> ref y -> rc_m2n2k0 sx sy [x] [y] c = Some [[f (phi x y)]]) ->
  (forall x y, ref x -> ref y -> rc_vector2 push_inner2 J [x] [y] (rc_m2n2k1_inner sx sy [x] [y] d) = Some [[fst (V (phi x y))]; [snd (V (phi x y))]]) ->
  (forall i j, (i < (degree sx))%nat -> (j < length sy)%nat ->
     is_RInt (fun t => along2 (V (phi t (node sy j))) (vx t (node sy j))) (node sx i) (node sx (S i)) (f (phi (node sx (S i)) (node sy j)) - f (phi (node sx i) (node sy j)))) /\
  (forall i j, (i < length sx)%nat -> (j < (degree sy))%nat ->
     is_RInt (fun t => along2 (V (phi (node sx i) t)) (vy (node sx i) t)) (node sy j) (node sy (S j)) (f (phi (node sx i) (node sy (S j))) - f (phi (node sx i) (node sy j)))).
Proof. intros ? ? ? ? ? ? ?. eapply potential2; eassumption. Qed.
Print Assumptions reconstructed_gradient_2d.


Theorem reconstructed_curl_2d (phi : R -> R -> pt2) (J : R -> R -> mat) (sx sy c d : list R) (vx vy : R -> R -> R * R) E V f :
  nodes_ok sx -> nodes_ok sy -> in_reference sx -> in_reference sy -> smooth2 phi J -> moves2 phi vx vy -> (forall x y, ref x -> ref y -> determinant 2 (J x y) <> 0) ->
  E_m2n2k0_outer (degree sx) (degree sy) = Some E -> length c = nd_m2n2k0 (degree sx) (degree sy) -> applied E (nd_m2n2k1 (degree sx) (degree sy)) c d ->
  (forall x y, ref x -> ref y -> rc_m2n2k0 sx sy [x] [y] c = Some [[f (phi x y)]]) ->
  (forall x y, ref x -> ref y -> rc_vector2 push_outer2 J [x] [y] (rc_m2n2k1_outer sx sy [x] [y] d) = Some [[fst (V (phi x y))]; [snd (V (phi x y))]]) ->
  (forall i j, (i < length sx)%nat -> (j < (degree sy))%nat ->
     is_RInt (fun t => to_right (V (phi (node sx i) t)) (vy (node sx i) t)) (node sy j) (node sy (S j)) (f (phi (node sx i) (node sy (S j))) - f (phi (node sx i) (node sy j)))) /\
  (forall i j, (i < (degree sx))%nat -> (j < length sy)%nat ->
     is_RInt (fun t => to_left (V (phi t (node sy j))) (vx t (node sy j))) (node sx i) (node sx (S i)) (- (f (phi (node sx (S i)) (node sy j)) - f (phi (node sx i) (node sy j))))).
Proof. intros ? ? ? ? ? ? ?. eapply stream2; eassumption. Qed.
Print Assumptions reconstructed_curl_2d.


(** the gradient, not only its integrals *)

Theorem reconstructed_gradient_2d_pointwise (phi : R -> R -> pt2) (J : R -> R -> mat) (sx sy c d : list R) E f x y gx gy :
  nodes_ok sx -> nodes_ok sy -> smooth2 phi J -> (forall x y, ref x -> ref y -> determinant 2 (J x y) <> 0) ->
  E_m2n2k0_inner (degree sx) (degree sy) = Some E -> length c = nd_m2n2k0 (degree sx) (degree sy) -> applied E (nd_m2n2k1 (degree sx) (degree sy)) c d ->
  (forall x y, ref x -> ref y -> rc_m2n2k0 sx sy [x] [y] c = Some [[f (phi x y)]]) -> -1 < x < 1 -> -1 < y < 1 ->
  differentiable_pt_lim (fun a b => f (a, b)) (fst (phi x y)) (snd (phi x y)) gx gy ->
  rc_vector2 push_inner2 J [x] [y] (rc_m2n2k1_inner sx sy [x] [y] d) = Some [[gx]; [gy]].
Proof. intros ? ? ? ?. eapply gradient2; eassumption. Qed.
Print Assumptions reconstructed_gradient_2d_pointwise.


Theorem reconstructed_curl_2d_pointwise (phi : R -> R -> pt2) (J : R -> R -> mat) (sx sy c d : list R) E f x y gx gy :
  nodes_ok sx -> nodes_ok sy -> smooth2 phi J -> (forall x y, ref x -> ref y -> determinant 2 (J x y) <> 0) ->
  E_m2n2k0_outer (degree sx) (degree sy) = Some E -> length c = nd_m2n2k0 (degree sx) (degree sy) -> applied E (nd_m2n2k1 (degree sx) (degree sy)) c d ->
  (forall x y, ref x -> ref y -> rc_m2n2k0 sx sy [x] [y] c = Some [[f (phi x y)]]) -> -1 < x < 1 -> -1 < y < 1 ->
  differentiable_pt_lim (fun a b => f (a, b)) (fst (phi x y)) (snd (phi x y)) gx gy ->
  rc_vector2 push_outer2 J [x] [y] (rc_m2n2k1_outer sx sy [x] [y] d) = Some [[gy]; [- gx]].
Proof. intros ? ? ? ?. eapply curl2; eassumption. Qed.
Print Assumptions reconstructed_curl_2d_pointwise.


Theorem reconstructed_gauss_3d (phi : R -> R -> R -> pt3) (J : R -> R -> R -> mat) (sx sy sz : list R) (vx vy vz : R -> R -> R -> R * R * R) E V g c d :
  nodes_ok sx -> nodes_ok sy -> nodes_ok sz -> in_reference sx -> in_reference sy -> in_reference sz -> smooth3 phi J -> moves3 phi vx vy vz -> (forall x y z, ref x -> ref y -> ref z -> determinant 3 (J x y z) <> 0) ->
  E_m3n3k2 (degree sx) (degree sy) (degree sz) = Some E -> length c = nd_m3n3k2 (degree sx) (degree sy) (degree sz) -> applied E (nd_m3n3k3 (degree sx) (degree sy) (degree sz)) c d ->
  (forall x y z, ref x -> ref y -> ref z -> rc_vector3 push2_3 J [x] [y] [z] (rc_m3n3k2 sx sy sz [x] [y] [z] c) = Some [[fst (fst (V (phi x y z)))]; [snd (fst (V (phi x y z)))]; [snd (V (phi x y z))]]) ->
  (forall x y z, ref x -> ref y -> ref z -> rc_density3 J [x] [y] [z] (rc_m3n3k3 sx sy sz [x] [y] [z] d) = Some [[g (phi x y z)]]) ->
  forall i j k, (i < (degree sx))%nat -> (j < (degree sy))%nat -> (k < (degree sz))%nat -> exists south north west east back front,
    integral_on2 (fun ty tz => through (V (phi (node sx i) ty tz)) (vy (node sx i) ty tz) (vz (node sx i) ty tz)) (node sy j) (node sy (S j)) (node sz k) (node sz (S k)) north /\
    integral_on2 (fun ty tz => through (V (phi (node sx (S i)) ty tz)) (vy (node sx (S i)) ty tz) (vz (node sx (S i)) ty tz)) (node sy j) (node sy (S j)) (node sz k) (node sz (S k)) south /\
    integral_on2 (fun tx tz => through (V (phi tx (node sy j) tz)) (vz tx (node sy j) tz) (vx tx (node sy j) tz)) (node sx i) (node sx (S i)) (node sz k) (node sz (S k)) west /\
    integral_on2 (fun tx tz => through (V (phi tx (node sy (S j)) tz)) (vz tx (node sy (S j)) tz) (vx tx (node sy (S j)) tz)) (node sx i) (node sx (S i)) (node sz k) (node sz (S k)) east /\
    integral_on2 (fun tx ty => through (V (phi tx ty (node sz k))) (vx tx ty (node sz k)) (vy tx ty (node sz k))) (node sx i) (node sx (S i)) (node sy j) (node sy (S j)) back /\
    integral_on2 (fun tx ty => through (V (phi tx ty (node sz (S k)))) (vx tx ty (node sz (S k))) (vy tx ty (node sz (S k)))) (node sx i) (node sx (S i)) (node sy j) (node sy (S j)) front /\
    integral_on3 (fun x y z => g (phi x y z) * volume3 (vx x y z) (vy x y z) (vz x y z)) (node sx i) (node sx (S i)) (node sy j) (node sy (S j)) (node sz k) (node sz (S k)) ((south - north) + (east - west) + (front - back)).
Proof. intros ? ? ? ? ? ? ? ? ?. eapply gauss3; eassumption. Qed.
Print Assumptions reconstructed_gauss_3d.


Theorem reconstructed_stokes_3d (phi : R -> R -> R -> pt3) (J : R -> R -> R -> mat) (sx sy sz : list R) (vx vy vz : R -> R -> R -> R * R * R) E V W c d :
  nodes_ok sx -> nodes_ok sy -> nodes_ok sz -> in_reference sx -> in_reference sy -> in_reference sz -> smooth3 phi J -> moves3 phi vx vy vz -> (forall x y z, ref x -> ref y -> ref z -> determinant 3 (J x y z) <> 0) ->
  E_m3n3k1 (degree sx) (degree sy) (degree sz) = Some E -> length c = nd_m3n3k1 (degree sx) (degree sy) (degree sz) -> applied E (nd_m3n3k2 (degree sx) (degree sy) (degree sz)) c d ->
  (forall x y z, ref x -> ref y -> ref z -> rc_vector3 push1_3 J [x] [y] [z] (rc_m3n3k1 sx sy sz [x] [y] [z] c) = Some [[fst (fst (V (phi x y z)))]; [snd (fst (V (phi x y z)))]; [snd (V (phi x y z))]]) ->
  (forall x y z, ref x -> ref y -> ref z -> rc_vector3 push2_3 J [x] [y] [z] (rc_m3n3k2 sx sy sz [x] [y] [z] d) = Some [[fst (fst (W (phi x y z)))]; [snd (fst (W (phi x y z)))]; [snd (W (phi x y z))]]) ->
  (forall i j k, (i < length sx)%nat -> (j < (degree sy))%nat -> (k < (degree sz))%nat -> exists first second third fourth,
    is_RInt (fun ty => along3 (V (phi (node sx i) ty (node sz k))) (vy (node sx i) ty (node sz k))) (node sy j) (node sy (S j)) first /\
    is_RInt (fun tz => along3 (V (phi (node sx i) (node sy (S j)) tz)) (vz (node sx i) (node sy (S j)) tz)) (node sz k) (node sz (S k)) second /\
    is_RInt (fun ty => along3 (V (phi (node sx i) ty (node sz (S k)))) (vy (node sx i) ty (node sz (S k)))) (node sy j) (node sy (S j)) third /\
    is_RInt (fun tz => along3 (V (phi (node sx i) (node sy j) tz)) (vz (node sx i) (node sy j) tz)) (node sz k) (node sz (S k)) fourth /\
    integral_on2 (fun ty tz => through (W (phi (node sx i) ty tz)) (vy (node sx i) ty tz) (vz (node sx i) ty tz)) (node sy j) (node sy (S j)) (node sz k) (node sz (S k)) (first + second - third - fourth)) /\
  (forall i j k, (i < (degree sx))%nat -> (j < length sy)%nat -> (k < (degree sz))%nat -> exists first second third fourth,
    is_RInt (fun tz => along3 (V (phi (node sx i) (node sy j) tz)) (vz (node sx i) (node sy j) tz)) (node sz k) (node sz (S k)) first /\
    is_RInt (fun tx => along3 (V (phi tx (node sy j) (node sz (S k)))) (vx tx (node sy j) (node sz (S k)))) (node sx i) (node sx (S i)) second /\
    is_RInt (fun tz => along3 (V (phi (node sx (S i)) (node sy j) tz)) (vz (node sx (S i)) (node sy j) tz)) (node sz k) (node sz (S k)) third /\
    is_RInt (fun tx => along3 (V (phi tx (node sy j) (node sz k))) (vx tx (node sy j) (node sz k))) (node sx i) (node sx (S i)) fourth /\
    integral_on2 (fun tx tz => through (W (phi tx (node sy j) tz)) (vz tx (node sy j) tz) (vx tx (node sy j) tz)) (node sx i) (node sx (S i)) (node sz k) (node sz (S k)) (first + second - third - fourth)) /\
  (forall i j k, (i < (degree sx))%nat -> (j < (degree sy))%nat -> (k < length sz)%nat -> exists first second third fourth,
    is_RInt (fun tx => along3 (V (phi tx (node sy j) (node sz k))) (vx tx (node sy j) (node sz k))) (node sx i) (node sx (S i)) first /\
    is_RInt (fun ty => along3 (V (phi (node sx (S i)) ty (node sz k))) (vy (node sx (S i)) ty (node sz k))) (node sy j) (node sy (S j)) second /\
    is_RInt (fun tx => along3 (V (phi tx (node sy (S j)) (node sz k))) (vx tx (node sy (S j)) (node sz k))) (node sx i) (node sx (S i)) third /\
    is_RInt (fun ty => along3 (V (phi (node sx i) ty (node sz k))) (vy (node sx i) ty (node sz k))) (node sy j) (node sy (S j)) fourth /\
    integral_on2 (fun tx ty => through (W (phi tx ty (node sz k))) (vx tx ty (node sz k)) (vy tx ty (node sz k))) (node sx i) (node sx (S i)) (node sy j) (node sy (S j)) (first + second - third - fourth)).
Proof. intros ? ? ? ? ? ? ? ? ?. eapply stokes3; eassumption. Qed.
Print Assumptions reconstructed_stokes_3d.


Theorem reconstructed_gradient_3d (phi : R -> R -> R -> pt3) (J : R -> R -> R -> mat) (sx sy sz : list R) (vx vy vz : R -> R -> R -> R * R * R) E V f c d :
  nodes_ok sx -> nodes_ok sy -> nodes_ok sz -> in_reference sx -> in_reference sy -> in_reference sz -> smooth3 phi J -> moves3 phi vx vy vz -> (forall x y z, ref x -> ref y -> ref z -> determinant 3 (J x y z) <> 0) ->
  E_m3n3k0 (degree sx) (degree sy) (degree sz) = Some E -> length c = nd_m3n3k0 (degree sx) (degree sy) (degree sz) -> applied E (nd_m3n3k1 (degree sx) (degree sy) (degree sz)) c d ->
  (forall x y z, ref x -> ref y -> ref z -> rc_m3n3k0 sx sy sz [x] [y] [z] c = Some [[f (phi x y z)]]) ->
  (forall x y z, ref x -> ref y -> ref z -> rc_vector3 push1_3 J [x] [y] [z] (rc_m3n3k1 sx sy sz [x] [y] [z] d) = Some [[fst (fst (V (phi x y z)))]; [snd (fst (V (phi x y z)))]; [snd (V (phi x y z))]]) ->
  (forall i j k, (i < (degree sx))%nat -> (j < length sy)%nat -> (k < length sz)%nat -> is_RInt (fun tx => along3 (V (phi tx (node sy j) (node sz k))) (vx tx (node sy j) (node sz k))) (node sx i) (node sx (S i)) (f (phi (node sx (S i)) (node sy j) (node sz k)) - f (phi (node sx i) (node sy j) (node sz k)))) /\
  (forall i j k, (i < length sx)%nat -> (j < (degree sy))%nat -> (k < length sz)%nat -> is_RInt (fun ty => along3 (V (phi (node sx i) ty (node sz k))) (vy (node sx i) ty (node sz k))) (node sy j) (node sy (S j)) (f (phi (node sx i) (node sy (S j)) (node sz k)) - f (phi (node sx i) (node sy j) (node sz k)))) /\
  (forall i j k, (i < length sx)%nat -> (j < length sy)%nat -> (k < (degree sz))%nat -> is_RInt (fun tz => along3 (V (phi (node sx i) (node sy j) tz)) (vz (node sx i) (node sy j) tz)) (node sz k) (node sz (S k)) (f (phi (node sx i) (node sy j) (node sz (S k))) - f (phi (node sx i) (node sy j) (node sz k)))).
Proof. intros ? ? ? ? ? ? ? ? ?. eapply potential3; eassumption. Qed.
Print Assumptions reconstructed_gradient_3d.


(** * Examples *)
(** Simpson's rule integrates cubic polynomials *)
Example reduce_rule_case : proper_rule 4 [-1; 0; 1] [1/3; 4/3; 1/3] /\ nodes_ok [-1; 0; 1] /\ in_reference [-1; 0; 1].
Proof.
  assert (F : List.Forall (fun x => -1 <= x <= 1) [-1; 0; 1]) by (repeat constructor; lra).
  refine (conj (conj eq_refl (conj F _)) (conj _ F)).
  - intros k Hk. apply pow_RInt_eq.
    do 4 (destruct k as [| k]; [unfold total; cbn; field |]). lia.
  - split; [|cbn; lia]. intros i j H. cbn in H. destruct i as [|[|[|]]], j as [|[|[|]]]; cbn; try lia; lra.
Qed.
(** a trapezium: the width of the square grows from 2 to 4 *)
Definition trapezium_map (x y : R) : pt2 := (x * (3 + y), y).
Definition trapezium_jac (x y : R) : mat := mat2 (3 + y) x 0 1.
Example reduce_mapping_case : smooth2 trapezium_map trapezium_jac /\ moves2 trapezium_map (fun x y => (3 + y, 0)) (fun x y => (x, 1)) /\
  (forall x y, ref x -> ref y -> determinant 2 (trapezium_jac x y) <> 0).
Proof.
  refine (conj _ (conj _ _)).
  - intros x y _ _. split; cbn; [| apply D2_snd].
    eapply D2_val; [apply (D2_mult (fun u _ => u) (fun _ v => 3 + v)); [apply D2_fst | apply (D2_plus (fun _ _ => 3) (fun _ v => v)); [apply D2_const | apply D2_snd]] | ring | ring].
  - intros x y _ _. unfold velocity2, trapezium_map; cbn. refine (conj (conj _ _) (conj _ _)); auto_derive; trivial; ring.
  - intros x y _ Hy. rewrite det_expand2. unfold trapezium_jac, mat2, ref in *; cbn. lra.
Qed.
(** the flow (1, 0) along the lower side of length 4; the area *)
Example reduce_value_case :
  nth 0 (rd_m2n2k1_inner trapezium_map trapezium_jac (fun _ => (1, 0)) [-1; 1] [-1; 1] [-1; 0; 1] [1/3; 4/3; 1/3] [-1; 0; 1] [1/3; 4/3; 1/3]) 0 = 4 /\
  rd_m2n2k2 trapezium_map (fun x y => 3 + y) (fun _ => 1) [-1; 1] [-1; 1] [-1; 0; 1] [1/3; 4/3; 1/3] [-1; 0; 1] [1/3; 4/3; 1/3] = [12].
Proof. split; cbn; [field |]. unfold between, size, node; cbn. apply f_equal2; [field | reflexivity]. Qed.
(** fields that reconstruct a cochain exist since the mapping is injective *)
Example reduce_reconstructed_case c : length c = nd_m2n2k1 2 2 -> exists V, forall x y, ref x -> ref y ->
  rc_vector2 push_inner2 trapezium_jac [x] [y] (rc_m2n2k1_inner [-1; 0; 1] [-1; 0; 1] [x] [y] c) = Some [[fst (V (trapezium_map x y))]; [snd (V (trapezium_map x y))]].
Proof.
  intros L.
  exists (fun p => match rc_vector2 push_inner2 trapezium_jac [fst p / (3 + snd p)] [snd p] (rc_m2n2k1_inner [-1; 0; 1] [-1; 0; 1] [fst p / (3 + snd p)] [snd p] c) with Some [[a]; [b]] => (a, b) | _ => (0, 0) end).
  intros x y Hx Hy. unfold trapezium_map. cbn [fst snd]. replace (x * (3 + y) / (3 + y)) with x by (field; unfold ref in *; lra).
  destruct reduce_rule_case as (_ & N & _). destruct (inner_some trapezium_jac [-1; 0; 1] [-1; 0; 1] N N c x y L) as (a & b & ->). reflexivity.
Qed.

