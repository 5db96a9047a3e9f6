(** C64: mass matrices of elements.  Only statements and references to proofs; vocabulary in MassSpec.v, ReduceSpec.v,
    PolySpec.v; models in MassModel.v, ReduceModel.v, TensorModel.v, JacobianModel.v.
    [bilinear M a b] is a^T M b; [rule2 qx wx qy wy f] the sum of the tensor product rule; [rc_*] the fields reconstructed
    from cochains (components on the reference element), [rc_vector*], [rc_density*] their physical components. *)
From Coq Require Import String List Arith Reals Lra Lia.
From Coquelicot Require Import Coquelicot.
From Verif Require Import MappingModel MappingSpec JacobianSpec JacobianModel JacobianProofs PolyModel PolySpec NdArray LocalNumberingModel IncidenceModel TensorModel TensorSpec TensorThms ReduceModel ReduceSpec ReduceProofs ReduceForms ReduceRound3 ReduceTri MassModel MassSpec MassProofs MassThms MassPos MassExact MassWrong MassQuad.
Import List ListNotations.
Local Open Scope R_scope.
Local Notation mat := MappingModel.mat.


(** * a^T M b is the inner product of the reconstructed fields, computed with the rule *)

Theorem mass_inner_product_1d_k0 J sx qx wx a b M ua ub : nodes_ok sx -> length a = nd_m1n1k0 (degree sx) -> length b = nd_m1n1k0 (degree sx) ->
  mm_m1n1k0 J sx qx wx = Some M -> rc_m1n1k0 sx qx a = Some [ua] -> rc_m1n1k0 sx qx b = Some [ub] ->
  square M (nd_m1n1k0 (degree sx)) /\
  bilinear M a b = rule1 qx wx (fun x p => determinant 1 (J x) * (nth p ua 0 * nth p ub 0)).
Proof. exact (mass_1d_k0 J sx qx wx a b M ua ub). Qed.
Print Assumptions mass_inner_product_1d_k0.

Theorem mass_inner_product_1d_k1 J sx qx wx a b M ua ub : nodes_ok sx -> length a = nd_m1n1k1 (degree sx) -> length b = nd_m1n1k1 (degree sx) ->
  mm_m1n1k1 J sx qx wx = Some M -> rc_m1n1k1 sx qx a = Some [ua] -> rc_m1n1k1 sx qx b = Some [ub] ->
  (on_rule1 qx (fun x => determinant 1 (J x) <> 0)) ->
  square M (nd_m1n1k1 (degree sx)) /\
  bilinear M a b = rule1 qx wx (fun x p => determinant 1 (J x) * (nth p ua 0 / determinant 1 (J x) * (nth p ub 0 / determinant 1 (J x)))).
Proof. exact (mass_1d_k1 J sx qx wx a b M ua ub). Qed.
Print Assumptions mass_inner_product_1d_k1.

Theorem mass_inner_product_2d_k0 (J : R -> R -> mat) (sx sy qx wx qy wy : list R) a b M ua ub :
  nodes_ok sx -> nodes_ok sy -> length wx = length qx -> length wy = length qy ->
  length a = nd_m2n2k0 (degree sx) (degree sy) -> length b = nd_m2n2k0 (degree sx) (degree sy) ->
  mm_m2n2k0 J sx sy qx wx qy wy = Some M -> rc_m2n2k0 sx sy qx qy a = Some [ua] -> rc_m2n2k0 sx sy qx qy b = Some [ub] ->
  square M (nd_m2n2k0 (degree sx) (degree sy)) /\
  bilinear M a b = rule2 qx wx qy wy (fun x y p q => determinant 2 (J x y) * (at_2d ua (length qx) p q * at_2d ub (length qx) p q)).
Proof. intros ? ? ? ?. eapply mass_2d_k0; eassumption. Qed.
Print Assumptions mass_inner_product_2d_k0.


Theorem mass_inner_product_2d_inner (J : R -> R -> mat) (sx sy qx wx qy wy : list R) linear a b M ra sa rb sb ua va ub vb :
  nodes_ok sx -> nodes_ok sy -> length wx = length qx -> length wy = length qy ->
  length a = nd_m2n2k1 (degree sx) (degree sy) -> length b = nd_m2n2k1 (degree sx) (degree sy) ->
  linear = false \/ on_rule2 qx qy (fun x y => diagonal 2 (J x y)) ->
  mm_m2n2k1_inner J sx sy qx wx qy wy linear = Some M ->
  rc_m2n2k1_inner sx sy qx qy a = Some [ra; sa] -> rc_m2n2k1_inner sx sy qx qy b = Some [rb; sb] ->
  rc_vector2 push_inner2 J qx qy (Some [ra; sa]) = Some [ua; va] -> rc_vector2 push_inner2 J qx qy (Some [rb; sb]) = Some [ub; vb] ->
  square M (nd_m2n2k1 (degree sx) (degree sy)) /\
  bilinear M a b = rule2 qx wx qy wy (fun x y p q => determinant 2 (J x y) *
    (at_2d ua (length qx) p q * at_2d ub (length qx) p q + at_2d va (length qx) p q * at_2d vb (length qx) p q)).
Proof. intros ? ? ? ?. eapply mass_2d_inner; eassumption. Qed.
Print Assumptions mass_inner_product_2d_inner.


Theorem mass_inner_product_2d_outer (J : R -> R -> mat) (sx sy qx wx qy wy : list R) linear a b M ra sa rb sb ua va ub vb :
  nodes_ok sx -> nodes_ok sy -> length wx = length qx -> length wy = length qy ->
  length a = nd_m2n2k1 (degree sx) (degree sy) -> length b = nd_m2n2k1 (degree sx) (degree sy) ->
  linear = false \/ on_rule2 qx qy (fun x y => diagonal 2 (J x y)) ->
  mm_m2n2k1_outer J sx sy qx wx qy wy linear = Some M ->
  rc_m2n2k1_outer sx sy qx qy a = Some [ra; sa] -> rc_m2n2k1_outer sx sy qx qy b = Some [rb; sb] ->
  rc_vector2 push_outer2 J qx qy (Some [ra; sa]) = Some [ua; va] -> rc_vector2 push_outer2 J qx qy (Some [rb; sb]) = Some [ub; vb] ->
  square M (nd_m2n2k1 (degree sx) (degree sy)) /\
  bilinear M a b = rule2 qx wx qy wy (fun x y p q => determinant 2 (J x y) *
    (at_2d ua (length qx) p q * at_2d ub (length qx) p q + at_2d va (length qx) p q * at_2d vb (length qx) p q)).
Proof. intros ? ? ? ?. eapply mass_2d_outer; eassumption. Qed.
Print Assumptions mass_inner_product_2d_outer.


Theorem mass_inner_product_2d_k2 (J : R -> R -> mat) (sx sy qx wx qy wy : list R) a b M ra rb ua ub :
  nodes_ok sx -> nodes_ok sy -> length wx = length qx -> length wy = length qy ->
  length a = nd_m2n2k2 (degree sx) (degree sy) -> length b = nd_m2n2k2 (degree sx) (degree sy) ->
  on_rule2 qx qy (fun x y => determinant 2 (J x y) <> 0) ->
  mm_m2n2k2 J sx sy qx wx qy wy = Some M -> rc_m2n2k2 sx sy qx qy a = Some [ra] -> rc_m2n2k2 sx sy qx qy b = Some [rb] ->
  rc_density2 J qx qy (Some [ra]) = Some [ua] -> rc_density2 J qx qy (Some [rb]) = Some [ub] ->
  square M (nd_m2n2k2 (degree sx) (degree sy)) /\
  bilinear M a b = rule2 qx wx qy wy (fun x y p q => determinant 2 (J x y) * (at_2d ua (length qx) p q * at_2d ub (length qx) p q)).
Proof. intros ? ? ? ?. eapply mass_2d_k2; eassumption. Qed.
Print Assumptions mass_inner_product_2d_k2.


Theorem mass_inner_product_3d_k0 (J : R -> R -> R -> mat) (sx sy sz qx wx qy wy qz wz : list R) a b M ua ub :
  nodes_ok sx -> nodes_ok sy -> nodes_ok sz -> length wx = length qx -> length wy = length qy -> length wz = length qz ->
  length a = nd_m3n3k0 (degree sx) (degree sy) (degree sz) -> length b = nd_m3n3k0 (degree sx) (degree sy) (degree sz) ->
  mm_m3n3k0 J sx sy sz qx wx qy wy qz wz = Some M -> rc_m3n3k0 sx sy sz qx qy qz a = Some [ua] -> rc_m3n3k0 sx sy sz qx qy qz b = Some [ub] ->
  square M (nd_m3n3k0 (degree sx) (degree sy) (degree sz)) /\
  bilinear M a b = rule3 qx wx qy wy qz wz (fun x y z p q r => determinant 3 (J x y z) *
    (at_3d ua (length qx) (length qy) p q r * at_3d ub (length qx) (length qy) p q r)).
Proof. intros ? ? ? ? ? ?. eapply mass_3d_k0; eassumption. Qed.
Print Assumptions mass_inner_product_3d_k0.


Theorem mass_inner_product_3d_k1 (J : R -> R -> R -> mat) (sx sy sz qx wx qy wy qz wz : list R) linear a b M ra sa ta rb sb tb ua va wa ub vb wb :
  nodes_ok sx -> nodes_ok sy -> nodes_ok sz -> length wx = length qx -> length wy = length qy -> length wz = length qz ->
  length a = nd_m3n3k1 (degree sx) (degree sy) (degree sz) -> length b = nd_m3n3k1 (degree sx) (degree sy) (degree sz) ->
  linear = false \/ on_rule3 qx qy qz (fun x y z => diagonal 3 (J x y z)) ->
  mm_m3n3k1 J sx sy sz qx wx qy wy qz wz linear = Some M ->
  rc_m3n3k1 sx sy sz qx qy qz a = Some [ra; sa; ta] -> rc_m3n3k1 sx sy sz qx qy qz b = Some [rb; sb; tb] ->
  rc_vector3 push1_3 J qx qy qz (Some [ra; sa; ta]) = Some [ua; va; wa] -> rc_vector3 push1_3 J qx qy qz (Some [rb; sb; tb]) = Some [ub; vb; wb] ->
  square M (nd_m3n3k1 (degree sx) (degree sy) (degree sz)) /\
  bilinear M a b = rule3 qx wx qy wy qz wz (fun x y z p q r => determinant 3 (J x y z) *
    (at_3d ua (length qx) (length qy) p q r * at_3d ub (length qx) (length qy) p q r + at_3d va (length qx) (length qy) p q r * at_3d vb (length qx) (length qy) p q r + at_3d wa (length qx) (length qy) p q r * at_3d wb (length qx) (length qy) p q r)).
Proof. intros ? ? ? ? ? ?. eapply mass_3d_k1; eassumption. Qed.
Print Assumptions mass_inner_product_3d_k1.


Theorem mass_inner_product_3d_k2 (J : R -> R -> R -> mat) (sx sy sz qx wx qy wy qz wz : list R) linear a b M ra sa ta rb sb tb ua va wa ub vb wb :
  nodes_ok sx -> nodes_ok sy -> nodes_ok sz -> length wx = length qx -> length wy = length qy -> length wz = length qz ->
  length a = nd_m3n3k2 (degree sx) (degree sy) (degree sz) -> length b = nd_m3n3k2 (degree sx) (degree sy) (degree sz) ->
  linear = false \/ on_rule3 qx qy qz (fun x y z => diagonal 3 (J x y z)) ->
  mm_m3n3k2 J sx sy sz qx wx qy wy qz wz linear = Some M ->
  rc_m3n3k2 sx sy sz qx qy qz a = Some [ra; sa; ta] -> rc_m3n3k2 sx sy sz qx qy qz b = Some [rb; sb; tb] ->
  rc_vector3 push2_3 J qx qy qz (Some [ra; sa; ta]) = Some [ua; va; wa] -> rc_vector3 push2_3 J qx qy qz (Some [rb; sb; tb]) = Some [ub; vb; wb] ->
  square M (nd_m3n3k2 (degree sx) (degree sy) (degree sz)) /\
  bilinear M a b = rule3 qx wx qy wy qz wz (fun x y z p q r => determinant 3 (J x y z) *
    (at_3d ua (length qx) (length qy) p q r * at_3d ub (length qx) (length qy) p q r + at_3d va (length qx) (length qy) p q r * at_3d vb (length qx) (length qy) p q r + at_3d wa (length qx) (length qy) p q r * at_3d wb (length qx) (length qy) p q r)).
Proof. intros ? ? ? ? ? ?. eapply mass_3d_k2; eassumption. Qed.
Print Assumptions mass_inner_product_3d_k2.


Theorem mass_inner_product_3d_k3 (J : R -> R -> R -> mat) (sx sy sz qx wx qy wy qz wz : list R) a b M ra rb ua ub :
  nodes_ok sx -> nodes_ok sy -> nodes_ok sz -> length wx = length qx -> length wy = length qy -> length wz = length qz ->
  length a = nd_m3n3k3 (degree sx) (degree sy) (degree sz) -> length b = nd_m3n3k3 (degree sx) (degree sy) (degree sz) ->
  on_rule3 qx qy qz (fun x y z => determinant 3 (J x y z) <> 0) ->
  mm_m3n3k3 J sx sy sz qx wx qy wy qz wz = Some M -> rc_m3n3k3 sx sy sz qx qy qz a = Some [ra] -> rc_m3n3k3 sx sy sz qx qy qz b = Some [rb] ->
  rc_density3 J qx qy qz (Some [ra]) = Some [ua] -> rc_density3 J qx qy qz (Some [rb]) = Some [ub] ->
  square M (nd_m3n3k3 (degree sx) (degree sy) (degree sz)) /\
  bilinear M a b = rule3 qx wx qy wy qz wz (fun x y z p q r => determinant 3 (J x y z) *
    (at_3d ua (length qx) (length qy) p q r * at_3d ub (length qx) (length qy) p q r)).
Proof. intros ? ? ? ? ? ?. eapply mass_3d_k3; eassumption. Qed.
Print Assumptions mass_inner_product_3d_k3.


(** * symmetry *)

Theorem mass_symmetric_1d_k0 J sx qx wx M : mm_m1n1k0 J sx qx wx = Some M -> symmetric M.
Proof. exact (symmetric_1d_k0 J sx qx wx M). Qed.
Print Assumptions mass_symmetric_1d_k0.

Theorem mass_symmetric_1d_k1 J sx qx wx M : mm_m1n1k1 J sx qx wx = Some M -> symmetric M.
Proof. exact (symmetric_1d_k1 J sx qx wx M). Qed.
Print Assumptions mass_symmetric_1d_k1.

Theorem mass_symmetric_2d_k0 J sx sy qx wx qy wy M : mm_m2n2k0 J sx sy qx wx qy wy = Some M -> symmetric M.
Proof. exact (symmetric_2d_k0 J sx sy qx wx qy wy M). Qed.
Print Assumptions mass_symmetric_2d_k0.

Theorem mass_symmetric_2d_inner J sx sy qx wx qy wy linear M : mm_m2n2k1_inner J sx sy qx wx qy wy linear = Some M -> symmetric M.
Proof. exact (symmetric_2d_inner J sx sy qx wx qy wy linear M). Qed.
Print Assumptions mass_symmetric_2d_inner.

Theorem mass_symmetric_2d_outer J sx sy qx wx qy wy linear M : mm_m2n2k1_outer J sx sy qx wx qy wy linear = Some M -> symmetric M.
Proof. exact (symmetric_2d_outer J sx sy qx wx qy wy linear M). Qed.
Print Assumptions mass_symmetric_2d_outer.

Theorem mass_symmetric_2d_k2 J sx sy qx wx qy wy M : mm_m2n2k2 J sx sy qx wx qy wy = Some M -> symmetric M.
Proof. exact (symmetric_2d_k2 J sx sy qx wx qy wy M). Qed.
Print Assumptions mass_symmetric_2d_k2.

Theorem mass_symmetric_3d_k0 J sx sy sz qx wx qy wy qz wz M : mm_m3n3k0 J sx sy sz qx wx qy wy qz wz = Some M -> symmetric M.
Proof. exact (symmetric_3d_k0 J sx sy sz qx wx qy wy qz wz M). Qed.
Print Assumptions mass_symmetric_3d_k0.

Theorem mass_symmetric_3d_k1 J sx sy sz qx wx qy wy qz wz linear M : mm_m3n3k1 J sx sy sz qx wx qy wy qz wz linear = Some M -> symmetric M.
Proof. exact (symmetric_3d_k1 J sx sy sz qx wx qy wy qz wz linear M). Qed.
Print Assumptions mass_symmetric_3d_k1.

Theorem mass_symmetric_3d_k2 J sx sy sz qx wx qy wy qz wz linear M : mm_m3n3k2 J sx sy sz qx wx qy wy qz wz linear = Some M -> symmetric M.
Proof. exact (symmetric_3d_k2 J sx sy sz qx wx qy wy qz wz linear M). Qed.
Print Assumptions mass_symmetric_3d_k2.

Theorem mass_symmetric_3d_k3 J sx sy sz qx wx qy wy qz wz M : mm_m3n3k3 J sx sy sz qx wx qy wy qz wz = Some M -> symmetric M.
Proof. exact (symmetric_3d_k3 J sx sy sz qx wx qy wy qz wz M). Qed.
Print Assumptions mass_symmetric_3d_k3.

(** * positive definiteness: the element is not tangled at the points of the rule, weights are positive and there are at least as many points as nodes *)

Theorem mass_definite_1d_k0 J sx qx wx M a : nodes_ok sx -> good_rule sx qx wx -> on_rule1 qx (fun x => 0 < determinant 1 (J x)) ->
  mm_m1n1k0 J sx qx wx = Some M -> length a = nd_m1n1k0 (degree sx) -> nonzero (nd_m1n1k0 (degree sx)) a -> 0 < bilinear M a a.
Proof. exact (definite_1d_k0 J sx qx wx M a). Qed.
Print Assumptions mass_definite_1d_k0.

Theorem mass_definite_1d_k1 J sx qx wx M a : nodes_ok sx -> good_rule sx qx wx -> on_rule1 qx (fun x => 0 < determinant 1 (J x)) ->
  mm_m1n1k1 J sx qx wx = Some M -> length a = nd_m1n1k1 (degree sx) -> nonzero (nd_m1n1k1 (degree sx)) a -> 0 < bilinear M a a.
Proof. exact (definite_1d_k1 J sx qx wx M a). Qed.
Print Assumptions mass_definite_1d_k1.

Theorem mass_definite_2d_k0 J sx sy qx wx qy wy M a : nodes_ok sx -> nodes_ok sy -> good_rule sx qx wx -> good_rule sy qy wy ->
  on_rule2 qx qy (fun x y => 0 < determinant 2 (J x y)) ->
  mm_m2n2k0 J sx sy qx wx qy wy = Some M -> length a = nd_m2n2k0 (degree sx) (degree sy) -> nonzero (nd_m2n2k0 (degree sx) (degree sy)) a -> 0 < bilinear M a a.
Proof. exact (definite_2d_k0 J sx sy qx wx qy wy M a). Qed.
Print Assumptions mass_definite_2d_k0.

Theorem mass_definite_2d_inner J sx sy qx wx qy wy linear M a : nodes_ok sx -> nodes_ok sy -> good_rule sx qx wx -> good_rule sy qy wy ->
  on_rule2 qx qy (fun x y => 0 < determinant 2 (J x y)) ->
  linear = false \/ on_rule2 qx qy (fun x y => diagonal 2 (J x y)) ->
  mm_m2n2k1_inner J sx sy qx wx qy wy linear = Some M -> length a = nd_m2n2k1 (degree sx) (degree sy) -> nonzero (nd_m2n2k1 (degree sx) (degree sy)) a -> 0 < bilinear M a a.
Proof. exact (definite_2d_inner J sx sy qx wx qy wy linear M a). Qed.
Print Assumptions mass_definite_2d_inner.

Theorem mass_definite_2d_outer J sx sy qx wx qy wy linear M a : nodes_ok sx -> nodes_ok sy -> good_rule sx qx wx -> good_rule sy qy wy ->
  on_rule2 qx qy (fun x y => 0 < determinant 2 (J x y)) ->
  linear = false \/ on_rule2 qx qy (fun x y => diagonal 2 (J x y)) ->
  mm_m2n2k1_outer J sx sy qx wx qy wy linear = Some M -> length a = nd_m2n2k1 (degree sx) (degree sy) -> nonzero (nd_m2n2k1 (degree sx) (degree sy)) a -> 0 < bilinear M a a.
Proof. exact (definite_2d_outer J sx sy qx wx qy wy linear M a). Qed.
Print Assumptions mass_definite_2d_outer.

Theorem mass_definite_2d_k2 J sx sy qx wx qy wy M a : nodes_ok sx -> nodes_ok sy -> good_rule sx qx wx -> good_rule sy qy wy ->
  on_rule2 qx qy (fun x y => 0 < determinant 2 (J x y)) ->
  mm_m2n2k2 J sx sy qx wx qy wy = Some M -> length a = nd_m2n2k2 (degree sx) (degree sy) -> nonzero (nd_m2n2k2 (degree sx) (degree sy)) a -> 0 < bilinear M a a.
Proof. exact (definite_2d_k2 J sx sy qx wx qy wy M a). Qed.
Print Assumptions mass_definite_2d_k2.

Theorem mass_definite_3d_k0 J sx sy sz qx wx qy wy qz wz M a : nodes_ok sx -> nodes_ok sy -> nodes_ok sz -> good_rule sx qx wx -> good_rule sy qy wy -> good_rule sz qz wz ->
  on_rule3 qx qy qz (fun x y z => 0 < determinant 3 (J x y z)) ->
  mm_m3n3k0 J sx sy sz qx wx qy wy qz wz = Some M -> length a = nd_m3n3k0 (degree sx) (degree sy) (degree sz) -> nonzero (nd_m3n3k0 (degree sx) (degree sy) (degree sz)) a -> 0 < bilinear M a a.
Proof. exact (definite_3d_k0 J sx sy sz qx wx qy wy qz wz M a). Qed.
Print Assumptions mass_definite_3d_k0.

Theorem mass_definite_3d_k1 J sx sy sz qx wx qy wy qz wz linear M a : nodes_ok sx -> nodes_ok sy -> nodes_ok sz -> good_rule sx qx wx -> good_rule sy qy wy -> good_rule sz qz wz ->
  on_rule3 qx qy qz (fun x y z => 0 < determinant 3 (J x y z)) ->
  linear = false \/ on_rule3 qx qy qz (fun x y z => diagonal 3 (J x y z)) ->
  mm_m3n3k1 J sx sy sz qx wx qy wy qz wz linear = Some M -> length a = nd_m3n3k1 (degree sx) (degree sy) (degree sz) -> nonzero (nd_m3n3k1 (degree sx) (degree sy) (degree sz)) a -> 0 < bilinear M a a.
Proof. exact (definite_3d_k1 J sx sy sz qx wx qy wy qz wz linear M a). Qed.
Print Assumptions mass_definite_3d_k1.

Theorem mass_definite_3d_k2 J sx sy sz qx wx qy wy qz wz linear M a : nodes_ok sx -> nodes_ok sy -> nodes_ok sz -> good_rule sx qx wx -> good_rule sy qy wy -> good_rule sz qz wz ->
  on_rule3 qx qy qz (fun x y z => 0 < determinant 3 (J x y z)) ->
  linear = false \/ on_rule3 qx qy qz (fun x y z => diagonal 3 (J x y z)) ->
  mm_m3n3k2 J sx sy sz qx wx qy wy qz wz linear = Some M -> length a = nd_m3n3k2 (degree sx) (degree sy) (degree sz) -> nonzero (nd_m3n3k2 (degree sx) (degree sy) (degree sz)) a -> 0 < bilinear M a a.
Proof. exact (definite_3d_k2 J sx sy sz qx wx qy wy qz wz linear M a). Qed.
Print Assumptions mass_definite_3d_k2.

Theorem mass_definite_3d_k3 J sx sy sz qx wx qy wy qz wz M a : nodes_ok sx -> nodes_ok sy -> nodes_ok sz -> good_rule sx qx wx -> good_rule sy qy wy -> good_rule sz qz wz ->
  on_rule3 qx qy qz (fun x y z => 0 < determinant 3 (J x y z)) ->
  mm_m3n3k3 J sx sy sz qx wx qy wy qz wz = Some M -> length a = nd_m3n3k3 (degree sx) (degree sy) (degree sz) -> nonzero (nd_m3n3k3 (degree sx) (degree sy) (degree sz)) a -> 0 < bilinear M a a.
Proof. exact (definite_3d_k3 J sx sy sz qx wx qy wy qz wz M a). Qed.
Print Assumptions mass_definite_3d_k3.

(** * constant Jacobian matrix, rules exact for twice the number of nodes: a^T M b is the integral *)

Theorem mass_exact_1d_k0 J0 sx qx wx M a b A B : nodes_ok sx -> length wx = length qx -> exact_rule (2 * length sx) qx wx ->
  mm_m1n1k0 (fun _ => J0) sx qx wx = Some M -> length a = nd_m1n1k0 (degree sx) -> length b = nd_m1n1k0 (degree sx) ->
  (forall x, rc_m1n1k0 sx [x] a = Some [[A x]]) -> (forall x, rc_m1n1k0 sx [x] b = Some [[B x]]) ->
  is_RInt (fun x => determinant 1 J0 * (A x * (B x))) (-1) 1 (bilinear M a b).
Proof. exact (exact_1d_k0 J0 sx qx wx M a b A B). Qed.
Print Assumptions mass_exact_1d_k0.

Theorem mass_exact_1d_k1 J0 sx qx wx M a b A B : nodes_ok sx -> length wx = length qx -> exact_rule (2 * length sx) qx wx ->
  determinant 1 J0 <> 0 ->
  mm_m1n1k1 (fun _ => J0) sx qx wx = Some M -> length a = nd_m1n1k1 (degree sx) -> length b = nd_m1n1k1 (degree sx) ->
  (forall x, rc_m1n1k1 sx [x] a = Some [[A x]]) -> (forall x, rc_m1n1k1 sx [x] b = Some [[B x]]) ->
  is_RInt (fun x => determinant 1 J0 * (A x / determinant 1 J0 * (B x / determinant 1 J0))) (-1) 1 (bilinear M a b).
Proof. exact (exact_1d_k1 J0 sx qx wx M a b A B). Qed.
Print Assumptions mass_exact_1d_k1.

Theorem mass_exact_2d_k0 J0 sx sy qx wx qy wy M a b A B : nodes_ok sx -> nodes_ok sy ->
  length wx = length qx -> length wy = length qy -> exact_rule (2 * length sx) qx wx -> exact_rule (2 * length sy) qy wy ->
  mm_m2n2k0 (fun _ _ => J0) sx sy qx wx qy wy = Some M -> length a = nd_m2n2k0 (degree sx) (degree sy) -> length b = nd_m2n2k0 (degree sx) (degree sy) ->
  (forall x y, rc_m2n2k0 sx sy [x] [y] a = Some [[A x y]]) ->
  (forall x y, rc_m2n2k0 sx sy [x] [y] b = Some [[B x y]]) ->
  integral2 (fun x y => determinant 2 J0 * (A x y * (B x y))) (-1) 1 (-1) 1 (bilinear M a b).
Proof. exact (exact_2d_k0 J0 sx sy qx wx qy wy M a b A B). Qed.
Print Assumptions mass_exact_2d_k0.

Theorem mass_exact_2d_inner J0 sx sy qx wx qy wy linear M a b A B : nodes_ok sx -> nodes_ok sy ->
  length wx = length qx -> length wy = length qy -> exact_rule (2 * length sx) qx wx -> exact_rule (2 * length sy) qy wy ->
  linear = false \/ diagonal 2 J0 ->
  mm_m2n2k1_inner (fun _ _ => J0) sx sy qx wx qy wy linear = Some M -> length a = nd_m2n2k1 (degree sx) (degree sy) -> length b = nd_m2n2k1 (degree sx) (degree sy) ->
  (forall x y, rc_vector2 push_inner2 (fun _ _ => J0) [x] [y] (rc_m2n2k1_inner sx sy [x] [y] a) = Some [[fst (A x y)]; [snd (A x y)]]) ->
  (forall x y, rc_vector2 push_inner2 (fun _ _ => J0) [x] [y] (rc_m2n2k1_inner sx sy [x] [y] b) = Some [[fst (B x y)]; [snd (B x y)]]) ->
  integral2 (fun x y => determinant 2 J0 * (fst (A x y) * fst (B x y) + snd (A x y) * snd (B x y))) (-1) 1 (-1) 1 (bilinear M a b).
Proof. exact (exact_2d_inner J0 sx sy qx wx qy wy linear M a b A B). Qed.
Print Assumptions mass_exact_2d_inner.

Theorem mass_exact_2d_outer J0 sx sy qx wx qy wy linear M a b A B : nodes_ok sx -> nodes_ok sy ->
  length wx = length qx -> length wy = length qy -> exact_rule (2 * length sx) qx wx -> exact_rule (2 * length sy) qy wy ->
  linear = false \/ diagonal 2 J0 ->
  mm_m2n2k1_outer (fun _ _ => J0) sx sy qx wx qy wy linear = Some M -> length a = nd_m2n2k1 (degree sx) (degree sy) -> length b = nd_m2n2k1 (degree sx) (degree sy) ->
  (forall x y, rc_vector2 push_outer2 (fun _ _ => J0) [x] [y] (rc_m2n2k1_outer sx sy [x] [y] a) = Some [[fst (A x y)]; [snd (A x y)]]) ->
  (forall x y, rc_vector2 push_outer2 (fun _ _ => J0) [x] [y] (rc_m2n2k1_outer sx sy [x] [y] b) = Some [[fst (B x y)]; [snd (B x y)]]) ->
  integral2 (fun x y => determinant 2 J0 * (fst (A x y) * fst (B x y) + snd (A x y) * snd (B x y))) (-1) 1 (-1) 1 (bilinear M a b).
Proof. exact (exact_2d_outer J0 sx sy qx wx qy wy linear M a b A B). Qed.
Print Assumptions mass_exact_2d_outer.

Theorem mass_exact_2d_k2 J0 sx sy qx wx qy wy M a b A B : nodes_ok sx -> nodes_ok sy ->
  length wx = length qx -> length wy = length qy -> exact_rule (2 * length sx) qx wx -> exact_rule (2 * length sy) qy wy ->
  determinant 2 J0 <> 0 ->
  mm_m2n2k2 (fun _ _ => J0) sx sy qx wx qy wy = Some M -> length a = nd_m2n2k2 (degree sx) (degree sy) -> length b = nd_m2n2k2 (degree sx) (degree sy) ->
  (forall x y, rc_density2 (fun _ _ => J0) [x] [y] (rc_m2n2k2 sx sy [x] [y] a) = Some [[A x y]]) ->
  (forall x y, rc_density2 (fun _ _ => J0) [x] [y] (rc_m2n2k2 sx sy [x] [y] b) = Some [[B x y]]) ->
  integral2 (fun x y => determinant 2 J0 * (A x y * (B x y))) (-1) 1 (-1) 1 (bilinear M a b).
Proof. exact (exact_2d_k2 J0 sx sy qx wx qy wy M a b A B). Qed.
Print Assumptions mass_exact_2d_k2.

Theorem mass_exact_3d_k0 J0 sx sy sz qx wx qy wy qz wz M a b A B : nodes_ok sx -> nodes_ok sy -> nodes_ok sz ->
  length wx = length qx -> length wy = length qy -> length wz = length qz -> exact_rule (2 * length sx) qx wx -> exact_rule (2 * length sy) qy wy -> exact_rule (2 * length sz) qz wz ->
  mm_m3n3k0 (fun _ _ _ => J0) sx sy sz qx wx qy wy qz wz = Some M -> length a = nd_m3n3k0 (degree sx) (degree sy) (degree sz) -> length b = nd_m3n3k0 (degree sx) (degree sy) (degree sz) ->
  (forall x y z, rc_m3n3k0 sx sy sz [x] [y] [z] a = Some [[A x y z]]) ->
  (forall x y z, rc_m3n3k0 sx sy sz [x] [y] [z] b = Some [[B x y z]]) ->
  integral3 (fun x y z => determinant 3 J0 * (A x y z * (B x y z))) (-1) 1 (-1) 1 (-1) 1 (bilinear M a b).
Proof. exact (exact_3d_k0 J0 sx sy sz qx wx qy wy qz wz M a b A B). Qed.
Print Assumptions mass_exact_3d_k0.

Theorem mass_exact_3d_k1 J0 sx sy sz qx wx qy wy qz wz linear M a b A B : nodes_ok sx -> nodes_ok sy -> nodes_ok sz ->
  length wx = length qx -> length wy = length qy -> length wz = length qz -> exact_rule (2 * length sx) qx wx -> exact_rule (2 * length sy) qy wy -> exact_rule (2 * length sz) qz wz ->
  linear = false \/ diagonal 3 J0 ->
  mm_m3n3k1 (fun _ _ _ => J0) sx sy sz qx wx qy wy qz wz linear = Some M -> length a = nd_m3n3k1 (degree sx) (degree sy) (degree sz) -> length b = nd_m3n3k1 (degree sx) (degree sy) (degree sz) ->
  (forall x y z, rc_vector3 push1_3 (fun _ _ _ => J0) [x] [y] [z] (rc_m3n3k1 sx sy sz [x] [y] [z] a) = Some [[fst (fst (A x y z))]; [snd (fst (A x y z))]; [snd (A x y z)]]) ->
  (forall x y z, rc_vector3 push1_3 (fun _ _ _ => J0) [x] [y] [z] (rc_m3n3k1 sx sy sz [x] [y] [z] b) = Some [[fst (fst (B x y z))]; [snd (fst (B x y z))]; [snd (B x y z)]]) ->
  integral3 (fun x y z => determinant 3 J0 * (fst (fst (A x y z)) * fst (fst (B x y z)) + snd (fst (A x y z)) * snd (fst (B x y z)) + snd (A x y z) * snd (B x y z))) (-1) 1 (-1) 1 (-1) 1 (bilinear M a b).
Proof. exact (exact_3d_k1 J0 sx sy sz qx wx qy wy qz wz linear M a b A B). Qed.
Print Assumptions mass_exact_3d_k1.

Theorem mass_exact_3d_k2 J0 sx sy sz qx wx qy wy qz wz linear M a b A B : nodes_ok sx -> nodes_ok sy -> nodes_ok sz ->
  length wx = length qx -> length wy = length qy -> length wz = length qz -> exact_rule (2 * length sx) qx wx -> exact_rule (2 * length sy) qy wy -> exact_rule (2 * length sz) qz wz ->
  linear = false \/ diagonal 3 J0 ->
  mm_m3n3k2 (fun _ _ _ => J0) sx sy sz qx wx qy wy qz wz linear = Some M -> length a = nd_m3n3k2 (degree sx) (degree sy) (degree sz) -> length b = nd_m3n3k2 (degree sx) (degree sy) (degree sz) ->
  (forall x y z, rc_vector3 push2_3 (fun _ _ _ => J0) [x] [y] [z] (rc_m3n3k2 sx sy sz [x] [y] [z] a) = Some [[fst (fst (A x y z))]; [snd (fst (A x y z))]; [snd (A x y z)]]) ->
  (forall x y z, rc_vector3 push2_3 (fun _ _ _ => J0) [x] [y] [z] (rc_m3n3k2 sx sy sz [x] [y] [z] b) = Some [[fst (fst (B x y z))]; [snd (fst (B x y z))]; [snd (B x y z)]]) ->
  integral3 (fun x y z => determinant 3 J0 * (fst (fst (A x y z)) * fst (fst (B x y z)) + snd (fst (A x y z)) * snd (fst (B x y z)) + snd (A x y z) * snd (B x y z))) (-1) 1 (-1) 1 (-1) 1 (bilinear M a b).
Proof. exact (exact_3d_k2 J0 sx sy sz qx wx qy wy qz wz linear M a b A B). Qed.
Print Assumptions mass_exact_3d_k2.

Theorem mass_exact_3d_k3 J0 sx sy sz qx wx qy wy qz wz M a b A B : nodes_ok sx -> nodes_ok sy -> nodes_ok sz ->
  length wx = length qx -> length wy = length qy -> length wz = length qz -> exact_rule (2 * length sx) qx wx -> exact_rule (2 * length sy) qy wy -> exact_rule (2 * length sz) qz wz ->
  determinant 3 J0 <> 0 ->
  mm_m3n3k3 (fun _ _ _ => J0) sx sy sz qx wx qy wy qz wz = Some M -> length a = nd_m3n3k3 (degree sx) (degree sy) (degree sz) -> length b = nd_m3n3k3 (degree sx) (degree sy) (degree sz) ->
  (forall x y z, rc_density3 (fun _ _ _ => J0) [x] [y] [z] (rc_m3n3k3 sx sy sz [x] [y] [z] a) = Some [[A x y z]]) ->
  (forall x y z, rc_density3 (fun _ _ _ => J0) [x] [y] [z] (rc_m3n3k3 sx sy sz [x] [y] [z] b) = Some [[B x y z]]) ->
  integral3 (fun x y z => determinant 3 J0 * (A x y z * (B x y z))) (-1) 1 (-1) 1 (-1) 1 (bilinear M a b).
Proof. exact (exact_3d_k3 J0 sx sy sz qx wx qy wy qz wz M a b A B). Qed.
Print Assumptions mass_exact_3d_k3.

(** * what is wrong *)

(** unique msepy curvilinear hexahedron: the blocks between different components are left out *)
Theorem hexahedron_mass_k1_refuted : exists J sx qx wx M a b u1 v1 w1 u2 v2 w2 p1 q1 r1 p2 q2 r2,
  nodes_ok sx /\ length wx = length qx /\ exact_rule (2 * length sx) qx wx /\ (forall x y z, 0 < determinant 3 (J x y z)) /\
  mm331_unique_hexahedron J sx sx sx qx wx qx wx qx wx = Some M /\
  rc_m3n3k1 sx sx sx qx qx qx a = Some [u1; v1; w1] /\ rc_m3n3k1 sx sx sx qx qx qx b = Some [u2; v2; w2] /\
  rc_vector3 push1_3 J qx qx qx (Some [u1; v1; w1]) = Some [p1; q1; r1] /\ rc_vector3 push1_3 J qx qx qx (Some [u2; v2; w2]) = Some [p2; q2; r2] /\
  bilinear M a b <> rule3 qx wx qx wx qx wx (fun x y z p q r => determinant 3 (J x y z) *
    (at_3d p1 (length qx) (length qx) p q r * at_3d p2 (length qx) (length qx) p q r + at_3d q1 (length qx) (length qx) p q r * at_3d q2 (length qx) (length qx) p q r + at_3d r1 (length qx) (length qx) p q r * at_3d r2 (length qx) (length qx) p q r)).
Proof. exact (hexahedron_k1_wrong). Qed.
Print Assumptions hexahedron_mass_k1_refuted.

Theorem hexahedron_mass_k2_refuted : exists J sx qx wx M a b u1 v1 w1 u2 v2 w2 p1 q1 r1 p2 q2 r2,
  nodes_ok sx /\ length wx = length qx /\ exact_rule (2 * length sx) qx wx /\ (forall x y z, 0 < determinant 3 (J x y z)) /\
  mm332_unique_hexahedron J sx sx sx qx wx qx wx qx wx = Some M /\
  rc_m3n3k2 sx sx sx qx qx qx a = Some [u1; v1; w1] /\ rc_m3n3k2 sx sx sx qx qx qx b = Some [u2; v2; w2] /\
  rc_vector3 push2_3 J qx qx qx (Some [u1; v1; w1]) = Some [p1; q1; r1] /\ rc_vector3 push2_3 J qx qx qx (Some [u2; v2; w2]) = Some [p2; q2; r2] /\
  bilinear M a b <> rule3 qx wx qx wx qx wx (fun x y z p q r => determinant 3 (J x y z) *
    (at_3d p1 (length qx) (length qx) p q r * at_3d p2 (length qx) (length qx) p q r + at_3d q1 (length qx) (length qx) p q r * at_3d q2 (length qx) (length qx) p q r + at_3d r1 (length qx) (length qx) p q r * at_3d r2 (length qx) (length qx) p q r)).
Proof. exact (hexahedron_k2_wrong). Qed.
Print Assumptions hexahedron_mass_k2_refuted.

(** a rule that is exact for [2 p] coefficients is not enough *)
Theorem lobatto_mass_refuted : exists J sx wx M a A l, nodes_ok sx /\ exact_rule (2 * length sx - 2) sx wx /\ determinant 1 J = 1 /\
  mm_m1n1k0 (fun _ => J) sx sx wx = Some M /\ length a = nd_m1n1k0 (degree sx) /\
  (forall x, rc_m1n1k0 sx [x] a = Some [[A x]]) /\ is_RInt (fun x => determinant 1 J * (A x * A x)) (-1) 1 l /\ bilinear M a a <> l.
Proof. exact (lobatto_k0_wrong). Qed.
Print Assumptions lobatto_mass_refuted.

(** the chosen degree [q] stands for [q + 1] Gauss nodes, right for [2 (q + 1)] coefficients.  On curved elements products of two
    polynomials of degree [d] times Jacobian factors of degree up to 5 are integrated exactly; on linear ones up to 3 with
    [high_accuracy]; without, the nodes are those of the space *)
Theorem curved_mass_quadrature hi ps nt : snd (quad_choice false hi ps nt) = "Gauss"%string /\
  Forall2 (fun d q => forall qx wx f, length wx = length qx -> exact_rule (2 * (q + 1)) qx wx -> poly_of_size (2 * d + 6) f ->
    is_RInt f (-1) 1 (rule1 qx wx (fun x _ => f x))) ps (fst (quad_choice false hi ps nt)).
Proof. exact (curved_quadrature hi ps nt). Qed.
Print Assumptions curved_mass_quadrature.
Theorem linear_mass_quadrature ps nt : snd (quad_choice true true ps nt) = "Gauss"%string /\
  Forall2 (fun d q => forall qx wx f, length wx = length qx -> exact_rule (2 * (q + 1)) qx wx -> poly_of_size (2 * d + 4) f ->
    is_RInt f (-1) 1 (rule1 qx wx (fun x _ => f x))) ps (fst (quad_choice true true ps nt)).
Proof. exact (linear_quadrature ps nt). Qed.
Print Assumptions linear_mass_quadrature.
Theorem collocated_mass_quadrature ps nt : quad_choice true false ps nt = (ps, nt).
Proof. exact (collocated_quadrature ps nt). Qed.
Print Assumptions collocated_mass_quadrature.

(** high_accuracy is ignored for cached matrices *)
Theorem cached_mass_refuted : exists (build : string -> list nat * string -> string) degree p ntype,
  let cache := snd (mm_call build true [] false degree p ntype) in
  fst (mm_call build true cache true degree p ntype) <> build degree (quad_choice true true p ntype).
Proof. exact (cached_mass_wrong). Qed.
Print Assumptions cached_mass_refuted.

(** * Examples *)
(** Simpson's rule and two nodes meet the hypotheses on rules *)
Example mass_rule_case : nodes_ok [-1; 1] /\ good_rule [-1; 1] [-1; 0; 1] [1/3; 4/3; 1/3] /\ exact_rule (2 * length [-1; 1]) [-1; 0; 1] [1/3; 4/3; 1/3].
Proof.
  refine (conj nodes_two (conj (conj _ (conj eq_refl (conj _ _))) simpson)).
  - intros i j H. cbn in H. destruct i as [|[|[|]]], j as [|[|[|]]]; cbn; try lia; lra.
  - cbn; lia.
  - intros p H. cbn in H. destruct p as [|[|[|]]]; cbn; try lia; lra.
Qed.
(** a sheared square; both components of a constant field *)
Example mass_value_case : exists M, mm_m2n2k1_inner (fun _ _ => mat2 1 1 0 1) [-1; 1] [-1; 1] [-1; 0; 1] [1/3; 4/3; 1/3] [-1; 0; 1] [1/3; 4/3; 1/3] false = Some M /\
  square M 4 /\ determinant 2 (mat2 1 1 0 1) = 1 /\ ~ diagonal 2 (mat2 1 1 0 1).
Proof.
  eexists. split; [reflexivity |]. split; [split; reflexivity |]. split.
  - rewrite det_expand2. unfold mat2; cbn. ring.
  - intros H. specialize (H 0%nat 1%nat (le_S _ _ (le_n _)) (le_n _) (O_S 0)). unfold mat2 in H; cbn in H. lra.
Qed.
(** the mass matrix of two linear functions on [-1, 1] with Simpson's rule *)
Example mass_entries_case : exists M, mm_m1n1k0 (fun _ _ _ => 1) [-1; 1] [-1; 0; 1] [1/3; 4/3; 1/3] = Some M /\
  fm_at M 0 0 = 2/3 /\ fm_at M 0 1 = 1/3 /\ fm_at M 1 1 = 2/3.
Proof. eexists. split; [reflexivity |]. cbn. refine (conj _ (conj _ _)); field. Qed.

