(** Proofs about faces that are not found and about the choice of the element. *)
From Coq Require Import List Arith ZArith Reals Lia Lra.
From Coquelicot Require Import Coquelicot.
From Verif Require Import PolyModel PolySpec MappingModel ReduceModel ReduceSpec ReduceForms ReversalModel ReversalSpec ReversalGeom ReversalThms ReversalRaw.
Import List ListNotations.
Local Open Scope R_scope.
Local Opaque raw isclose.

Lemma three (l : list R) : length l = 3%nat -> exists a b c, l = [a; b; c].
Proof. destruct l as [|a [|b [|c [|]]]]; try discriminate. eauto. Qed.
Lemma triangle_straight k e l g a b c : l = [a; b; c] -> straight (e_type (triangle_at k e l g)) (map (corners_of k) (e_map (triangle_at k e l g)))
  (tri5 (map (corners_of k) l)) (tri5_J (map (corners_of k) l)).
Proof. intros ->. apply St. Qed.
Lemma triangles_straight k : straight_mesh k (pair_of_triangles k) (corners_of k) periodic_field two_points two_weights.
Proof. intros x Hx. destruct k; (destruct Hx as [<-|[<-|[]]]; do 2 eexists; (split; [apply St|reflexivity])). Qed.
Lemma raw_length k P F q w : symmetric_rule q w -> in_reference q -> length (raw k Triangle5 (tri5 P) (tri5_J P) F q w) = 3%nat.
Proof.
  intros Q I. assert (S : smooth2 (tri5 P) (tri5_J P)) by (intros x y _ _; apply MappingProofs.tri5_jac).
  destruct k; [exact (proj1 (tri_inner _ _ F q w S Q I))|exact (proj1 (tri_outer _ _ F q w S Q I))].
Qed.
(** on the shared edge the periodic test field gives 0 on both sides *)
Lemma shared_zero k x : In x (pair_of_triangles k) -> nth_error (e_cochain x) (match k with Inner => 0 | Outer => 1 end)%nat = Some 0.
Proof.
  intros Hx. destruct two_rule as (Q & I & T).
  assert (V : forall a b, (a = 0 /\ b = 1 \/ a = 1 /\ b = 0)%nat -> edge_value k (corners_of k) periodic_field two_points two_weights a b = 0).
  { intros a b H. unfold periodic_field. rewrite constant_value by exact T. destruct k, H as [[-> ->]|[-> ->]]; cbn; field. }
  pose proof (straight_measured k _ _ _ _ _ (triangles_straight k) Q I) as M. 
  assert (H : exists a b, nth_error (e_cochain x) (match k with Inner => 0 | Outer => 1 end)%nat = Some (edge_value k (corners_of k) periodic_field two_points two_weights a b) /\ (a = 0 /\ b = 1 \/ a = 1 /\ b = 0)%nat).
  { assert (Hx' := Hx). destruct k; destruct Hx as [<-|[<-|[]]];
      destruct (M _ 0%nat _ _ _ Hx' eq_refl eq_refl) as (a & b & A & B & C);
      cbn in A, B; injection A as <-; injection B as <-; do 2 eexists; (split; [exact C|auto]). }
  destruct H as (a & b & -> & H). now rewrite V.
Qed.
Lemma two_triangles_inner r1 r2 : length r1 = 3%nat -> length r2 = 3%nat -> nth_error r1 0 = Some 0 -> nth_error r2 0 = Some 0 ->
  mismatch Inner [Build_element 0 Triangle5 [0; 1; 2] r1 [0; 1; 2]; Build_element 1 Triangle5 [1; 0; 3] r2 [0; 3; 4]]%nat = Some [].
Proof.
  intros L1 L2 Z1 Z2. destruct (three r1 L1) as (a & b & c & ->), (three r2 L2) as (a' & b' & c' & ->). cbn in Z1, Z2. injection Z1 as ->. injection Z2 as ->.
  cbn. rewrite isclose_refl. reflexivity.
Qed.
Lemma two_triangles_outer r1 r2 : length r1 = 3%nat -> length r2 = 3%nat -> nth_error r1 1 = Some 0 -> nth_error r2 1 = Some 0 ->
  mismatch Outer [Build_element 0 Triangle5 [0; 1; 2] r1 [0; 1; 2]; Build_element 1 Triangle5 [1; 0; 3] r2 [3; 1; 4]]%nat = Some [].
Proof.
  intros L1 L2 Z1 Z2. destruct (three r1 L1) as (a & b & c & ->), (three r2 L2) as (a' & b' & c' & ->). cbn in Z1, Z2. injection Z1 as ->. injection Z2 as ->.
  cbn. rewrite isclose_refl. reflexivity.
Qed.
Theorem zero_not_seen k : mismatch k (pair_of_triangles k) = Some [] /\
  runs k (pair_of_triangles k) 0 0 Triangle5 (match k with Inner => 0 | Outer => 1 end) (match k with Inner => 1 | Outer => 0 end) /\
  runs k (pair_of_triangles k) 1 0 Triangle5 (match k with Inner => 1 | Outer => 0 end) (match k with Inner => 0 | Outer => 1 end).
Proof.
  destruct two_rule as (Q & I & T).
  split.
  - pose proof (shared_zero k) as Z. destruct k; [apply two_triangles_inner|apply two_triangles_outer];
      first [exact (raw_length _ _ _ _ _ Q I)|exact (Z _ (or_introl eq_refl))|exact (Z _ (or_intror (or_introl eq_refl)))].
  - split; destruct k.
    + eexists; do 2 eexists; (split; [left; reflexivity|]); (split; [reflexivity|]); (split; [reflexivity|]); (split; [reflexivity|]); split; reflexivity.
    + eexists; do 2 eexists; (split; [left; reflexivity|]); (split; [reflexivity|]); (split; [reflexivity|]); (split; [reflexivity|]); split; reflexivity.
    + eexists; do 2 eexists; (split; [right; left; reflexivity|]); (split; [reflexivity|]); (split; [reflexivity|]); (split; [reflexivity|]); split; reflexivity.
    + eexists; do 2 eexists; (split; [right; left; reflexivity|]); (split; [reflexivity|]); (split; [reflexivity|]); (split; [reflexivity|]); split; reflexivity.
Qed.

(** * the choice between elements of one type *)
Theorem order_matters : mismatch Inner [quad_one; quad_two] = Some [(0, 2)]%nat /\ mismatch Inner [quad_two; quad_one] = Some [(1, 2)]%nat.
Proof.
  assert (C1 : isclose 1 (-1) = false). { replace (-1) with (- (1)) by ring. apply isclose_opp. unfold clear. rewrite Rabs_R1. lra. }
  assert (C2 : isclose (-1) 1 = false). { replace 1 with (- (-1)) by ring. apply isclose_opp. unfold clear. rewrite Rabs_left by lra. lra. }
  assert (C3 : isclose 1 (- -1) = true). { replace (- -1) with 1 by ring. apply isclose_refl. }
  assert (C4 : isclose (-1) (- (1)) = true). { replace (- (1)) with (-1) by ring. apply isclose_refl. }
  split; unfold mismatch, quad_one, quad_two, quad_with; cbn; [rewrite C1, C3|rewrite C2, C4]; reflexivity.
Qed.
(** a type that comes later in the list is always the one reversed *)
Theorem later_type_reversed k m l w e1 f1 t1 a1 b1 e2 f2 t2 a2 b2 : distinct_ids m -> directed w -> measured k m w -> mismatch k m = Some l ->
  runs k m e1 f1 t1 a1 b1 -> runs k m e2 f2 t2 a2 b2 -> same_ends a1 b1 a2 b2 -> (priority t2 < priority t1)%Z ->
  ~ In (e2, f2) l /\ (In (e1, f1) l <-> a1 = b2 /\ b1 = a2 /\ clear (w a1 b1)).
Proof.
  intros HD DW MW H R1 R2 S P. assert (N : (e1, f1) <> (e2, f2)).
  { intros E. injection E as -> ->. destruct (runs_unique _ _ _ _ _ _ _ _ _ _ HD R1 R2) as (-> & _). lia. }
  destruct (mismatch_pair k m l w _ _ _ _ _ _ _ _ _ _ HD DW MW H R1 R2 N S) as (A & B & C & D).
  assert (N2 : ~ In (e2, f2) l) by (intros I; apply D in I; lia). split; [exact N2|]. tauto.
Qed.
(** triangles with curved sides are in the list, but their dofs cannot be reversed *)
Theorem curved_triangle_fails k px py f r c : reverse_cochain k CurvedTriangle px py (f :: r) c = None /\ (forall b, reverse_basis k CurvedTriangle px py (f :: r) b c = None).
Proof. destruct k; split; reflexivity. Qed.
(** in a mesh of straight elements, whatever field is reduced afterwards *)
Theorem straight_dofs_agree k m X F q w l e1 f1 t1 a1 b1 e2 f2 t2 a2 b2 G q' w' s1 s2 : distinct_ids m -> straight_mesh k m X F q w -> symmetric_rule q w -> in_reference q -> mismatch k m = Some l ->
  runs k m e1 f1 t1 a1 b1 -> runs k m e2 f2 t2 a2 b2 -> same_ends a1 b1 a2 b2 -> clear (edge_value k X F q w a1 b1) -> symmetric_rule q' w' ->
  (In (e1, f1) l /\ s1 = -1 \/ ~ In (e1, f1) l /\ s1 = 1) -> (In (e2, f2) l /\ s2 = -1 \/ ~ In (e2, f2) l /\ s2 = 1) ->
  s1 * edge_value k X G q' w' a1 b1 = s2 * edge_value k X G q' w' a2 b2.
Proof.
  intros HD SM Q I H R1 R2 S C Q' S1 S2.
  exact (values_agree k m l (edge_value k X F q w) (edge_value k X G q' w') e1 f1 t1 a1 b1 e2 f2 t2 a2 b2 HD (edges_directed k X F q w Q) (straight_measured k m X F q w SM Q I) H R1 R2 S C (edges_directed k X G q' w' Q') s1 s2 S1 S2).
Qed.
