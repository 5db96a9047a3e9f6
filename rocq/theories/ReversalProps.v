(** C67: dofs of faces whose directions are opposite in the two elements.  Only statements and references to proofs;
    vocabulary in ReversalSpec.v and ReversalGeom.v; model in ReversalModel.v.  None stands for an exception. *)
From Coq Require Import List Arith ZArith Reals Bool Lia Lra Sorted.
From Coquelicot Require Import Coquelicot.
From Verif Require Import PolySpec MappingModel ReduceModel ReduceSpec IncidenceModel ReversalModel ReversalSpec ReversalGeom ReversalThms ReversalSigns ReversalRaw ReversalWrong.
Import List ListNotations.


(** * the search *)

(** two faces with the same ends: one of the two is reversed exactly if they run in opposite directions *)
Theorem reversal_pair k m l w e1 f1 t1 a1 b1 e2 f2 t2 a2 b2 : distinct_ids m -> directed w -> measured k m w -> mismatch k m = Some l ->
  runs k m e1 f1 t1 a1 b1 -> runs k m e2 f2 t2 a2 b2 -> (e1, f1) <> (e2, f2) -> same_ends a1 b1 a2 b2 ->
  ((In (e1, f1) l \/ In (e2, f2) l) <-> (a1 = b2 /\ b1 = a2 /\ clear (w a1 b1))) /\ ~ (In (e1, f1) l /\ In (e2, f2) l) /\
  (In (e1, f1) l -> (priority t2 <= priority t1)%Z /\ unstructured t1) /\ (In (e2, f2) l -> (priority t1 <= priority t2)%Z /\ unstructured t2).
Proof. exact (mismatch_pair k m l w e1 f1 t1 a1 b1 e2 f2 t2 a2 b2). Qed.
Print Assumptions reversal_pair.

Theorem reversal_directions_agree k m l w e1 f1 t1 a1 b1 e2 f2 t2 a2 b2 : distinct_ids m -> directed w -> measured k m w -> mismatch k m = Some l ->
  runs k m e1 f1 t1 a1 b1 -> runs k m e2 f2 t2 a2 b2 -> same_ends a1 b1 a2 b2 -> clear (w a1 b1) ->
  exists d, turned l e1 f1 (a1, b1) d /\ turned l e2 f2 (a2, b2) d.
Proof. exact (directions_agree k m l w e1 f1 t1 a1 b1 e2 f2 t2 a2 b2). Qed.
Print Assumptions reversal_directions_agree.

Theorem reversal_values_agree k m l w u e1 f1 t1 a1 b1 e2 f2 t2 a2 b2 : distinct_ids m -> directed w -> measured k m w -> mismatch k m = Some l ->
  runs k m e1 f1 t1 a1 b1 -> runs k m e2 f2 t2 a2 b2 -> same_ends a1 b1 a2 b2 -> clear (w a1 b1) -> directed u ->
  forall s1 s2, (In (e1, f1) l /\ s1 = (-1)%R \/ ~ In (e1, f1) l /\ s1 = 1%R) -> (In (e2, f2) l /\ s2 = (-1)%R \/ ~ In (e2, f2) l /\ s2 = 1%R) ->
  (s1 * u a1 b1 = s2 * u a2 b2)%R.
Proof. exact (values_agree k m l w u e1 f1 t1 a1 b1 e2 f2 t2 a2 b2). Qed.
Print Assumptions reversal_values_agree.

Theorem reversal_only_there k m l w e f : distinct_ids m -> directed w -> measured k m w -> mismatch k m = Some l -> In (e, f) l ->
  exists t a b e' f' t', runs k m e f t a b /\ runs k m e' f' t' b a /\ (e', f') <> (e, f) /\ ~ In (e', f') l /\ unstructured t /\ (priority t' <= priority t)%Z.
Proof. exact (reversed_faces k m l w e f). Qed.
Print Assumptions reversal_only_there.

Theorem reversal_once k m l : distinct_ids m -> mismatch k m = Some l -> NoDup l.
Proof. exact (mismatch_nodup k m l). Qed.
Print Assumptions reversal_once.

Theorem reversal_succeeds k m w : distinct_ids m -> directed w -> measured k m w -> numbered k m -> at_most_two k m -> structured_agree k m ->
  exists l, mismatch k m = Some l.
Proof. exact (mismatch_total k m w). Qed.
Print Assumptions reversal_succeeds.

Theorem reversal_later_type k m l w e1 f1 t1 a1 b1 e2 f2 t2 a2 b2 : distinct_ids m -> directed w -> measured k m w -> mismatch k m = Some l ->
  runs k m e1 f1 t1 a1 b1 -> runs k m e2 f2 t2 a2 b2 -> same_ends a1 b1 a2 b2 -> (priority t2 < priority t1)%Z ->
  ~ In (e2, f2) l /\ (In (e1, f1) l <-> a1 = b2 /\ b1 = a2 /\ clear (w a1 b1)).
Proof. exact (later_type_reversed k m l w e1 f1 t1 a1 b1 e2 f2 t2 a2 b2). Qed.
Print Assumptions reversal_later_type.

Theorem reversal_info l e f : In f (reverse_info l e) <-> In (e, f) l.
Proof. exact (reverse_info_faces l e f). Qed.
Print Assumptions reversal_info.

Theorem reversal_info_sorted l e : NoDup l -> StronglySorted lt (reverse_info l e).
Proof. exact (reverse_info_increasing l e). Qed.
Print Assumptions reversal_info_sorted.

(** * straight elements *)
Local Open Scope R_scope.

Theorem reversal_raw_dofs k t P phi J F q w f i j c : straight t P phi J -> symmetric_rule q w -> in_reference q ->
  nth_error (walk k t) f = Some (i, j) -> nth_error (cochain_indices k t) f = Some c ->
  exists A B, nth_error P i = Some A /\ nth_error P j = Some B /\ nth_error (raw k t phi J F q w) c = Some (edge_sum (along_or_through k) F q w A B).
Proof. exact (raw_dofs k t P phi J F q w f i j c). Qed.
Print Assumptions reversal_raw_dofs.

Theorem reversal_edges_directed k X F q w : symmetric_rule q w -> directed (edge_value k X F q w).
Proof. exact (edges_directed k X F q w). Qed.
Print Assumptions reversal_edges_directed.

Theorem reversal_straight_measured k m X F q w : straight_mesh k m X F q w -> symmetric_rule q w -> in_reference q -> measured k m (edge_value k X F q w).
Proof. exact (straight_measured k m X F q w). Qed.
Print Assumptions reversal_straight_measured.

Theorem reversal_straight_agree k m X F q w l e1 f1 t1 a1 b1 e2 f2 t2 a2 b2 G q' w' s1 s2 : distinct_ids m -> straight_mesh k m X F q w -> symmetric_rule q w -> in_reference q -> mismatch k m = Some l ->
  runs k m e1 f1 t1 a1 b1 -> runs k m e2 f2 t2 a2 b2 -> same_ends a1 b1 a2 b2 -> clear (edge_value k X F q w a1 b1) -> symmetric_rule q' w' ->
  (In (e1, f1) l /\ s1 = -1 \/ ~ In (e1, f1) l /\ s1 = 1) -> (In (e2, f2) l /\ s2 = -1 \/ ~ In (e2, f2) l /\ s2 = 1) ->
  s1 * edge_value k X G q' w' a1 b1 = s2 * edge_value k X G q' w' a2 b2.
Proof. exact (straight_dofs_agree k m X F q w l e1 f1 t1 a1 b1 e2 f2 t2 a2 b2 G q' w' s1 s2). Qed.
Print Assumptions reversal_straight_agree.

Theorem reversal_constant_field k X u v q w a b : total (length w) (fun r => nth r w 0) = 2 ->
  edge_value k X (fun _ => (u, v)) q w a b =
  match k with Inner => u * (fst (X b) - fst (X a)) + v * (snd (X b) - snd (X a)) | Outer => u * (snd (X b) - snd (X a)) - v * (fst (X b) - fst (X a)) end.
Proof. exact (constant_value k X u v q w a b). Qed.
Print Assumptions reversal_constant_field.

(** * the reversed dofs of one element *)

Theorem reversal_faces_disjoint k t px py f g l l' r : (1 <= px)%nat -> (1 <= py)%nat -> ReversalModel.face_dofs k t px py f = Some l -> ReversalModel.face_dofs k t px py g = Some l' ->
  In r l -> In r l' -> f = g.
Proof. exact (faces_disjoint k t px py f g l l' r). Qed.
Print Assumptions reversal_faces_disjoint.

Theorem reversal_cochain k t px py fs c : (1 <= px)%nat -> (1 <= py)%nat -> t <> CurvedTriangle -> (forall f, In f fs -> (f < faces_number t)%nat) -> NoDup fs ->
  exists ls c', Forall2 (fun f l => ReversalModel.face_dofs k t px py f = Some l) fs ls /\ reverse_cochain k t px py fs c = Some c' /\
    forall i, join (first_size k t px py) c' i = sign_of ls i * join (first_size k t px py) c i.
Proof. exact (cochain_reversed k t px py fs c). Qed.
Print Assumptions reversal_cochain.

Theorem reversal_basis k t px py fs b : (1 <= px)%nat -> (1 <= py)%nat -> t <> CurvedTriangle -> (forall f, In f fs -> (f < faces_number t)%nat) ->
  exists ls b', Forall2 (fun f l => ReversalModel.face_dofs k t px py f = Some l) fs ls /\ reverse_basis k t px py fs b b = Some b' /\
    forall i, join (first_size k t px py) b' i = sign_of ls i * join (first_size k t px py) b i.
Proof. exact (basis_reversed k t px py fs b). Qed.
Print Assumptions reversal_basis.

(** the value of the form at a point *)
Theorem reversal_values_unchanged k t px py fs nd second c b c' b' : (1 <= px)%nat -> (1 <= py)%nat -> t <> CurvedTriangle -> (forall f, In f fs -> (f < faces_number t)%nat) -> NoDup fs ->
  reverse_cochain k t px py fs c = Some c' -> reverse_basis k t px py fs b b = Some b' ->
  component (first_size k t px py) nd second b' c' = component (first_size k t px py) nd second b c.
Proof. exact (fun Hx Hy Ht B ND => values_unchanged k t px py fs Hx Hy Ht B ND nd second c b c' b'). Qed.
Print Assumptions reversal_values_unchanged.


(** mass matrices *)
Theorem reversal_mass_signs k t px py fs : (1 <= px)%nat -> (1 <= py)%nat -> t <> CurvedTriangle -> (forall f, In f fs -> (f < faces_number t)%nat) -> NoDup fs ->
  exists ls, Forall2 (fun f l => ReversalModel.face_dofs k t px py f = Some l) fs ls /\
  forall Q w b b', (forall q, reverse_basis k t px py fs (b q) (b q) = Some (b' q)) -> forall i j,
  mass_entry (first_size k t px py) Q w b' i j = sign_of ls i * sign_of ls j * mass_entry (first_size k t px py) Q w b i j.
Proof. exact (fun Hx Hy Ht B ND => mass_signs k t px py fs Hx Hy Ht B ND ). Qed.
Print Assumptions reversal_mass_signs.


(** inner products *)
Theorem reversal_inner_product_unchanged k t px py fs nd Q w b b' c c' d d' : (1 <= px)%nat -> (1 <= py)%nat -> t <> CurvedTriangle -> (forall f, In f fs -> (f < faces_number t)%nat) -> NoDup fs ->
  (forall q, reverse_basis k t px py fs (b q) (b q) = Some (b' q)) ->
  reverse_cochain k t px py fs c = Some c' -> reverse_cochain k t px py fs d = Some d' ->
  total nd (fun i => total nd (fun j => join (first_size k t px py) c' i * mass_entry (first_size k t px py) Q w b' i j * join (first_size k t px py) d' j)) = total nd (fun i => total nd (fun j => join (first_size k t px py) c i * mass_entry (first_size k t px py) Q w b i j * join (first_size k t px py) d j)).
Proof. exact (fun Hx Hy Ht B ND => inner_product_unchanged k t px py fs Hx Hy Ht B ND nd Q w b b' c c' d d'). Qed.
Print Assumptions reversal_inner_product_unchanged.


(** the incidence matrix with reversed columns applied to the reversed cochain *)
Theorem reversal_derivative_unchanged k t px py fs ls : (1 <= px)%nat -> (1 <= py)%nat -> t <> CurvedTriangle -> (forall f, In f fs -> (f < faces_number t)%nat) -> NoDup fs ->
  Forall2 (fun f l => ReversalModel.face_dofs k t px py f = Some l) fs ls -> forall nd E c c' r,
  reverse_cochain k t px py fs c = Some c' ->
  total nd (fun j => IZR (reverse_cols ls E r j) * join (first_size k t px py) c' j) = total nd (fun j => IZR (E r j) * join (first_size k t px py) c j).
Proof. exact (fun Hx Hy Ht B ND => derivative_unchanged k t px py fs Hx Hy Ht B ND ls). Qed.
Print Assumptions reversal_derivative_unchanged.


(** the incidence matrix with reversed rows gives the reversed cochain *)
Theorem reversal_of_derivative k t px py fs ls : (1 <= px)%nat -> (1 <= py)%nat -> t <> CurvedTriangle -> (forall f, In f fs -> (f < faces_number t)%nat) -> NoDup fs ->
  Forall2 (fun f l => ReversalModel.face_dofs k t px py f = Some l) fs ls -> forall nd E u c c',
  (forall i, join (first_size k t px py) c i = total nd (fun j => IZR (E i j) * u j)) -> reverse_cochain k t px py fs c = Some c' ->
  forall i, join (first_size k t px py) c' i = total nd (fun j => IZR (reverse_rows ls E i j) * u j).
Proof. exact (fun Hx Hy Ht B ND => gradient_reversed k t px py fs Hx Hy Ht B ND ls). Qed.
Print Assumptions reversal_of_derivative.


(** * wrong answers *)

(** the periodic test field is perpendicular to the edge: opposite directions, nothing is reversed *)
Theorem reversal_zero_refuted k : mismatch k (pair_of_triangles k) = Some [] /\
  runs k (pair_of_triangles k) 0 0 Triangle5 (match k with Inner => 0 | Outer => 1 end) (match k with Inner => 1 | Outer => 0 end) /\
  runs k (pair_of_triangles k) 1 0 Triangle5 (match k with Inner => 1 | Outer => 0 end) (match k with Inner => 0 | Outer => 1 end).
Proof. exact (zero_not_seen k). Qed.
Print Assumptions reversal_zero_refuted.

(** elements of one type: the first in the order is reversed *)
Theorem reversal_order_refuted : mismatch Inner [quad_one; quad_two] = Some [(0, 2)]%nat /\ mismatch Inner [quad_two; quad_one] = Some [(1, 2)]%nat.
Proof. exact (order_matters). Qed.
Print Assumptions reversal_order_refuted.

Theorem reversal_curved_triangle_refuted k px py f r c : reverse_cochain k CurvedTriangle px py (f :: r) c = None /\ (forall b, reverse_basis k CurvedTriangle px py (f :: r) b c = None).
Proof. exact (curved_triangle_fails k px py f r c). Qed.
Print Assumptions reversal_curved_triangle_refuted.


(** * Examples *)
(** a quadrilateral and a triangle with a common edge; the values are differences of the vertex numbers *)
Definition case_mesh : list element :=
  [{| e_id := 7; e_type := Quad9; e_map := [0; 1; 2; 3]%nat; e_cochain := [1; -1; 3; 1]; e_gm := [0; 1; 2; 3]%nat |};
   {| e_id := 3; e_type := Triangle5; e_map := [1; 0; 4]%nat; e_cochain := [-1; 3; 4]; e_gm := [0; 4; 5]%nat |}].
Definition case_values (a b : nat) : R := INR b - INR a.
Lemma case_runs e f t a b : runs Inner case_mesh e f t a b ->
  In (e, f, a, b) [(7, 0, 0, 3); (7, 1, 1, 2); (7, 2, 0, 1); (7, 3, 3, 2); (3, 0, 1, 0); (3, 1, 0, 4); (3, 2, 1, 4)]%nat /\ (t = Quad9 \/ t = Triangle5).
Proof.
  intros (x & i & j & I & <- & <- & W & A & B). destruct I as [<-|[<-|[]]]; cbn in W.
  - do 4 (destruct f as [|f]; [cbn in W; injection W as <- <-; cbn in A, B; injection A as <-; injection B as <-; cbn; tauto|]). destruct f; discriminate.
  - do 3 (destruct f as [|f]; [cbn in W; injection W as <- <-; cbn in A, B; injection A as <-; injection B as <-; cbn; tauto|]). destruct f; discriminate.
Qed.
Example reversal_case : distinct_ids case_mesh /\ directed case_values /\ measured Inner case_mesh case_values /\ clear (case_values 0 1) /\
  at_most_two Inner case_mesh /\ structured_agree Inner case_mesh /\ numbered Inner case_mesh /\
  runs Inner case_mesh 7 2 Quad9 0 1 /\ runs Inner case_mesh 3 0 Triangle5 1 0 /\ exists l, mismatch Inner case_mesh = Some l /\ In (3, 0)%nat l.
Proof.
  assert (D : distinct_ids case_mesh) by (repeat constructor; cbn; intuition discriminate).
  assert (DW : directed case_values) by (intros a b; unfold case_values; ring).
  assert (M : measured Inner case_mesh case_values).
  { intros x f i j c I W C. unfold case_values. destruct I as [<-|[<-|[]]]; cbn in W, C.
    - do 4 (destruct f as [|f]; [cbn in W, C; injection W as <- <-; injection C as <-; do 2 eexists; split; [reflexivity|]; split; [reflexivity|]; cbn; f_equal; ring|]). destruct f; discriminate.
    - do 3 (destruct f as [|f]; [cbn in W, C; injection W as <- <-; injection C as <-; do 2 eexists; split; [reflexivity|]; split; [reflexivity|]; cbn; f_equal; ring|]). destruct f; discriminate. }
  assert (C : clear (case_values 0 1)) by (unfold clear, case_values; cbn; replace (1 - 0) with 1 by ring; rewrite Rabs_R1; lra).
  assert (AT : at_most_two Inner case_mesh).
  { intros e1 f1 t1 a1 b1 e2 f2 t2 a2 b2 e3 f3 t3 a3 b3 R1 R2 R3 S1 S2. apply case_runs in R1 as [R1 _], R2 as [R2 _], R3 as [R3 _]. unfold same_ends in *.
    cbn [In] in R1, R2, R3.
    destruct R1 as [E|[E|[E|[E|[E|[E|[E|[]]]]]]]]; injection E as <- <- <- <-;
    (destruct R2 as [E|[E|[E|[E|[E|[E|[E|[]]]]]]]]; injection E as <- <- <- <-; try (exfalso; lia));
    try (left; reflexivity);
    (destruct R3 as [E|[E|[E|[E|[E|[E|[E|[]]]]]]]]; injection E as <- <- <- <-; try (exfalso; lia)); auto. }
  assert (SA : structured_agree Inner case_mesh).
  { intros e1 f1 t1 e2 f2 t2 a b R1 _ _. left. apply case_runs in R1 as [_ [->| ->]]; split; discriminate. }
  assert (NM : numbered Inner case_mesh).
  { split.
    - intros x c [<-|[<-|[]]] H; cbn in *; lia.
    - intros x y f g i j i' j' a b c d p q Ix Iy W1 W2 A B A' B' S P Q. unfold same_ends in S.
      assert (E1 : In (e_id x, f, a, b) [(7, 0, 0, 3); (7, 1, 1, 2); (7, 2, 0, 1); (7, 3, 3, 2); (3, 0, 1, 0); (3, 1, 0, 4); (3, 2, 1, 4)]%nat) by (apply (case_runs _ _ (e_type x)); exists x, i, j; repeat split; auto).
      assert (E2 : In (e_id y, g, c, d) [(7, 0, 0, 3); (7, 1, 1, 2); (7, 2, 0, 1); (7, 3, 3, 2); (3, 0, 1, 0); (3, 1, 0, 4); (3, 2, 1, 4)]%nat) by (apply (case_runs _ _ (e_type y)); exists y, i', j'; repeat split; auto).
      clear A B A' B' W1 W2. cbn [In] in E1, E2.
      destruct Ix as [<-|[<-|[]]], Iy as [<-|[<-|[]]]; cbn [e_id] in E1, E2;
      destruct E1 as [E|[E|[E|[E|[E|[E|[E|[]]]]]]]]; try discriminate; injection E as <- <- <-;
      (destruct E2 as [E|[E|[E|[E|[E|[E|[E|[]]]]]]]]; try discriminate; injection E as <- <- <-; try (exfalso; lia));
      cbn in P, Q; injection P as <-; injection Q as <-; reflexivity. }
  assert (R1 : runs Inner case_mesh 7 2 Quad9 0 1) by (eexists; do 2 eexists; split; [left; reflexivity|]; repeat (split; [reflexivity|]); reflexivity).
  assert (R2 : runs Inner case_mesh 3 0 Triangle5 1 0) by (eexists; do 2 eexists; split; [right; left; reflexivity|]; repeat (split; [reflexivity|]); reflexivity).
  repeat split; auto; try apply NM. destruct (mismatch_total Inner case_mesh case_values D DW M NM AT SA) as (l & H). exists l. split; [exact H|].
  assert (C' : clear (case_values 1 0)) by (rewrite (DW 0%nat 1%nat); apply (proj1 (clear_opp _)); exact C).
  apply (later_type_reversed Inner case_mesh l case_values 3 0 Triangle5 1 0 7 2 Quad9 0 1 D DW M H R2 R1); [right; auto|reflexivity|auto].
Qed.
(** a triangle of degree (2, 3) with two faces reversed *)
Example reversal_dofs_case : ReversalModel.face_dofs Inner Triangle5 2 3 0 = Some [0; 1]%nat /\ ReversalModel.face_dofs Inner Triangle5 2 3 1 = Some [9; 11; 13]%nat /\ first_size Inner Triangle5 2 3 = 8%nat /\
  sign_of [[0; 1]; [9; 11; 13]]%nat 11 = -1 /\ sign_of [[0; 1]; [9; 11; 13]]%nat 10 = 1.
Proof. repeat split. Qed.
Example reversal_straight_case : symmetric_rule two_points two_weights /\ in_reference two_points /\ straight_mesh Outer (pair_of_triangles Outer) (corners_of Outer) periodic_field two_points two_weights.
Proof. split; [exact (proj1 two_rule)|]. split; [exact (proj1 (proj2 two_rule))|]. exact (triangles_straight Outer). Qed.

