(** C69: splitting all elements of a great mesh (`ts`).  Only statements and references to proofs; vocabulary in SplitSpec.v; model in
    SplitModel.v.  None stands for an exception. *)
From Coq Require Import List Arith ZArith Reals String Bool Lra Lia Permutation.
From Coquelicot Require Import Coquelicot.
From Verif Require Import MappingModel MappingSpec MappingProofs SplitModel SplitSpec SplitGeom SplitConf SplitParts SplitThms SplitNumber SplitBox.
Import List ListNotations.
Local Open Scope R_scope.
Local Notation mat := MappingModel.mat.
Local Notation length := List.length.

(** * how often, and what is remembered *)
(** meshes of triangles, quadrilaterals, rectangles, boxes and curvilinear quadrilaterals can be split any number of times *)
Theorem ts_succeeds k mesh : Forall splittable (concat mesh) -> nodes_of mesh <> [] -> exists mesh', iterate k mesh = Some mesh'.
Proof. exact (iterate_succeeds k mesh). Qed.
Print Assumptions ts_succeeds.
(** the mesh is split ts times, and the mesh after j splittings is kept under j for all j < ts *)
Theorem ts_result k mesh : match iterate k mesh with
  | None => parse_ts k [] mesh = None
  | Some mesh' => exists info, parse_ts k [] mesh = Some (mesh', info) /\ forall j, info_get info j = if (j <? k)%nat then iterate j mesh else None
  end.
Proof. exact (parse_ts_spec k mesh). Qed.
Print Assumptions ts_result.
(** a single element of another type (pixels, vtk hexahedra, tetrahedra, curvilinear triangles, msepy elements) makes it fail *)
Theorem ts_other_types_refuted mesh e m k : In (e, Other, m) (concat mesh) -> iterate (S k) mesh = None.
Proof.
  intros H. cbn. destruct (split_mesh mesh) as [c|] eqn:E; [|reflexivity]. destruct (split_mesh_some mesh c E) as (ls & mx & tuples & f & _ & Ea & _).
  destruct (split_all_parent _ _ e Other m Ea H) as (c0 & H0 & _). discriminate.
Qed.
Print Assumptions ts_other_types_refuted.

(** * names *)
(** every rank keeps the children of its elements, in their order, under the name of the parent followed by a tag *)
Theorem ts_names mesh mesh' : split_mesh mesh = Some mesh' -> map (map name) mesh' = map child_names mesh.
Proof. exact (split_names mesh mesh'). Qed.
Print Assumptions ts_names.
Theorem ts_names_distinct k mesh mesh' : NoDup (map name (concat mesh)) -> iterate k mesh = Some mesh' -> NoDup (map name (concat mesh')).
Proof. exact (iterate_names k mesh mesh'). Qed.
Print Assumptions ts_names_distinct.

(** * nodes *)
(** old nodes keep their numbers; the new ones are numbered consecutively after the largest *)
Theorem ts_nodes mesh mesh' : split_mesh mesh = Some mesh' -> exists mx k, In mx (nodes_of mesh) /\ (forall z, In z (nodes_of mesh) -> (z <= mx)%Z) /\
  forall z, In z (nodes_of mesh') <-> In z (nodes_of mesh) \/ (mx + 1 <= z < mx + 1 + Z.of_nat k)%Z.
Proof. exact (split_nodes mesh mesh'). Qed.
Print Assumptions ts_nodes.
(** straight elements in two and three dimensions: a node has one place in all elements, again after splitting *)
Theorem ts_placed k pos mesh mesh' : placed pos mesh -> iterate k mesh = Some mesh' ->
  exists pos', placed pos' mesh' /\ forall n, In n (nodes_of mesh) -> pos' n = pos n.
Proof. exact (iterate_placed k pos mesh mesh'). Qed.
Print Assumptions ts_placed.

(** * plane meshes, also curvilinear *)
(** elements with a common edge still have the same side there, point for point *)
Theorem ts_conforming k mesh mesh' : conforming (plane_elements (concat mesh)) -> iterate k mesh = Some mesh' -> conforming (plane_elements (concat mesh')).
Proof. exact (iterate_conforming k mesh mesh'). Qed.
Print Assumptions ts_conforming.
(** the children of an element cover exactly the element *)
Theorem ts_children_cover s m c p : sound s m -> split_one s m = Some c -> (in_region s p <-> exists x s' m', In (x, s', m') c /\ in_region s' p).
Proof. exact (region_children s m c p). Qed.
Print Assumptions ts_children_cover.
Theorem ts_region k mesh mesh' p : conforming (plane_elements (concat mesh)) -> iterate k mesh = Some mesh' ->
  (exists e s m, In (e, s, m) (concat mesh) /\ in_region s p) <-> (exists e s m, In (e, s, m) (concat mesh') /\ in_region s p).
Proof. exact (iterate_region k mesh mesh' p). Qed.
Print Assumptions ts_region.
(** sides of children run along the halves of the parent's sides, all other sides cancel *)
Theorem ts_boundary (w : node -> node -> R) s m c : antisymmetric w -> sound s m -> split_one s m = Some c ->
  fold_right Rplus 0 (map (fun q => around_sum w (snd q)) c) =
  fold_right Rplus 0 (map (fun e => w (Int (fst e)) (pair_ (fst e) (snd e)) + w (pair_ (fst e) (snd e)) (Int (snd e))) (ends (cycle s m))).
Proof. exact (chain_one w s m c). Qed.
Print Assumptions ts_boundary.
Theorem ts_orientation k mesh mesh' : conforming (plane_elements (concat mesh)) -> (forall e s m, In (e, s, m) (concat mesh) -> oriented s) -> iterate k mesh = Some mesh' ->
  forall e s m, In (e, s, m) (concat mesh') -> oriented s.
Proof. exact (iterate_oriented k mesh mesh'). Qed.
Print Assumptions ts_orientation.

(** * straight elements in two and three dimensions *)
Theorem ts_orientation_straight k mesh mesh' : (forall e s m, In (e, s, m) (concat mesh) -> straight s /\ oriented s) -> iterate k mesh = Some mesh' ->
  forall e s m, In (e, s, m) (concat mesh') -> straight s /\ oriented s.
Proof. exact (iterate_oriented_straight k mesh mesh'). Qed.
Print Assumptions ts_orientation_straight.
(** areas and volumes: those of the children add up to that of the parent *)
Theorem ts_children_measure s m c : straight s -> split_one s m = Some c -> total (shapes c) = measure s.
Proof. exact (measure_children s m c). Qed.
Print Assumptions ts_children_measure.
Theorem ts_measure k mesh mesh' : (forall e s m, In (e, s, m) (concat mesh) -> straight s) -> iterate k mesh = Some mesh' -> total (shapes (concat mesh')) = total (shapes (concat mesh)).
Proof. exact (iterate_total k mesh mesh'). Qed.
Print Assumptions ts_measure.
(** the three quadrilaterals of a triangle have the same area *)
Theorem ts_triangle_thirds A B C n0 n1 n2 x P m : In (x, Quad P, m) (split_triangle A B C n0 n1 n2) -> area2 P = area2 [A; B; C] / 3.
Proof. exact (triangle_child_area A B C n0 n1 n2 x P m). Qed.
Print Assumptions ts_triangle_thirds.

(** * boxes *)
(** at every corner of a common face, in whatever order the neighbours number it, both have a child with a face of the same nodes *)
Theorem ts_box_neighbours s m c s' m' c' F F' p q r t : is_box s -> split_one s m = Some c -> is_box s' -> split_one s' m' = Some c' ->
  In F (faces m) -> In F' (faces m') -> In F' (turns F) -> In [p; q; r; t] (turns F) ->
  exists e e' G G', In e c /\ In e' c' /\ In G (faces (snd e)) /\ In G' (faces (snd e')) /\ Permutation G G' /\ In (Int p) G.
Proof. exact (split_box_neighbours s m c s' m' c' F F' p q r t). Qed.
Print Assumptions ts_box_neighbours.

(** * cases that meet the hypotheses *)
(** a triangle above a rectangle, on two ranks *)
Notation house := [[("t"%string, Triangle [(0, 0); (1, 0); (0, 1)], [0; 1; 2]%Z)]; [("r"%string, Rect (0, -1) (1, 1), [3; 4; 0; 1]%Z)]].
Lemma house_conforming : conforming (plane_elements (concat house)).
Proof.
  cbn [concat app plane_elements map fst snd]. split; [|split].
  - constructor; [|constructor; [|constructor]]; (split; [repeat constructor; cbn; intuition discriminate|]); cbn; auto.
  - cbn. repeat constructor; cbn; intuition discriminate.
  - intros q q' a b g a' b' g' H H' E E'. cbn [In] in H, H'.
    assert (Sd : forall t, segment (0, 0) (1, 0) t = ortho_rect 0 (-1) 1 1 (- - t) 1) by (intros t; unfold segment, ortho_rect; cbn [fst snd]; apply (f_equal2 pair); field).
    assert (Sd' : forall t, ortho_rect 0 (-1) 1 1 (- t) 1 = segment (0, 0) (1, 0) (- t)) by (intros t; unfold segment, ortho_rect; cbn [fst snd]; apply (f_equal2 pair); field).
    destruct H as [<-|[<-|[]]], H' as [<-|[<-|[]]]; unfold edges in E, E'; cbn [fst snd cycle ends combine app sides around In] in E, E';
      repeat (destruct E as [E|E]; [injection E as <- <- <-;
        repeat (destruct E' as [E'|E']; [injection E' as <- <- <-; split; intros K1 K2; try (exfalso; discriminate); intros t; cbn [fst snd]; solve [reflexivity|apply Sd|apply Sd']|]); destruct E'|]);
      destruct E.
Qed.
Lemma house_oriented e s m : In (e, s, m) (concat house) -> straight s /\ oriented s.
Proof.
  cbn [concat app In]. intros [[= <- <- <-]|[[= <- <- <-]|[]]]; (split; [cbn; auto|]).
  - cbn [oriented]. unfold area2, cross. cbn. lra.
  - cbn. lra.
Qed.
Example house_three_times : exists mesh', iterate 3 house = Some mesh' /\ conforming (plane_elements (concat mesh')) /\ NoDup (map name (concat mesh')) /\
  (forall e s m, In (e, s, m) (concat mesh') -> straight s /\ oriented s) /\ total (shapes (concat mesh')) = 3 / 2.
Proof.
  destruct (ts_succeeds 3 house) as [mesh' E].
  - apply Forall_forall. intros [[e s] m] H. left. exact (conforming_sound _ house_conforming e s m H).
  - discriminate.
  - exists mesh'. split; [exact E|]. split; [exact (ts_conforming 3 _ _ house_conforming E)|]. split; [|split].
    + refine (ts_names_distinct 3 _ _ _ E). cbn. repeat constructor; cbn; intuition discriminate.
    + exact (ts_orientation_straight 3 _ _ house_oriented E).
    + rewrite (ts_measure 3 _ _ (fun e s m H => proj1 (house_oriented e s m H)) E). unfold total, shapes. cbn. unfold area2, cross. cbn. field.
Qed.
(** numbers and names *)
Example house_names : exists mesh', split_mesh house = Some mesh' /\ map (map name) mesh' = [["t:5>0"; "t:5>1"; "t:5>2"]; ["r:or>0"; "r:or>1"; "r:or>2"; "r:or>3"]]%string /\
  map (map snd) mesh' = [[[0; 5; 6; 7]; [1; 8; 6; 5]; [2; 7; 6; 8]]; [[3; 9; 10; 11]; [9; 4; 12; 10]; [10; 12; 1; 5]; [11; 10; 5; 0]]]%Z.
Proof.
  assert (E : option_map (map (map snd)) (split_mesh house) = Some [[[0; 5; 6; 7]; [1; 8; 6; 5]; [2; 7; 6; 8]]; [[3; 9; 10; 11]; [9; 4; 12; 10]; [10; 12; 1; 5]; [11; 10; 5; 0]]]%Z) by (vm_compute; reflexivity).
  destruct (split_mesh house) as [mesh'|] eqn:H; [|discriminate]. exists mesh'. split; [reflexivity|]. split; [exact (ts_names _ _ H)|]. cbn [option_map] in E. congruence.
Qed.
(** two boxes with a common face *)
Notation boxes := [[("0"%string, Hex (0, 0, 0) (1, 1, 1), [0; 1; 2; 3; 4; 5; 6; 7]%Z); ("1"%string, Hex (1, 0, 0) (2, 1, 1), [1; 8; 3; 9; 5; 10; 7; 11]%Z)]].
Notation boxes_at := (fun z : Z => nth (Z.to_nat z) [(0, 0, 0); (1, 0, 0); (0, 1, 0); (1, 1, 0); (0, 0, 1); (1, 0, 1); (0, 1, 1); (1, 1, 1); (3, 0, 0); (3, 1, 0); (3, 0, 1); (3, 1, 1)] (0, 0, 0)).
Lemma boxes_placed : placed boxes_at boxes.
Proof.
  intros e s m. cbn [concat app In]. intros [[= <- <- <-]|[[= <- <- <-]|[]]]; (split; [exact I|]); cbn [corners box_corners map];
    repeat (apply (f_equal2 cons)); try reflexivity; cbn; (apply (f_equal2 pair); [apply (f_equal2 pair)|]); ring.
Qed.
Example boxes_split : exists mesh' pos', iterate 2 boxes = Some mesh' /\ placed pos' mesh' /\ pos' 9%Z = (3, 1, 0) /\ total (shapes (concat mesh')) = 3.
Proof.
  destruct (ts_succeeds 2 boxes) as [mesh' E].
  - repeat constructor; right; split; reflexivity.
  - discriminate.
  - destruct (ts_placed 2 boxes_at boxes mesh' boxes_placed E) as (pos' & P & K). exists mesh', pos'. split; [exact E|]. split; [exact P|]. split.
    + rewrite K; [reflexivity|]. cbn. auto 20.
    + rewrite (ts_measure 2 boxes mesh' (fun e s m H => proj1 (boxes_placed e s m H)) E). unfold total, shapes. cbn. field.
Qed.

(** * two edges between the same two nodes *)
(** an annulus of two curvilinear quadrilaterals: the middles of the two outer (and of the two inner) sides get one node *)
Notation upper := (fun xi et => (- et * ((3 + xi) / 2), (1 - et * et) * ((3 + xi) / 2))).
Notation upper_J := (fun xi et => mat2 (- et / 2) (- ((3 + xi) / 2)) ((1 - et * et) / 2) (- 2 * et * ((3 + xi) / 2))).
Notation lower := (fun xi et => (et * ((3 + xi) / 2), - ((1 - et * et) * ((3 + xi) / 2)))).
Notation lower_J := (fun xi et => mat2 (et / 2) ((3 + xi) / 2) (- ((1 - et * et) / 2)) (2 * et * ((3 + xi) / 2))).
Notation annulus := [[("u"%string, Curved upper upper_J, [0; 1; 2; 3]%Z); ("l"%string, Curved lower lower_J, [3; 2; 1; 0]%Z)]].
Theorem ts_two_edges_refuted : exists mesh pos mesh', NoDup (map (fun q => cycle (fst q) (snd q)) (plane_elements (concat mesh))) /\
  (forall e s m, In (e, s, m) (concat mesh) -> sound s m /\ oriented s /\ corners s = map pos m) /\
  split_mesh mesh = Some mesh' /\ forall pos', ~ (forall e s m, In (e, s, m) (concat mesh') -> corners s = map pos' m).
Proof.
  exists annulus, (fun z => nth (Z.to_nat z) [(1, 0, 0); (2, 0, 0); (-2, 0, 0); (-1, 0, 0)] (0, 0, 0)).
  assert (So : forall e s m, In (e, s, m) (concat annulus) -> sound s m /\ oriented s /\ corners s = map (fun z => nth (Z.to_nat z) [(1, 0, 0); (2, 0, 0); (-2, 0, 0); (-1, 0, 0)] (0, 0, 0)) m).
  { intros e s m. cbn [concat app In]. intros [[= <- <- <-]|[[= <- <- <-]|[]]].
    - split; [split; [repeat constructor; cbn; intuition discriminate|reflexivity]|]. split.
      + intros xi et X Y. unfold det2, mat2. cbn [nth]. replace (_ - _) with ((3 + xi) / 2 * ((1 + et * et) / 2)) by field. apply Rmult_lt_0_compat; nra.
      + cbn. unfold flat. cbn [fst snd]. repeat (apply (f_equal2 cons)); try reflexivity; (apply (f_equal2 pair); [apply (f_equal2 pair)|]); field.
    - split; [split; [repeat constructor; cbn; intuition discriminate|reflexivity]|]. split.
      + intros xi et X Y. unfold det2, mat2. cbn [nth]. replace (_ - _) with ((3 + xi) / 2 * ((1 + et * et) / 2)) by field. apply Rmult_lt_0_compat; nra.
      + cbn. unfold flat. cbn [fst snd]. repeat (apply (f_equal2 cons)); try reflexivity; (apply (f_equal2 pair); [apply (f_equal2 pair)|]); field. }
  destruct (split_succeeds annulus) as (mesh' & E & _).
  - apply Forall_forall. intros [[e s] m] H. left. exact (proj1 (So e s m H)).
  - discriminate.
  - exists mesh'. split; [cbn; repeat constructor; cbn; intuition discriminate|]. split; [exact So|]. split; [exact E|].
    intros pos' P. destruct (split_mesh_some annulus mesh' E) as (ls & mx & tuples & f & _ & Ea & _ & _ & ->). rewrite concat_rename in P.
    assert (Q : forall e s m x s' m' c, In (e, s, m) (concat annulus) -> split_one s m = Some c -> In (x, s', m') c -> corners s' = map pos' (map f m')).
    { intros e s m x s' m' c H1 H2 H3. destruct (split_all_parent _ _ e s m Ea H1) as (c0 & K1 & K2). assert (c0 = c) by congruence. subst c0.
      apply (P (append e x) s' (map f m')). apply in_map_iff. exists (append e x, s', m'). split; [reflexivity|]. apply K2, H3. }
    assert (Q1 := Q _ _ _ _ _ _ _ (or_introl eq_refl) eq_refl (or_intror (or_introl eq_refl))).
    assert (Q2 := Q _ _ _ _ _ _ _ (or_intror (or_introl eq_refl)) eq_refl (or_intror (or_introl eq_refl))).
    cbn [corners map] in Q1, Q2. injection Q1 as _ _ Q1 _. injection Q2 as _ _ Q2 _. change (pair_ 2 1) with (pair_ 1 2) in Q2. rewrite <- Q1 in Q2. unfold flat, in_element2, axis in Q2. cbn [fst snd] in Q2.
    apply (f_equal (fun p : pt3 => snd (fst p))) in Q2. cbn [fst snd] in Q2. lra.
Qed.
Print Assumptions ts_two_edges_refuted.
(** two boxes with a common face, numbered differently *)
Example box_neighbours : is_box (Hex (0, 0, 0) (1, 1, 1)) /\ (exists c, split_one (Hex (0, 0, 0) (1, 1, 1)) [0; 1; 2; 3; 4; 5; 6; 7]%Z = Some c) /\
  (exists c', split_one (Hex (1, 0, 0) (1, 1, 1)) [7; 8; 3; 9; 5; 10; 1; 11]%Z = Some c') /\
  In [1; 3; 5; 7]%Z (faces [0; 1; 2; 3; 4; 5; 6; 7]%Z) /\ In [7; 3; 5; 1]%Z (faces [7; 8; 3; 9; 5; 10; 1; 11]%Z) /\ In [7; 3; 5; 1]%Z (turns [1; 3; 5; 7]%Z).
Proof. split; [exact I|]. split; [eexists; reflexivity|]. split; [eexists; reflexivity|]. cbn. tauto. Qed.
