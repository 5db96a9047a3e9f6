(** Global numbering on meshes given by vertex labels (C11, C12, C13): the theorems. *)
From Coq Require Import Arith List Bool ZArith Lia Permutation.
From Verif Require Import NdArray Dict GmModel TopologyModel UnModel UnSpec UnProofs UnMesh UnThms UnRefute.
Import ListNotations.
Local Open Scope nat_scope.

(** ** 2-D: quadrilaterals and triangles in one mesh *)
Theorem un_k0_numbers px py : 1 <= px -> 1 <= py -> forall es, proper (K0 px py) es -> conforming_edges true (edges2 px py) es ->
  exists g st, number_mesh (prog_k0 px py) es st0 = Some (g, st) /\ numbers (K0 px py) es g (cur st).
Proof. exact (number_k0 px py). Qed.
Print Assumptions un_k0_numbers.
Theorem un_k1_outer_numbers px py : 1 <= px -> 1 <= py -> forall es, proper (K1o px py) es -> conforming_edges true (edges2 px py) es ->
  exists g st, number_mesh (prog_k1o px py) es st0 = Some (g, st) /\ numbers (K1o px py) es g (cur st).
Proof. exact (number_k1o px py). Qed.
Print Assumptions un_k1_outer_numbers.
Theorem un_k1_inner_numbers px py : 1 <= px -> 1 <= py -> forall es, proper (K1i px py) es -> conforming_edges true (edges2 px py) es ->
  exists g st, number_mesh (prog_k1i px py) es st0 = Some (g, st) /\ numbers (K1i px py) es g (cur st).
Proof. exact (number_k1i px py). Qed.
Print Assumptions un_k1_inner_numbers.
Theorem un_k2_numbers px py : 1 <= px -> 1 <= py -> forall es, proper (K2 px py) es ->
  exists g st, number_mesh (prog_k2 px py) es st0 = Some (g, st) /\ numbers (K2 px py) es g (cur st).
Proof. exact (number_k2 px py). Qed.
Print Assumptions un_k2_numbers.
(** with one degree in all directions nothing is asked of the mesh *)
Theorem un_equal_degrees_conform px py es : px = py -> conforming_edges true (edges2 px py) es.
Proof. exact (equal_degrees px py es). Qed.
Print Assumptions un_equal_degrees_conform.

(** ** 3-D: hexahedra *)
Theorem un_hex_k0_numbers px py pz : 1 <= px -> 1 <= py -> 1 <= pz -> forall es, proper (H0 px py pz) es ->
  conforming_edges false (edges3 px py pz) es -> conforming_faces (faces3 px py pz) es ->
  exists g st, number_mesh (prog_hex px py pz 0) es st0 = Some (g, st) /\ numbers (H0 px py pz) es g (cur st).
Proof. exact (number_h0 px py pz). Qed.
Print Assumptions un_hex_k0_numbers.
Theorem un_hex_k1_numbers px py pz : 1 <= px -> 1 <= py -> 1 <= pz -> forall es, proper (H1 px py pz) es ->
  conforming_edges false (edges3 px py pz) es -> conforming_faces (faces3 px py pz) es ->
  exists g st, number_mesh (prog_hex px py pz 1) es st0 = Some (g, st) /\ numbers (H1 px py pz) es g (cur st).
Proof. exact (number_h1 px py pz). Qed.
Print Assumptions un_hex_k1_numbers.
Theorem un_hex_k2_numbers px py pz : 1 <= px -> 1 <= py -> 1 <= pz -> forall es, proper (H2 px py pz) es -> conforming_faces (faces3 px py pz) es ->
  exists g st, number_mesh (prog_hex px py pz 2) es st0 = Some (g, st) /\ numbers (H2 px py pz) es g (cur st).
Proof. exact (number_h2 px py pz). Qed.
Print Assumptions un_hex_k2_numbers.
Theorem un_hex_k3_numbers px py pz : 1 <= px -> 1 <= py -> 1 <= pz -> forall es, proper (H3 px py pz) es ->
  exists g st, number_mesh (prog_hex px py pz 3) es st0 = Some (g, st) /\ numbers (H3 px py pz) es g (cur st).
Proof. exact (number_h3 px py pz). Qed.
Print Assumptions un_hex_k3_numbers.
Theorem un_equal_degrees_conform_hex px py pz es : px = py -> py = pz ->
  conforming_edges false (edges3 px py pz) es /\ conforming_faces (faces3 px py pz) es.
Proof. exact (equal_degrees3 px py pz es). Qed.
Print Assumptions un_equal_degrees_conform_hex.

(** ** order of the elements, rows of the ranks *)
Theorem un_any_order K es es' g g' M M' : Permutation es es' -> numbers K es g M -> numbers K es' g' M' ->
  M = M' /\
  forall e d n v e' d' n' v', number_at g e d n -> number_at g e' d' n' -> number_at g' e d v -> number_at g' e' d' v' -> (n = n' <-> v = v').
Proof. exact (any_order K es es' g g' M M'). Qed.
Print Assumptions un_any_order.
Theorem un_ranks prog es ranks g st : number_mesh prog es st0 = Some (g, st) -> NoDup (map fst g) ->
  (forall rank e, In rank ranks -> In e rank -> In e (map fst g)) ->
  exists dg, gathering prog es ranks = Some dg /\
    Forall2 (fun rank rows => map fst rows = rank /\ forall e row, In (e, row) rows <-> In e rank /\ In (e, row) g) ranks dg.
Proof. exact (ranks_rows prog es ranks g st). Qed.
Print Assumptions un_ranks.

(** ** edges with the same end vertices *)
Theorem un_distinct_ends_distinct_numbers K es g M e d a b k l e' d' a' b' k' l' n n' :
  numbers K es g M -> position K es e d (PEdge a b k l) -> position K es e' d' (PEdge a' b' k' l') ->
  number_at g e d n -> number_at g e' d' n' ->
  (a, b) <> (a', b') -> (a, b) <> (b', a') -> n <> n'.
Proof.
  intros N Hp Hp' Hn Hn' H1 H2 E. apply (nb_same _ _ _ _ N _ _ _ _ _ _ _ _ Hp Hp' Hn Hn') in E.
  destruct E as [E|(_ & x & y & i & j & _ & E & E')]; congruence.
Qed.
Print Assumptions un_distinct_ends_distinct_numbers.
Theorem un_same_ends_same_numbers K es g M e d a b k l e' d' n n' : k_turn K = true -> a <> b ->
  numbers K es g M -> position K es e d (PEdge a b k l) -> position K es e' d' (PEdge b a l k) ->
  number_at g e d n -> number_at g e' d' n' -> n = n'.
Proof.
  intros Ht Hab N Hp Hp' Hn Hn'. apply (nb_same _ _ _ _ N _ _ _ _ _ _ _ _ Hp Hp' Hn Hn').
  right. split; auto. exists a, b, k, l. auto.
Qed.
Print Assumptions un_same_ends_same_numbers.
(** finding: on two elements closed to a ring the interior nodes of different edges are merged, where the
    numbering of the msepy mesh itself keeps them apart *)
Theorem un_ring_edges_distinct_refuted : exists maps gm g st d d' n n',
  gm_m2n2k0_mesh 2 ring 1 1 = Some maps /\
  gm_m2n2k0_mesh 2 ring 3 1 = Some gm /\
  number_mesh (prog_k0 3 1) (msepy_elements EMsepyQuad maps) st0 = Some (g, st) /\
  (exists row row', nth_error gm 0 = Some row /\ nth_error row d = Some (Z.of_nat n) /\
                    nth_error gm 1 = Some row' /\ nth_error row' d' = Some (Z.of_nat n') /\ n <> n') /\
  (exists v, number_at g 0 d v /\ number_at g 1 d' v).
Proof. exact ring_merges. Qed.
Print Assumptions un_ring_edges_distinct_refuted.
(** finding: without equal degrees along a shared edge different nodes get one number, or the call fails *)
Theorem un_unequal_degrees_refuted : exists es g st e d d' p p' n,
  proper (K0 2 3) es /\ number_mesh (prog_k0 2 3) es st0 = Some (g, st) /\
  position (K0 2 3) es e d p /\ position (K0 2 3) es e d' p' /\ ~ same true p p' /\ number_at g e d n /\ number_at g e d' n.
Proof. exact unequal_degrees_merge. Qed.
Print Assumptions un_unequal_degrees_refuted.
Theorem un_unequal_degrees_fail_refuted : exists es, proper (K0 3 2) es /\ number_mesh (prog_k0 3 2) es st0 = None.
Proof. exact unequal_degrees_fail. Qed.
Print Assumptions un_unequal_degrees_fail_refuted.
(** finding: hexahedra that traverse an edge in opposite directions do not share its numbers *)
Theorem un_hex_direction_refuted : exists es g st d d' p p' n n',
  proper (H0 2 2 2) es /\ number_mesh (prog_hex 2 2 2 0) es st0 = Some (g, st) /\
  position (H0 2 2 2) es 0 d p /\ position (H0 2 2 2) es 1 d' p' /\ same true p p' /\ number_at g 0 d n /\ number_at g 1 d' n' /\ n <> n'.
Proof. exact hex_reversed_edge_split. Qed.
Print Assumptions un_hex_direction_refuted.
(** finding: no 2-forms on a mesh with a curvilinear triangle *)
Theorem un_curved_triangle_no_2form px py es : (exists e x, In (e, x) es /\ e_type x = ECurvTri /\ e_in x = true) ->
  number_mesh (prog_k2 px py) es st0 = None.
Proof. exact (curved_triangle_no_2form px py es). Qed.
Print Assumptions un_curved_triangle_no_2form.

(** ** a mesh of two quadrilaterals of different types and a triangle; edge 1-2 is traversed in both
    directions; element 9 is outside the portion *)
Definition el t m := {| e_type := t; e_map := m; e_in := true |}.
Definition mixed := [(0, el E9 [0; 1; 2; 3]); (4, el ERect [2; 4; 1; 5]); (9, {| e_type := EOrthHex; e_map := []; e_in := false |}); (2, el E5 [4; 5; 6])].
Example mixed_proper : proper (K0 3 3) mixed /\ proper (K1o 3 3) mixed /\ proper (K1i 3 3) mixed /\ proper (K2 3 3) mixed.
Proof.
  assert (NoDup (map fst mixed)) by (repeat constructor; simpl; intuition discriminate).
  repeat (split; [split; [assumption|repeat constructor; discriminate]|]). split; [assumption|repeat constructor; discriminate].
Qed.
Example mixed_conforms : conforming_edges true (edges2 3 3) mixed.
Proof. now apply un_equal_degrees_conform. Qed.
Example mixed_numbers : option_map (fun gs => (fst gs, cur (snd gs))) (number_mesh (prog_k0 3 3) mixed st0) =
  Some ([(0, [0; 1; 2; 3; 4; 6; 7; 10; 5; 8; 9; 11; 12; 13; 14; 15]);
         (4, [15; 16; 17; 18; 11; 19; 20; 23; 10; 21; 22; 24; 3; 25; 26; 27]);
         (9, []);
         (2, [18; 23; 24; 27; 28; 29; 32; 30; 31; 33; 34; 35; 36])], 37).
Proof. vm_compute. reflexivity. Qed.
(** different degrees that fit together *)
Definition strip := [(0, el EMsepyQuad [0; 1; 2; 3]); (1, el EMsepyQuad [1; 4; 3; 5])].
Example strip_conforms : proper (K0 2 4) strip /\ conforming_edges true (edges2 2 4) strip.
Proof.
  split; [split; [repeat constructor; simpl; intuition discriminate|repeat constructor]|]. now apply conformingb_ok.
Qed.
Definition bricks := [(7, hex [0; 1; 2; 3; 4; 5; 6; 7]); (3, hex [1; 8; 3; 9; 5; 10; 7; 11])].
Example bricks_proper : proper (H0 2 2 2) bricks /\ proper (H1 2 2 2) bricks /\ proper (H2 2 2 2) bricks /\ proper (H3 2 2 2) bricks /\
  conforming_edges false (edges3 2 2 2) bricks /\ conforming_faces (faces3 2 2 2) bricks.
Proof.
  assert (NoDup (map fst bricks)) by (repeat constructor; simpl; intuition discriminate).
  repeat (split; [split; [assumption|repeat constructor]|]). now apply un_equal_degrees_conform_hex.
Qed.
Example bricks_count : map (fun k => option_map (fun gs => cur (snd gs)) (number_mesh (prog_hex 2 2 2 k) bricks st0)) [0; 1; 2; 3] =
  [Some 45; Some 96; Some 68; Some 16].
Proof. vm_compute. reflexivity. Qed.
Example mixed_ranks : option_map (map (map fst)) (gathering (prog_k1o 2 2) mixed [[4]; [2; 0; 9]]) = Some [[4]; [2; 0; 9]].
Proof. vm_compute. reflexivity. Qed.
(** on the ring the hypotheses of [un_k0_numbers] hold: the labels do not tell the two edges apart *)
Example ring_proper : exists maps, gm_m2n2k0_mesh 2 ring 1 1 = Some maps /\ proper (K0 3 1) (msepy_elements EMsepyQuad maps) /\
  conforming_edges true (edges2 3 1) (msepy_elements EMsepyQuad maps).
Proof.
  eexists. split; [vm_compute; reflexivity|]. split; [split; [repeat constructor; simpl; intuition discriminate|repeat constructor; cbn; lia]|].
  now apply conformingb_ok.
Qed.
