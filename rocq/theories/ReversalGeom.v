(** Straight elements, integrals along straight edges, and meshes of such elements. *)
From Coq Require Import List Arith Reals.
From Coquelicot Require Import Coquelicot.
From Verif Require Import PolySpec MappingModel ReduceModel ReduceSpec ReversalModel.
Import List ListNotations.
Local Open Scope R_scope.
Local Notation mat := MappingModel.mat.

(** the rule [q], [w] along the straight edge from A to B *)
Definition edge_sum (g : R * R -> R * R -> R) (F : R * R -> R * R) (q w : list R) (A B : R * R) : R :=
  total (length w) (fun r => nth r w 0 * g (F (fst A + (nth r q 0 + 1) / 2 * (fst B - fst A), snd A + (nth r q 0 + 1) / 2 * (snd B - snd A)))
                                            ((fst B - fst A) / 2, (snd B - snd A) / 2)).
Definition symmetric_rule (q w : list R) : Prop :=
  length q = length w /\ forall r, (r < length w)%nat -> nth (length w - 1 - r) q 0 = - nth r q 0 /\ nth (length w - 1 - r) w 0 = nth r w 0.
Definition unit_nodes : list R := [-1; 1].

(** the functional of a 1-form *)
Definition along_or_through (k : form) : R * R -> R * R -> R := match k with Inner => along2 | Outer => to_right end.
(** reduction with raw=True and degree 1 in one element *)
Definition raw (k : form) (t : etype) (phi : R -> R -> pt2) (J : R -> R -> mat) (F : pt2 -> pt2) (q w : list R) : list R :=
  match k, tri t with
  | Inner, false => rd_m2n2k1_inner phi J F unit_nodes unit_nodes q w q w
  | Outer, false => rd_m2n2k1_outer phi J F unit_nodes unit_nodes q w q w
  | Inner, true => rd_m2n2k1_inner_tri phi J F unit_nodes unit_nodes q w q w
  | Outer, true => rd_m2n2k1_outer_tri phi J F unit_nodes unit_nodes q w q w
  end.

(** the corners, the mapping and its matrix of an element; a rectangle has its sides along the axes *)
Inductive straight : etype -> list pt2 -> (R -> R -> pt2) -> (R -> R -> mat) -> Prop :=
| Sq A B C D : straight Quad9 [A; B; C; D] (quad9 [A; B; C; D]) (quad9_J [A; B; C; D])
| St A B C : straight Triangle5 [A; B; C] (tri5 [A; B; C]) (tri5_J [A; B; C])
| Sr rd8 ox oy dx dy : rd8 (dx / 2) = dx / 2 -> rd8 (dy / 2) = dy / 2 ->
    straight Rectangle [(ox, oy); (ox + dx, oy); (ox, oy + dy); (ox + dx, oy + dy)] (ortho_rect ox oy dx dy) (fun _ _ => ortho_rect_J rd8 dx dy).

(** the vertices are at [X], and the test field is [F] *)
Definition straight_mesh (k : form) (m : list element) (X : nat -> pt2) (F : pt2 -> pt2) (q w : list R) : Prop :=
  forall x, In x m -> exists phi J, straight (e_type x) (map X (e_map x)) phi J /\ e_cochain x = raw k (e_type x) phi J F q w.
Definition edge_value (k : form) (X : nat -> pt2) (F : pt2 -> pt2) (q w : list R) (a b : nat) : R :=
  edge_sum (along_or_through k) F q w (X a) (X b).

(** * an example: *)
(** two triangles on both sides of the edge from (0, 0) to (1, 2) (inner) or (2, -1) (outer) *)
Definition corners_of (k : form) (a : nat) : pt2 :=
  match k, a with
  | _, 0%nat => (0, 0)
  | Inner, 1%nat => (1, 2) | Outer, 1%nat => (2, -1)
  | _, 2%nat => (-1, 1) | Inner, _ => (2, 1) | Outer, _ => (-1, -1)
  end.
Definition two_points : list R := [-1; 1].
Definition two_weights : list R := [1; 1].
Definition periodic_field : pt2 -> pt2 := fun _ => (-1, 1 / 2).
Definition triangle_at (k : form) (e : nat) (l g : list nat) : element :=
  let P := map (corners_of k) l in
  {| e_id := e; e_type := Triangle5; e_map := l; e_cochain := raw k Triangle5 (tri5 P) (tri5_J P) periodic_field two_points two_weights; e_gm := g |}.
Definition pair_of_triangles (k : form) : list element :=
  match k with
  | Inner => [triangle_at k 0 [0; 1; 2] [0; 1; 2]; triangle_at k 1 [1; 0; 3] [0; 3; 4]]
  | Outer => [triangle_at k 0 [0; 1; 2] [0; 1; 2]; triangle_at k 1 [1; 0; 3] [3; 1; 4]]
  end%nat.
Definition quad_with (e : nat) (l g : list nat) (c : list R) : element := {| e_id := e; e_type := Quad9; e_map := l; e_cochain := c; e_gm := g |}.
(** two quadrilaterals whose dofs have opposite directions on the edge 0-1: from 0 to 1 in the first, from 1 to 0 in the second *)
Definition quad_one : element := quad_with 0 [0; 1; 2; 3]%nat [0; 1; 2; 3]%nat [1; 3; 4; 5].
Definition quad_two : element := quad_with 1 [1; 0; 4; 5]%nat [0; 4; 5; 6]%nat [-1; 6; 7; 8].
