(** Vocabulary for the triangular refining: which points of a glued mesh are the same, what a conforming mesh is,
    what it means to cover the quadrilaterals.  Independent of how the code numbers nodes and finds pairs. *)
From Coq Require Import List ZArith QArith Qcanon Bool.
From Verif Require Import TrfModel.
Import ListNotations.
Local Open Scope Qc_scope.

(** the node at a corner of the reference square; (x, y), x downwards, y to the right *)
Inductive at_corner (fl : flavour) (q : quad) : pt -> Z -> Prop :=
  | corner_nw : at_corner fl q (-(1), -(1)) (nw fl q)
  | corner_sw : at_corner fl q (1, -(1)) (sw fl q)
  | corner_ne : at_corner fl q (-(1), 1) (ne fl q)
  | corner_se : at_corner fl q (1, 1) (se fl q).
(** the point of the side s at the coordinate t *)
Definition along (s : side) (t : Qc) : pt :=
  match s with North => (-(1), t) | South => (1, t) | West => (t, -(1)) | East => (t, 1) end.
(** side s of q goes from node n (t = -1) to node n' (t = 1) *)
Definition side_from (fl : flavour) (q : quad) (s : side) (n n' : Z) : Prop :=
  at_corner fl q (along s (-(1))) n /\ at_corner fl q (along s 1) n'.
Definition in_square (p : pt) : Prop := -(1) <= fst p /\ fst p <= 1 /\ -(1) <= snd p /\ snd p <= 1.

(** points p of e and p' of e' are one point of the mesh: they are the same, or corners with one node,
    or on sides with the same two nodes at the same distance from these nodes *)
Inductive glued (fl : flavour) (M : mesh) : Z -> pt -> Z -> pt -> Prop :=
  | glued_same e p : glued fl M e p e p
  | glued_corner e q e' q' p p' n : In (e, q) M -> In (e', q') M -> at_corner fl q p n -> at_corner fl q' p' n ->
      glued fl M e p e' p'
  | glued_side e q s e' q' s' n n' t : In (e, q) M -> In (e', q') M -> -(1) < t -> t < 1 ->
      side_from fl q s n n' -> side_from fl q' s' n n' -> glued fl M e (along s t) e' (along s' t)
  | glued_reversed e q s e' q' s' n n' t : In (e, q) M -> In (e', q') M -> -(1) < t -> t < 1 ->
      side_from fl q s n n' -> side_from fl q' s' n' n -> glued fl M e (along s t) e' (along s' (- t)).

(** two sides have the same two nodes *)
Definition shared (fl : flavour) (q : quad) (s : side) (q' : quad) (s' : side) : Prop :=
  exists n n', side_from fl q s n n' /\ (side_from fl q' s' n n' \/ side_from fl q' s' n' n).
(** side s of e is on the boundary of the domain *)
Definition rim (fl : flavour) (M : mesh) (e : Z) (s : side) : Prop :=
  exists q, In (e, q) M /\ forall e' q' s', In (e', q') M -> shared fl q s q' s' -> e' = e /\ s' = s.

(** base meshes: names are names, corners are four nodes, a pair of nodes belongs to at most two sides *)
Definition mesh_ok (fl : flavour) (M : mesh) : Prop :=
  NoDup (map fst M) /\
  (forall e q, In (e, q) M -> NoDup [q0 q; q1 q; q2 q; q3 q] /\ (0 <= q0 q /\ 0 <= q1 q /\ 0 <= q2 q /\ 0 <= q3 q)%Z) /\
  (forall e q s e1 q1 s1 e2 q2 s2, In (e, q) M -> In (e1, q1) M -> In (e2, q2) M ->
     shared fl q s q1 s1 -> shared fl q s q2 s2 -> (e1, s1) <> (e, s) -> (e2, s2) <> (e, s) -> (e1, s1) = (e2, s2)).
(** sides that two quadrilaterals share have the same direction in both *)
Definition same_directions (fl : flavour) (M : mesh) : Prop :=
  forall e q s e' q' s' n n', In (e, q) M -> In (e', q') M -> side_from fl q s n n' -> ~ side_from fl q' s' n' n.
(** the faces reported as boundary are the boundary *)
Definition boundary_ok (fl : flavour) (M : mesh) (bd : list (Z * side)) : Prop :=
  forall e s, In e (map fst M) -> (In (e, s) bd <-> rim fl M e s).

(** edges of elements: base element and two end points *)
Definition edges (x : elem) : list (Z * pt * pt) :=
  match x with
  | Base e => map (fun s => (e, along s (-(1)), along s 1)) [North; South; West; East]
  | Tri e s p => match verts s p with (v0, v1, v2) => [(e, v1, v2); (e, v0, v1); (e, v2, v0)] end
  end.
Definition same_edge (fl : flavour) (M : mesh) (E E' : Z * pt * pt) : Prop :=
  match E, E' with (e, a, b), (e', a', b') =>
    (glued fl M e a e' a' /\ glued fl M e b e' b') \/ (glued fl M e a e' b' /\ glued fl M e b e' a') end.
Definition rim_edge (fl : flavour) (M : mesh) (E : Z * pt * pt) : Prop :=
  match E with (e, a, b) => exists s t t', a = along s t /\ b = along s t' /\ rim fl M e s end.
(** conforming: an edge of the boundary is an edge of one element, any other edge is an edge of exactly two *)
Definition has_edge (fl : flavour) (M : mesh) (y : elem) (E : Z * pt * pt) : Prop :=
  exists E', In E' (edges y) /\ same_edge fl M E E'.
Definition conforming (fl : flavour) (M : mesh) (els : list elem) : Prop :=
  NoDup els /\
  forall x E, In x els -> In E (edges x) ->
    (rim_edge fl M E -> forall y, In y els -> has_edge fl M y E -> y = x) /\
    (~ rim_edge fl M E -> exists y, In y els /\ y <> x /\ has_edge fl M y E /\
       forall y', In y' els -> has_edge fl M y' E -> y' = x \/ y' = y).

(** triangles as sets of points *)
Definition at_weights (v : pt * pt * pt) (a b c : Qc) : pt :=
  match v with (v0, v1, v2) =>
    (a * fst v0 + b * fst v1 + c * fst v2, a * snd v0 + b * snd v1 + c * snd v2) end.
Definition in_elem (x : elem) (p : pt) : Prop :=
  match x with
  | Base _ => in_square p
  | Tri _ s h => exists a b c, 0 <= a /\ 0 <= b /\ 0 <= c /\ a + b + c = 1 /\ p = at_weights (verts s h) a b c
  end.
Definition inside_elem (x : elem) (p : pt) : Prop :=
  match x with
  | Base _ => -(1) < fst p /\ fst p < 1 /\ -(1) < snd p /\ snd p < 1
  | Tri _ s h => exists a b c, 0 < a /\ 0 < b /\ 0 < c /\ a + b + c = 1 /\ p = at_weights (verts s h) a b c
  end.
Definition of_base (x : elem) : Z := match x with Base e => e | Tri e _ _ => e end.
(** the elements made of a quadrilateral cover it without overlap *)
Definition tiles (M : mesh) (els : list elem) : Prop :=
  (forall x, In x els -> In (of_base x) (map fst M)) /\
  (forall e p, In e (map fst M) -> in_square p -> exists x, In x els /\ of_base x = e /\ in_elem x p) /\
  (forall x y p, In x els -> In y els -> of_base x = of_base y -> inside_elem x p -> inside_elem y p -> x = y).

Definition depth (x : elem) : nat := match x with Base _ => O | Tri _ _ p => S (length p) end.
Definition cross (a b : pt) : Qc := fst a * snd b - snd a * fst b.
Definition minus_pt (a b : pt) : pt := (fst a - fst b, snd a - snd b).
(** twice the signed area of the triangle with the vertices a, b, c *)
Definition area2 (a b c : pt) : Qc := cross (minus_pt b a) (minus_pt c a).

(** the side opposite to vertex 0 *)
Definition bottom_edge (e : Z) (s : side) (p : list half_id) : Z * pt * pt :=
  match verts s p with (_, v1, v2) => (e, v1, v2) end.
(** the triangles that a level with the threshold t splits: the side is on the boundary and the value reaches t,
    or another triangle has the same side and one of the two values reaches t *)
Definition chosen (fl : flavour) (M : mesh) (els : list elem) (f : elem -> Qc) (t : Qc) (x : elem) : Prop :=
  match x with
  | Base _ => False
  | Tri e s p => In x els /\
      ((rim_edge fl M (bottom_edge e s p) /\ t <= f x) \/
       exists e' s' p', In (Tri e' s' p') els /\ Tri e' s' p' <> x /\
         same_edge fl M (bottom_edge e s p) (bottom_edge e' s' p') /\ (t <= f x \/ t <= f (Tri e' s' p')))
  end.
(** the points of the nodes of an element, in the order of its element map *)
Definition node_points (fl : flavour) (x : elem) : list pt :=
  match x with
  | Base _ => match fl with
              | Msehtt => [(-(1), -(1)); (1, -(1)); (1, 1); (-(1), 1)]
              | Msepy => [(-(1), -(1)); (1, -(1)); (-(1), 1); (1, 1)]
              end
  | Tri _ s p => match verts s p with (v0, v1, v2) => [v0; v1; v2] end
  end.
(** numbers of nodes are right: one number for one point, no number is left out *)
Definition numbered (fl : flavour) (M : mesh) (els : list elem) (m : list (elem * list nat)) : Prop :=
  map fst m = els /\
  (forall x ns, In (x, ns) m -> length ns = length (node_points fl x)) /\
  (forall x ns y ns' i j a b p p', In (x, ns) m -> In (y, ns') m ->
     nth_error ns i = Some a -> nth_error (node_points fl x) i = Some p ->
     nth_error ns' j = Some b -> nth_error (node_points fl y) j = Some p' ->
     (a = b <-> glued fl M (of_base x) p (of_base y) p')) /\
  (exists N, forall a, (a < N)%nat <-> exists x ns, In (x, ns) m /\ In a ns).
(** strictly convex quadrilaterals, corners in the order of the reference corners (-1,-1) (1,-1) (1,1) (-1,1) *)
Definition convex (A B C D : pt) : Prop :=
  0 < area2 A B D /\ 0 < area2 B C A /\ 0 < area2 C D B /\ 0 < area2 D A C.
(** quadrilaterals made of regions, with any numbers given to the labels *)
Definition quads_numbered (num : label -> Z) (rs : list region) : list quad :=
  map (fun l => match l with (a, b, c, d) => mkq (num a) (num b) (num c) (num d) end) (flat_map quads_of rs).
Definition labels (rs : list region) : list label :=
  flat_map (fun l => match l with (a, b, c, d) => [a; b; c; d] end) (flat_map quads_of rs).
