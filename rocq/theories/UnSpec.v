(** What the numberings of UnModel are for, stated without the visits: where a local dof sits.
    Only the local numberings of LocalNumberingModel are used to name local dofs. *)
From Coq Require Import Arith List Bool.
From Verif Require Import NdArray LocalNumberingModel UnModel.
Import ListNotations.

(** the places of dofs in a mesh of labelled vertices: a vertex; on the edge from vertex a to vertex b
    with k dofs of the edge before it and k' after it; on a face with the vertices f, at an index of
    the face; strictly inside element e *)
Inductive place :=
| PVertex (v : nat)
| PEdge (a b k k' : nat)
| PFace (f : list nat) (ix : list nat)
| PIn (e : nat) (s : slot).

(** the same place of the mesh; with [turn] an edge may be traversed in both directions (the end
    points of the edge must differ to say which direction is meant) *)
Definition same (turn : bool) (p q : place) : Prop :=
  p = q \/ (turn = true /\ exists a b k k', a <> b /\ p = PEdge a b k k' /\ q = PEdge b a k' k).

Inductive side := Lo | Mid | Hi.
Definition side_of (i n : nat) : side := if i =? 0 then Lo else if i =? n then Hi else Mid.

(** ** quadrilaterals and triangles *)
Definition is_tri (t : etype) : bool := match t with E5 | ECurvTri | EMsepyTri => true | _ => false end.
Definition is_quad (t : etype) : bool :=
  match t with E9 | ECurvQuad | EMsepyQuad | ERect => true | _ => false end.
(** the vertex of corner (x side, y side); types 9 go around, the others go along x first; a triangle
    is a quadrilateral whose x- side is the vertex 0 *)
Definition corner2 (t : etype) (m : list nat) (hx hy : bool) : nat :=
  let at_ i := nth i m 0 in
  match t with
  | E9 | ECurvQuad => match hx, hy with false, false => at_ 0 | true, false => at_ 1 | true, true => at_ 2 | false, true => at_ 3 end
  | E5 | ECurvTri | EMsepyTri => match hx, hy with false, _ => at_ 0 | true, false => at_ 1 | true, true => at_ 2 end
  | _ => match hx, hy with false, false => at_ 0 | true, false => at_ 1 | false, true => at_ 2 | true, true => at_ 3 end
  end.
Definition num_corners (t : etype) : nat := if is_tri t then 3 else if is_quad t then 4 else 8.

Section Plane.
  Context (px py : nat) (e : nat) (x : elem).
  Let c := corner2 (e_type x) (e_map x).
  (** node (i, j) *)
  Definition node_place (i j : nat) : place :=
    match side_of i px, side_of j py with
    | Lo, Lo => PVertex (c false false)
    | Hi, Lo => PVertex (c true false)
    | Lo, Hi => PVertex (c false true)
    | Hi, Hi => PVertex (c true true)
    | Mid, Lo => PEdge (c false false) (c true false) (i - 1) (px - 1 - i)
    | Mid, Hi => PEdge (c false true) (c true true) (i - 1) (px - 1 - i)
    | Lo, Mid => if is_tri (e_type x) then PVertex (c false false)
                 else PEdge (c false false) (c false true) (j - 1) (py - 1 - j)
    | Hi, Mid => PEdge (c true false) (c true true) (j - 1) (py - 1 - j)
    | Mid, Mid => PIn e [0; i; j]
    end.
  (** the segment from node (i, j) to node (i+1, j) *)
  Definition dx_place (comp i j : nat) : place :=
    match side_of j py with
    | Lo => PEdge (c false false) (c true false) i (px - 1 - i)
    | Hi => PEdge (c false true) (c true true) i (px - 1 - i)
    | Mid => PIn e [comp; i; j]
    end.
  (** row i of the segments in direction y; the segments on the collapsed side of a triangle do not exist *)
  Definition dy_place (comp i j : nat) : place :=
    match side_of (if is_tri (e_type x) then i + 1 else i) px with
    | Lo => PEdge (c false false) (c false true) j (py - 1 - j)
    | Hi => PEdge (c true false) (c true true) j (py - 1 - j)
    | Mid => PIn e [comp; i; j]
    end.
End Plane.

(** a kind of forms on a kind of meshes: which types of elements, the number of the local dof at a slot, and its place *)
Record kind := {
  k_turn : bool;
  k_prog : etype -> option program;
  k_types : etype -> bool;
  k_dof : etype -> slot -> option nat;
  k_place : nat -> elem -> slot -> place }.
Definition in_arrays (l : option (list arr)) (s : slot) : option nat :=
  match l, s with
  | Some l, c :: ix => match nth_error l c with Some a => aget a ix | None => None end
  | _, _ => None
  end.
Definition dof0 (px py : nat) (t : etype) (s : slot) : option nat :=
  if is_tri t then match s with 0 :: ix => ln_m2n2k0_tri px py ix | _ => None end
  else in_arrays (ln_m2n2k0 px py) s.
Definition dof1o (px py : nat) (t : etype) : slot -> option nat :=
  in_arrays (if is_tri t then ln_m2n2k1_outer_tri px py else ln_m2n2k1_outer px py).
Definition dof1i (px py : nat) (t : etype) : slot -> option nat :=
  in_arrays (if is_tri t then ln_m2n2k1_inner_tri px py else ln_m2n2k1_inner px py).
Definition at0 (px py e : nat) (x : elem) (s : slot) : place :=
  match s with [_; i; j] => node_place px py e x i j | _ => PIn e s end.
Definition at1o (px py e : nat) (x : elem) (s : slot) : place :=
  match s with
  | [0; i; j] => dy_place px py e x 0 i j
  | [1; i; j] => dx_place px py e x 1 i j
  | _ => PIn e s
  end.
Definition at1i (px py e : nat) (x : elem) (s : slot) : place :=
  match s with
  | [0; i; j] => dx_place px py e x 0 i j
  | [1; i; j] => dy_place px py e x 1 i j
  | _ => PIn e s
  end.
Definition flat_type (px py : nat) (t : etype) : bool := is_quad t || (is_tri t && (px =? py)).
Definition K0 (px py : nat) : kind :=
  {| k_turn := true; k_prog := prog_k0 px py; k_types := flat_type px py; k_dof := dof0 px py; k_place := at0 px py |}.
Definition K1o (px py : nat) : kind :=
  {| k_turn := true; k_prog := prog_k1o px py; k_types := fun t => is_quad t || is_tri t;
     k_dof := dof1o px py; k_place := at1o px py |}.
Definition K1i (px py : nat) : kind :=
  {| k_turn := true; k_prog := prog_k1i px py; k_types := fun t => is_quad t || is_tri t;
     k_dof := dof1i px py; k_place := at1i px py |}.
Definition K2 (px py : nat) : kind :=
  {| k_turn := true; k_prog := prog_k2 px py;
     k_types := fun t => match t with ECurvTri => false | _ => is_quad t || is_tri t end;
     k_dof := fun _ => in_arrays (ln_m2n2k2 px py); k_place := fun e _ s => PIn e s |}.

(** ** hexahedra: corner (x, y, z) is vertex x + 2 y + 4 z *)
Section Space.
  Context (px py pz : nat) (e : nat) (x : elem).
  Definition vertex3 (hx hy hz : bool) : nat :=
    nth (Nat.b2n hx + 2 * Nat.b2n hy + 4 * Nat.b2n hz) (e_map x) 0.
  (** the four vertices of a side of the element *)
  Definition face_x (h : bool) := [vertex3 h false false; vertex3 h true false; vertex3 h false true; vertex3 h true true].
  Definition face_y (h : bool) := [vertex3 false h false; vertex3 true h false; vertex3 false h true; vertex3 true h true].
  Definition face_z (h : bool) := [vertex3 false false h; vertex3 true false h; vertex3 false true h; vertex3 true true h].
  Definition end_of (s : side) : option bool := match s with Lo => Some false | Hi => Some true | Mid => None end.
  Definition node3 (i j k : nat) : place :=
    match end_of (side_of i px), end_of (side_of j py), end_of (side_of k pz) with
    | Some a, Some b, Some c => PVertex (vertex3 a b c)
    | None, Some b, Some c => PEdge (vertex3 false b c) (vertex3 true b c) (i - 1) (px - 1 - i)
    | Some a, None, Some c => PEdge (vertex3 a false c) (vertex3 a true c) (j - 1) (py - 1 - j)
    | Some a, Some b, None => PEdge (vertex3 a b false) (vertex3 a b true) (k - 1) (pz - 1 - k)
    | Some a, None, None => PFace (face_x a) [j - 1; k - 1]
    | None, Some b, None => PFace (face_y b) [i - 1; k - 1]
    | None, None, Some c => PFace (face_z c) [i - 1; j - 1]
    | None, None, None => PIn e [0; i; j; k]
    end.
  (** segments; in a face the segments of its first direction carry 0, of its second direction 1 *)
  Definition dx3 (i j k : nat) : place :=
    match end_of (side_of j py), end_of (side_of k pz) with
    | Some b, Some c => PEdge (vertex3 false b c) (vertex3 true b c) i (px - 1 - i)
    | Some b, None => PFace (face_y b) [0; i; k - 1]
    | None, Some c => PFace (face_z c) [0; i; j - 1]
    | None, None => PIn e [0; i; j; k]
    end.
  Definition dy3 (i j k : nat) : place :=
    match end_of (side_of i px), end_of (side_of k pz) with
    | Some a, Some c => PEdge (vertex3 a false c) (vertex3 a true c) j (py - 1 - j)
    | Some a, None => PFace (face_x a) [0; j; k - 1]
    | None, Some c => PFace (face_z c) [1; i - 1; j]
    | None, None => PIn e [1; i; j; k]
    end.
  Definition dz3 (i j k : nat) : place :=
    match end_of (side_of i px), end_of (side_of j py) with
    | Some a, Some b => PEdge (vertex3 a b false) (vertex3 a b true) k (pz - 1 - k)
    | Some a, None => PFace (face_x a) [1; j - 1; k]
    | None, Some b => PFace (face_y b) [1; i - 1; k]
    | None, None => PIn e [2; i; j; k]
    end.
  (** facets *)
  Definition facet3 (c i j k : nat) : place :=
    match c with
    | 0 => match end_of (side_of i px) with Some a => PFace (face_x a) [j; k] | None => PIn e [0; i; j; k] end
    | 1 => match end_of (side_of j py) with Some b => PFace (face_y b) [i; k] | None => PIn e [1; i; j; k] end
    | _ => match end_of (side_of k pz) with Some d => PFace (face_z d) [i; j] | None => PIn e [c; i; j; k] end
    end.
  Definition at3_0 (s : slot) : place := match s with [_; i; j; k] => node3 i j k | _ => PIn e s end.
  Definition at3_1 (s : slot) : place :=
    match s with
    | [0; i; j; k] => dx3 i j k
    | [1; i; j; k] => dy3 i j k
    | [2; i; j; k] => dz3 i j k
    | _ => PIn e s
    end.
  Definition at3_2 (s : slot) : place := match s with [c; i; j; k] => facet3 c i j k | _ => PIn e s end.
End Space.
Definition H0 (px py pz : nat) : kind :=
  {| k_turn := false; k_prog := prog_hex px py pz 0; k_types := is_hex;
     k_dof := fun _ => in_arrays (ln_m3n3k0 px py pz); k_place := at3_0 px py pz |}.
Definition H1 (px py pz : nat) : kind :=
  {| k_turn := false; k_prog := prog_hex px py pz 1; k_types := is_hex;
     k_dof := fun _ => in_arrays (ln_m3n3k1 px py pz); k_place := at3_1 px py pz |}.
Definition H2 (px py pz : nat) : kind :=
  {| k_turn := false; k_prog := prog_hex px py pz 2; k_types := is_hex;
     k_dof := fun _ => in_arrays (ln_m3n3k2 px py pz); k_place := at3_2 px py pz |}.
Definition H3 (px py pz : nat) : kind :=
  {| k_turn := false; k_prog := prog_hex px py pz 3; k_types := is_hex;
     k_dof := fun _ => in_arrays (ln_m3n3k3 px py pz); k_place := fun e _ s => PIn e s |}.

(** ** meshes *)
(** elements of the portion: known types, all the vertices given *)
Definition proper (K : kind) (es : list (nat * elem)) : Prop :=
  NoDup (map fst es) /\
  Forall (fun ex => e_in (snd ex) = true ->
            k_types K (e_type (snd ex)) = true /\ num_corners (e_type (snd ex)) <= length (e_map (snd ex))) es.
(** a position of the portion: local dof d of element e *)
Inductive position (K : kind) (es : list (nat * elem)) : nat -> nat -> place -> Prop :=
| position_at e x s d : In (e, x) es -> e_in x = true -> k_dof K (e_type x) s = Some d ->
                        position K es e d (k_place K e x s).
(** the number of local dof d of element e *)
Definition number_at (g : list (nat * list nat)) (e d n : nat) : Prop :=
  exists row, In (e, row) g /\ nth_error row d = Some n.
(** the edges of an element with the degree along them, its faces with the two degrees *)
Definition edges2 (px py : nat) (x : elem) : list (nat * nat * nat) :=
  let c := corner2 (e_type x) (e_map x) in
  [ (c false false, c true false, px); (c false true, c true true, px); (c true false, c true true, py) ]
  ++ if is_tri (e_type x) then [] else [ (c false false, c false true, py) ].
Definition edges3 (px py pz : nat) (x : elem) : list (nat * nat * nat) :=
  flat_map (fun b => flat_map (fun c =>
    [ (vertex3 x false b c, vertex3 x true b c, px);
      (vertex3 x b false c, vertex3 x b true c, py);
      (vertex3 x b c false, vertex3 x b c true, pz) ]) [false; true]) [false; true].
Definition faces3 (px py pz : nat) (x : elem) : list (list nat * (nat * nat)) :=
  flat_map (fun h => [ (face_x x h, (py, pz)); (face_y x h, (px, pz)); (face_z x h, (px, py)) ]) [false; true].
(** the degrees fit together: a shared edge has the same degree, a shared face the same degrees, in all its elements *)
Definition conforming_edges (turn : bool) (edges : elem -> list (nat * nat * nat)) (es : list (nat * elem)) : Prop :=
  forall e x e' x' a b n a' b' n', In (e, x) es -> In (e', x') es -> e_in x = true -> e_in x' = true ->
    In (a, b, n) (edges x) -> In (a', b', n') (edges x') ->
    (a, b) = (a', b') \/ (turn = true /\ (a, b) = (b', a')) -> n = n'.
Definition conforming_faces (faces : elem -> list (list nat * (nat * nat))) (es : list (nat * elem)) : Prop :=
  forall e x e' x' f n n', In (e, x) es -> In (e', x') es -> e_in x = true -> e_in x' = true ->
    In (f, n) (faces x) -> In (f, n') (faces x') -> n = n'.
(** g numbers the positions of the mesh with 0 .. M-1: the entries of its rows are the positions, two
    positions have one number exactly if they are the same place, and no number is left out *)
Record numbers (K : kind) (es : list (nat * elem)) (g : list (nat * list nat)) (M : nat) : Prop := {
  nb_names : map fst g = map fst es;
  nb_rows : forall e d n, number_at g e d n -> exists p, position K es e d p;
  nb_total : forall e d p, position K es e d p -> exists n, number_at g e d n /\ n < M;
  nb_same : forall e d p e' d' p' n n', position K es e d p -> position K es e' d' p' ->
              number_at g e d n -> number_at g e' d' n' -> (n = n' <-> same (k_turn K) p p');
  nb_onto : forall n, n < M -> exists e d p, position K es e d p /\ number_at g e d n }.
