(** Model of the triangular refining of quadrilateral meshes (2-D):
    msehtt/static/mesh/great/config/msehtt_trf.py, msepy_trf.py (same functions over a msepy mesh) and trf.py.
    Exceptions are None.  Reference coordinates are exact (Qc): they are dyadic numbers, which the floats of the code
    represent without rounding (bisections of [-1,1]).  An element index of the base mesh and a node number is an integer.
    Dictionaries over elements are lists in their order: every list of elements made by the code has no repetition
    (proved in the theorem files).  Not modelled: the dictionaries of types and parameters beyond the vertices given to them
    (_finalize_m2n2_, lines 60-111), elements of dimension 3 (NotImplementedError everywhere), MPI. *)
From Coq Require Import List ZArith QArith Qcanon Bool.
Import ListNotations.
Local Open Scope Qc_scope.

Notation pt := (Qc * Qc)%type.
Definition qeqb (a b : Qc) : bool := if Qc_eq_dec a b then true else false.
Definition qleb (a b : Qc) : bool := if Qclt_le_dec b a then false else true.
Definition half : Qc := Q2Qc (1 # 2).

(** the four triangles of a quadrilateral, and the two triangles of a triangle: msehtt_trf.py 259-277, 304-307;
    msepy_trf.py 373-395.  h0 is the path entry 0 (edge #0), h2 the entry 2 (edge #2) *)
Inductive side := North | West | East | South.
Inductive half_id := h0 | h2.
(** element indices: e, or (e, 'N', 0, 2, ...) *)
Inductive elem := Base (e : Z) | Tri (e : Z) (s : side) (p : list half_id).

Definition side_eq_dec (a b : side) : {a = b} + {a <> b}. Proof. decide equality. Defined.
Definition half_eq_dec (a b : half_id) : {a = b} + {a <> b}. Proof. decide equality. Defined.
Definition elem_eq_dec (a b : elem) : {a = b} + {a <> b}.
Proof. decide equality; auto using Z.eq_dec, side_eq_dec, (list_eq_dec half_eq_dec). Defined.
Definition emem (x : elem) (l : list elem) : bool := if in_dec elem_eq_dec x l then true else false.

(** _parse_ref_vortices_of_triangle_element_: msehtt_trf.py 559-629, msepy_trf.py 516-589 *)
Definition verts0 (s : side) : pt * pt * pt :=
  match s with
  | North => ((0, 0), (-(1), 1), (-(1), -(1)))
  | South => ((0, 0), (1, -(1)), (1, 1))
  | West => ((0, 0), (-(1), -(1)), (1, -(1)))
  | East => ((0, 0), (1, 1), (-(1), 1))
  end.
Definition mid (a b : pt) : pt := ((fst a + fst b) * half, (snd a + snd b) * half).
Definition split_verts (v : pt * pt * pt) (h : half_id) : pt * pt * pt :=
  match v with (v0, v1, v2) =>
    match h with
    | h0 => (mid v1 v2, v0, v1)
    | h2 => (mid v1 v2, v2, v0)
    end
  end.
Definition verts (s : side) (p : list half_id) : pt * pt * pt := fold_left split_verts p (verts0 s).

(** element maps of the base mesh: a quadrilateral stores its four nodes; msehtt quadrilaterals go round
    (0 NW, 1 SW, 2 SE, 3 NE: msehtt_trf.py 513-520), msepy ones go row by row (0 NW, 1 SW, 2 NE, 3 SE: msepy_trf.py 265-272) *)
Inductive flavour := Msehtt | Msepy.
Record quad := mkq { q0 : Z; q1 : Z; q2 : Z; q3 : Z }.
Definition nw (fl : flavour) (q : quad) : Z := q0 q.
Definition sw (fl : flavour) (q : quad) : Z := q1 q.
Definition se (fl : flavour) (q : quad) : Z := match fl with Msehtt => q2 q | Msepy => q3 q end.
Definition ne (fl : flavour) (q : quad) : Z := match fl with Msehtt => q3 q | Msepy => q2 q end.
Notation mesh := (list (Z * quad)).
Definition get (M : mesh) (e : Z) : option quad :=
  match find (fun x => Z.eqb (fst x) e) M with Some x => Some (snd x) | None => None end.

(** node indicators: a number, or a tuple of three.  (n, n', t) on faces and (e, x, y) inside are the same kind of tuple *)
Inductive ind := Nd (n : Z) | Tup (a : Z) (b c : Qc).
Definition ind_eq_dec (a b : ind) : {a = b} + {a <> b}.
Proof. decide equality; auto using Z.eq_dec, Qc_eq_dec. Defined.
Definition q_of (n : Z) : Qc := Q2Qc (inject_Z n).
Definition on_face (n n' : Z) (t : Qc) : ind := Tup (Z.min n n') (q_of (Z.max n n')) t.

(** the indicator of a vertex: msehtt_trf.py 511-540, msepy_trf.py 263-292 *)
Definition indicator (fl : flavour) (q : quad) (e : Z) (v : pt) : ind :=
  let (x, y) := v in
  if qeqb x (-(1)) && qeqb y (-(1)) then Nd (nw fl q)
  else if qeqb x 1 && qeqb y (-(1)) then Nd (sw fl q)
  else if qeqb x (-(1)) && qeqb y 1 then Nd (ne fl q)
  else if qeqb x 1 && qeqb y 1 then Nd (se fl q)
  else if qeqb x (-(1)) then on_face (nw fl q) (ne fl q) y
  else if qeqb x 1 then on_face (sw fl q) (se fl q) y
  else if qeqb y (-(1)) then on_face (nw fl q) (sw fl q) x
  else if qeqb y 1 then on_face (ne fl q) (se fl q) x
  else Tup e x y.

(** _make_element_map_m2n2_: MAP (msehtt_trf.py 500-544) *)
Definition inds (fl : flavour) (M : mesh) (x : elem) : option (list ind) :=
  match x with
  | Base e => match get M e with Some q => Some (map Nd [q0 q; q1 q; q2 q; q3 q]) | None => None end
  | Tri e s p =>
      match get M e with
      | Some q => match verts s p with (v0, v1, v2) => Some (map (indicator fl q e) [v0; v1; v2]) end
      | None => None
      end
  end.
Fixpoint traverse {A B} (f : A -> option B) (l : list A) : option (list B) :=
  match l with
  | [] => Some []
  | a :: l => match f a, traverse f l with Some b, Some r => Some (b :: r) | _, _ => None end
  end.
(** numbering by first appearance (546-554): the number of an indicator is its place in the table *)
Definition enter (tab : list ind) (i : ind) : list ind := if in_dec ind_eq_dec i tab then tab else tab ++ [i].
Definition table (L : list (list ind)) : list ind := fold_left enter (concat L) [].
Fixpoint place (tab : list ind) (i : ind) : nat :=
  match tab with [] => O | j :: tab => if ind_eq_dec i j then O else S (place tab i) end.
Definition make_map (fl : flavour) (M : mesh) (els : list elem) : option (list (elem * list nat)) :=
  match traverse (inds fl M) els with
  | Some L => Some (combine els (map (map (place (table L))) L))
  | None => None
  end.

(** _parse_boundary_faces_of_a_patch_of_elements_ (632-716) for quadrilaterals: the faces whose two nodes occur once.
    face_setting: 0 (N): (0,3), 1 (S): (1,2), 2 (W): (0,1), 3 (E): (3,2) (vtu_9_quad.py 198-206) *)
Definition face (fl : flavour) (q : quad) (s : side) : Z * Z :=
  match s with
  | North => (nw fl q, ne fl q)
  | South => (sw fl q, se fl q)
  | West => (nw fl q, sw fl q)
  | East => (ne fl q, se fl q)
  end.
Definition undirected (f : Z * Z) : Z * Z := (Z.min (fst f) (snd f), Z.max (fst f) (snd f)).
Definition zzeqb (a b : Z * Z) : bool := Z.eqb (fst a) (fst b) && Z.eqb (snd a) (snd b).
Definition all_sides := [North; South; West; East].
Definition all_faces (M : mesh) : list (Z * side * (Z * Z)) :=
  flat_map (fun x => map (fun s => (fst x, s, undirected (face Msehtt (snd x) s))) all_sides) M.
Definition boundary_faces (M : mesh) : list (Z * side) :=
  map fst (filter (fun f => Nat.eqb (length (filter (fun g => zzeqb (snd f) (snd g)) (all_faces M))) 1) (all_faces M)).
Definition on_boundary (bd : list (Z * side)) (e : Z) (s : side) : bool :=
  existsb (fun x => Z.eqb (fst x) e && if side_eq_dec (snd x) s then true else false) bd.

(** elements_facing_boundary (msehtt_trf.py 438-469, msepy_trf.py 330-358) *)
Definition faces_boundary (bd : list (Z * side)) (x : elem) : bool :=
  match x with
  | Base _ => false
  | Tri e s p =>
      match verts s p with (_, (x1, y1), (x2, y2)) =>
        if qeqb x1 x2 && qeqb x2 (-(1)) then on_boundary bd e North
        else if qeqb x1 x2 && qeqb x2 1 then on_boundary bd e South
        else if qeqb y1 y2 && qeqb y2 (-(1)) then on_boundary bd e West
        else if qeqb y1 y2 && qeqb y2 1 then on_boundary bd e East
        else false
      end
  end.

(** bottom_edge_positions (471-485): sorted numbers of the nodes 1 and 2 -> triangles *)
Definition sorted2 (a b : nat) : nat * nat := (Nat.min a b, Nat.max a b).
Definition bottom (ns : list nat) : nat * nat := sorted2 (nth 1 ns O) (nth 2 ns O).
Definition nneqb (a b : nat * nat) : bool := Nat.eqb (fst a) (fst b) && Nat.eqb (snd a) (snd b).
Notation bottoms := (list ((nat * nat) * list elem)).
Fixpoint insert_bottom (B : bottoms) (k : nat * nat) (x : elem) : bottoms :=
  match B with
  | [] => [(k, [x])]
  | (k', l) :: B => if nneqb k k' then (k', l ++ [x]) :: B else (k', l) :: insert_bottom B k x
  end.
Definition is_tri (x : elem) : bool := match x with Tri _ _ _ => true | Base _ => false end.
Definition bottom_positions (m : list (elem * list nat)) : bottoms :=
  fold_left (fun B x => if is_tri (fst x) then insert_bottom B (bottom (snd x)) (fst x) else B) m [].

(** _find_refined_able_pairs_m2n2_ (488-506) *)
Fixpoint pairs_of (B : bottoms) : option (list (elem * elem) * list elem) :=
  match B with
  | [] => Some ([], [])
  | (_, l) :: B =>
      match pairs_of B with
      | None => None
      | Some (P, single) =>
          match l with
          | [a] => Some (P, a :: single)
          | [a; b] => Some ((a, b) :: (b, a) :: P, single)
          | _ => None
          end
      end
  end.
Definition find_pairs (fl : flavour) (M : mesh) (bd : list (Z * side)) (els : list elem)
  : option (list (elem * elem) * list elem) :=
  match make_map fl M els with
  | None => None
  | Some m =>
      let facing := filter (faces_boundary bd) els in
      match pairs_of (bottom_positions m) with
      | None => None
      | Some (P, single) => if forallb (fun x => emem x single) facing then Some (P, facing) else None
      end
  end.
Definition partner (P : list (elem * elem)) (x : elem) : option elem :=
  match find (fun y => if elem_eq_dec (fst y) x then true else false) P with Some y => Some (snd y) | None => None end.

(** what the refining function returns: a number, a list of numbers, or something else that can be compared (an array) *)
Inductive value := VNum (q : Qc) | VList (l : list Qc) | VArr (q : Qc).
(** the check in msehtt_trf.py 385-391; the msepy version (msepy_trf.py 486) compares at once *)
Definition checked (fl : flavour) (v : value) : option Qc :=
  match fl, v with
  | _, VNum q => Some q
  | Msehtt, VList [q] => Some q
  | Msehtt, VList _ => None
  | Msehtt, VArr _ => None
  | Msepy, VArr q => Some q
  | Msepy, VList _ => None
  end.
(** _level_one_refining_m2n2_ (178-247), msepy _level_one_refining_: rfv >= rft0; a list cannot be compared *)
Definition compared (v : value) : option Qc :=
  match v with VNum q => Some q | VArr q => Some q | VList _ => None end.
Definition level_one (M : mesh) (val : elem -> value) (t : Qc) : option (list elem) :=
  match traverse (fun x => match compared (val (Base (fst x))) with Some v => Some (Base (fst x), qleb t v) | None => None end) M with
  | Some L => Some (map fst (filter snd L))
  | None => None
  end.
(** _parse_level_one_elements_m2n2_ (259-290) and _parse_level_elements_m2n2_ (304-318); msepy: _parse_level_elements_ *)
Definition split_one (R : list elem) (els : list elem) : list elem :=
  flat_map (fun x => if emem x R then
      match x with Base e => [Tri e North []; Tri e West []; Tri e East []; Tri e South []] | Tri _ _ _ => [x] end else [x]) els.
Definition split_high (R : list elem) (els : list elem) : list elem :=
  flat_map (fun x => if emem x R then
      match x with Tri e s p => [Tri e s (p ++ [h2]); Tri e s (p ++ [h0])] | Base _ => [x] end else [x]) els.

(** _level_high_refining_m2n2_ (332-414), _level_high_refining_ (msepy_trf.py 448-507) *)
Definition high_step (fl : flavour) (P : list (elem * elem)) (facing : list elem) (val : elem -> value) (t : Qc)
  (acc : option (list elem)) (x : elem) : option (list elem) :=
  match acc with
  | None => None
  | Some R =>
      if emem x R then Some R
      else if negb (is_tri x) then Some R
      else match partner P x with
           | Some y => match checked fl (val x) with
                       | None => None
                       | Some v => if qleb t v then Some (R ++ [x; y]) else Some R
                       end
           | None => if emem x facing then
                       match checked fl (val x) with
                       | None => None
                       | Some v => if qleb t v then Some (R ++ [x]) else Some R
                       end
                     else Some R
           end
  end.
Fixpoint nodupb (l : list elem) : bool := match l with [] => true | x :: l => negb (emem x l) && nodupb l end.
Definition level_high (fl : flavour) (M : mesh) (bd : list (Z * side)) (val : elem -> value) (t : Qc) (els : list elem)
  : option (list elem) :=
  match find_pairs fl M bd els with
  | None => None
  | Some (P, facing) =>
      match fold_left (high_step fl P facing val t) els (Some []) with
      | None => None
      | Some R => if nodupb R then Some R else None
      end
  end.
Fixpoint high_levels (fl : flavour) (M : mesh) (bd : list (Z * side)) (val : elem -> value) (ts : list Qc) (els : list elem)
  : option (list elem) :=
  match ts with
  | [] => Some els
  | t :: ts =>
      match level_high fl M bd val t els with
      | None => None
      | Some R => high_levels fl M bd val ts (split_high R els)
      end
  end.
(** _refining_ (114-166) given the boundary faces *)
Definition refine (fl : flavour) (M : mesh) (bd : list (Z * side)) (val : elem -> value) (ts : list Qc) : option (list elem) :=
  match ts with
  | [] => None
  | t :: ts =>
      match level_one M val t with
      | None => None
      | Some R => high_levels fl M bd val ts (split_one R (map (fun x => Base (fst x)) M))
      end
  end.
(** with the module-level cache of the boundary faces (13-15, 420-436, 164): it is filled by the first call of
    _find_refined_able_pairs_m2n2_ and emptied only at the end of _refining_ *)
Definition run (M : mesh) (val : elem -> value) (ts : list Qc) (cache : option (list (Z * side)))
  : option (list elem) * option (list (Z * side)) :=
  let bd := match cache with Some b => b | None => boundary_faces M end in
  match refine Msehtt M bd val ts with
  | Some els => (Some els, None)
  | None =>
      match ts with
      | t :: _ :: _ => match level_one M val t with Some _ => (None, Some bd) | None => (None, cache) end
      | _ => (None, cache)
      end
  end.

(** _parse_trf for integers (msepy_trf.py 71-85): thresholds of trf = k *)
Definition thresholds (k : nat) : list Qc := match k with O => [q_of 10] | _ => repeat 0 k end.
(** the default refining function np.ones_like: an array for one point ('center'); the maximum over points ('middle') is a number *)
Inductive rcm := Center | Middle.
Definition default_value (c : rcm) : value := match c with Center => VArr 1 | Middle => VNum 1 end.

(** the points where the refining function is evaluated in a triangle: _parse_triangle_ref_center_coo_ (719-749),
    _parse_triangle_ref_mean_coo_ (752-781) *)
Definition third : Qc := Q2Qc (1 # 3).
Definition tri_center (v : pt * pt * pt) : pt :=
  match v with (v0, v1, v2) =>
    let b := mid v1 v2 in
    (fst b + (fst v0 - fst b) * third, snd b + (snd v0 - snd b) * third) end.
Definition tri_points (v : pt * pt * pt) : list pt :=
  match v with (v0, v1, v2) => [v0; v1; v2; tri_center v; mid v1 v2; mid v0 v1; mid v0 v2] end.

(** Vtu9Quad._find_mapping_ (vtu_9_quad.py 106-126): the bilinear map with the corners A B C D at (-1,-1) (1,-1) (1,1) (-1,1);
    ___invA___ expands its values at the corners (vtu_9_quad.py 13-19) *)
Definition bilinear (A B C D : pt) (v : pt) : pt :=
  let r := (fst v + 1) * half in let s := (snd v + 1) * half in
  let f := fun (a b c d : Qc) => a + (b - a) * r + (d - a) * s + (a - b + c - d) * r * s in
  (f (fst A) (fst B) (fst C) (fst D), f (snd A) (snd B) (snd C) (snd D)).

(** the map of a triangle in a curvilinear quadrilateral: ___TCTinUQ___ (793-834), T = [xi; et; 1] @ ___invA___ *)
Definition quarter : Qc := Q2Qc (1 # 4).
Definition tct_row (a b c : Qc) : Qc * Qc * Qc :=
  (- half * a + quarter * b + quarter * c, - half * b + half * c, half * a + quarter * b + quarter * c).
Definition tct_point (v : pt * pt * pt) (xi et : Qc) : pt :=
  match v with (v0, v1, v2) =>
    let s := et * (xi + 1) * half in
    let f := fun (T : Qc * Qc * Qc) => match T with (t0, t1, t2) => t0 * xi + t1 * s + t2 end in
    (f (tct_row (fst v0) (fst v1) (fst v2)), f (tct_row (snd v0) (snd v1) (snd v2))) end.

(** TriQuadRegions / MseHtt_TQR_config.___qtr_ts___ (tqr.py 154-250), element maps only: node labels before renumbering *)
Inductive label := Old (n : Z) | Mid2 (a b : Z) | Ctr (l : list Z).
Inductive region := RTri (a b c : Z) | RQuad (a b c d : Z).
Definition mid2 (a b : Z) : label := Mid2 (Z.min a b) (Z.max a b).
Definition quads_of (r : region) : list (label * label * label * label) :=
  match r with
  | RTri a b c =>
      [(Old a, mid2 a b, Ctr [a; b; c], mid2 a c); (Old b, mid2 b c, Ctr [a; b; c], mid2 a b);
       (Old c, mid2 a c, Ctr [a; b; c], mid2 b c)]
  | RQuad a b c d =>
      let m := Ctr [a; b; c; d] in
      [(Old a, mid2 a b, m, mid2 d a); (mid2 a b, Old b, mid2 b c, m); (m, mid2 b c, Old c, mid2 c d);
       (mid2 d a, m, mid2 c d, Old d)]
  end.
