(** Model of the search for faces whose dofs have opposite directions in the two
    elements, and of the reversal of these dofs.

    /repo/msehtt/static/mesh/great/elements/main.py 456-720 (search, choice of the
    element whose dofs are reversed, [_dof_reverse_info]),
    /repo/msehtt/static/mesh/great/elements/types/*.py (face_setting),
    /repo/msehtt/static/mesh/great/elements/types/base.py 262-300 (basis functions),
    /repo/msehtt/static/space/reduce/Lambda/Rd_m2n2k1.py 109-132, 185-209, 308-331, 384-408 (cochains).

    A float is a real number.  The dictionaries pool_position, pool_value and
    pool_gm have the same keys at all times and are one list in order of
    insertion.  The reduction of the test field and the numbering are given with
    each element.  Left out: MPI (all the elements are on one rank). *)
From Coq Require Import List Arith ZArith Reals Bool.
From Verif Require Import MappingModel PolyModel FaceModel.
Import ListNotations.

(** values of [_etype()] in 2-d; a pixel (8) is an orthogonal rectangle here (586-588) *)
Inductive etype := Rectangle | MsepyQuad | Quad9 | CurvedQuad | MsepyTriangle | Triangle5 | CurvedTriangle.
Scheme Equality for etype.
Inductive form := Inner | Outer.

(** [face_setting()]: orthogonal_rectangle.py 111-118, unique_msepy_curvilinear_quadrilateral.py 114-121,
    vtu_9_quad.py 199-206, unique_curvilinear_quad.py 122-129, vtu_5_triangle.py 127-133,
    unique_msepy_curvilinear_triangle.py 134-140, unique_curvilinear_triangle.py 149-155 *)
Definition face_setting (t : etype) : list (nat * nat) :=
  match t with
  | Rectangle | MsepyQuad => [(0, 2); (1, 3); (0, 1); (2, 3)]
  | Quad9 | CurvedQuad => [(0, 3); (1, 2); (0, 1); (3, 2)]
  | MsepyTriangle | Triangle5 | CurvedTriangle => [(0, 1); (1, 2); (0, 2)]
  end.
(** face_cochain_indices, 520-528 and 556-564 *)
Definition cochain_indices (k : form) (t : etype) : list nat :=
  match k, t with
  | Inner, (MsepyTriangle | Triangle5 | CurvedTriangle) => [0; 2; 1]
  | Inner, _ => [2; 3; 0; 1]
  | Outer, (MsepyTriangle | Triangle5 | CurvedTriangle) => [1; 0; 2]
  | Outer, _ => [0; 1; 2; 3]
  end.
(** priority, 530-536 and 566-572 *)
Definition priority_list : list etype := [Quad9; CurvedQuad; MsepyTriangle; Triangle5; CurvedTriangle].
Fixpoint index_of (t : etype) (l : list etype) : option nat :=
  match l with
  | [] => None
  | x :: r => if etype_beq x t then Some 0 else option_map S (index_of t r)
  end.
(** 646-653 *)
Definition priority (t : etype) : Z := match index_of t priority_list with Some i => Z.of_nat i | None => (-1)%Z end.

(** one element: index, type, vertices, reduction of the test field and numbering for degree 1 *)
Record element := { e_id : nat; e_type : etype; e_map : list nat; e_cochain : list R; e_gm : list nat }.
Notation position := (etype * nat * nat)%type.     (* type, element, face *)
Record entry := { n_key : nat * nat; n_pos : list position; n_val : list R; n_gm : nat }.
Notation pool := (list entry).

(** face_nodes.sort() of two vertices *)
Definition sort2 (a b : nat) : nat * nat := if a <=? b then (a, b) else (b, a).
Definition key_eqb (x y : nat * nat) : bool := (fst x =? fst y) && (snd x =? snd y).

(** 606-625: one face is put into the pools; None is the failing assertion *)
Fixpoint add_face (p : pool) (key : nat * nat) (pos : position) (v : R) (g : nat) : option pool :=
  match p with
  | [] => Some [{| n_key := key; n_pos := [pos]; n_val := [v]; n_gm := g |}]
  | x :: r => if key_eqb (n_key x) key
              then if g =? n_gm x
                   then Some ({| n_key := n_key x; n_pos := n_pos x ++ [pos]; n_val := n_val x ++ [v]; n_gm := n_gm x |} :: r)
                   else None
              else option_map (cons x) (add_face r key pos v g)
  end.
(** 594-605: the places of one face; None is an IndexError *)
Definition face_data (k : form) (e : element) (f : nat) : option (nat * nat * R * nat) :=
  match nth_error (face_setting (e_type e)) f, nth_error (cochain_indices k (e_type e)) f with
  | Some (a, b), Some c =>
      match nth_error (e_map e) a, nth_error (e_map e) b, nth_error (e_cochain e) c, nth_error (e_gm e) c with
      | Some na, Some nb, Some v, Some g => Some (sort2 na nb, v, g)
      | _, _, _, _ => None
      end
  | _, _ => None
  end.
Fixpoint add_faces (k : form) (e : element) (fs : list nat) (p : pool) : option pool :=
  match fs with
  | [] => Some p
  | f :: r => match face_data k e f with
              | Some (key, v, g) => match add_face p key (e_type e, e_id e, f) v g with
                                    | Some p' => add_faces k e r p'
                                    | None => None
                                    end
              | None => None
              end
  end.
(** 585-625: [for e in gm] *)
Fixpoint add_elements (k : form) (m : list element) (p : pool) : option pool :=
  match m with
  | [] => Some p
  | e :: r => match add_faces k e (seq 0 (length (cochain_indices k (e_type e)))) p with
              | Some p' => add_elements k r p'
              | None => None
              end
  end.

(** np.isclose with the default tolerances *)
Definition isclose (a b : R) : bool :=
  if Rle_dec (Rabs (a - b)) (1 / 10 ^ 8 + 1 / 10 ^ 5 * Rabs b) then true else false.
(** 629-676: what is reversed for one face of the pool *)
Definition judge (x : entry) : option (list (nat * nat)) :=
  match n_pos x with
  | [_] => Some []
  | [(t0, e0, f0); (t1, e1, f1)] =>
      match n_val x with
      | [v0; v1] =>
          if isclose v0 v1 then Some []
          else if isclose v0 (- v1)
               then if (priority t0 =? priority t1)%Z && (priority t1 =? -1)%Z then None
                    else if (priority t1 <=? priority t0)%Z then Some [(e0, f0)] else Some [(e1, f1)]
               else None
      | _ => None
      end
  | _ => None
  end.
Fixpoint judge_all (p : pool) : option (list (nat * nat)) :=
  match p with
  | [] => Some []
  | x :: r => match judge x, judge_all r with Some a, Some b => Some (a ++ b) | _, _ => None end
  end.
(** ___get_form_face_dof_topology_mismatch_m2n2k1___ *)
Definition mismatch (k : form) (m : list element) : option (list (nat * nat)) :=
  match add_elements k m [] with Some p => judge_all p | None => None end.

(** 493-508: [_dof_reverse_info[indicator]] of one element; [] is a missing key *)
Fixpoint insert (x : nat) (l : list nat) : list nat :=
  match l with
  | [] => [x]
  | y :: r => if x <=? y then x :: l else y :: insert x r
  end.
Definition sort (l : list nat) : list nat := fold_right insert [] l.
Definition reverse_info (l : list (nat * nat)) (e : nat) : list nat :=
  sort (map snd (filter (fun p => fst p =? e) l)).

(** * the dofs of a face of one element of a degree, by component: find_local_dofs_on_face *)
Definition face_dofs (k : form) (t : etype) (px py f : nat) : option (list nat) :=
  match k, t with
  | Outer, (Rectangle | MsepyQuad | Quad9 | CurvedQuad) => htt_m2n2k1_outer px py f
  | Outer, (Triangle5 | MsepyTriangle) => htt_m2n2k1_outer_tri px py f
  | Inner, (Rectangle | MsepyQuad | Quad9 | CurvedQuad) => htt_m2n2k1_inner px py f
  | Inner, (Triangle5 | MsepyTriangle) => htt_m2n2k1_inner_tri px py f
  | _, CurvedTriangle => None
  end.
Definition face_dofs_cw (k : form) (t : etype) (px py f : nat) : option (nat * list nat) :=
  match k, t with
  | Outer, (Rectangle | MsepyQuad | Quad9 | CurvedQuad) => htt_m2n2k1_outer_cw px py f
  | Outer, (Triangle5 | MsepyTriangle) => htt_m2n2k1_outer_tri_cw px py f
  | Inner, (Rectangle | MsepyQuad | Quad9 | CurvedQuad) => htt_m2n2k1_inner_cw px py f
  | Inner, (Triangle5 | MsepyTriangle) => htt_m2n2k1_inner_tri_cw px py f
  | _, CurvedTriangle => None
  end.

(** [c[dofs] = - c[dofs]] on an array *)
Definition negate_at (dofs : list nat) (c : nat -> R) : nat -> R :=
  fun i => if existsb (Nat.eqb i) dofs then (- c i)%R else c i.
(** Rd_m2n2k1.py 116-128 and alike: the two components are changed in place, face after face *)
Fixpoint reverse_cochain (k : form) (t : etype) (px py : nat) (fs : list nat) (c : (nat -> R) * (nat -> R))
  : option ((nat -> R) * (nat -> R)) :=
  match fs with
  | [] => Some c
  | f :: r => match face_dofs_cw k t px py f with
              | Some (0, dofs) => reverse_cochain k t px py r (negate_at dofs (fst c), snd c)
              | Some (1, dofs) => reverse_cochain k t px py r (fst c, negate_at dofs (snd c))
              | _ => None
              end
  end.
(** base.py 268-296: [bf0 = bf[0].copy(); bf0[dofs, :] = - bf[0][dofs, :]], at one point *)
Definition copy_negated (dofs : list nat) (orig c : nat -> R) : nat -> R :=
  fun i => if existsb (Nat.eqb i) dofs then (- orig i)%R else c i.
Fixpoint reverse_basis (k : form) (t : etype) (px py : nat) (fs : list nat) (orig c : (nat -> R) * (nat -> R))
  : option ((nat -> R) * (nat -> R)) :=
  match fs with
  | [] => Some c
  | f :: r => match face_dofs_cw k t px py f with
              | Some (0, dofs) => reverse_basis k t px py r orig (copy_negated dofs (fst orig) (fst c), snd c)
              | Some (1, dofs) => reverse_basis k t px py r orig (fst c, copy_negated dofs (snd orig) (snd c))
              | _ => None
              end
  end.

(** * what is made of the two components *)
Definition tri (t : etype) : bool := match t with MsepyTriangle | Triangle5 | CurvedTriangle => true | _ => false end.
Definition faces_number (t : etype) : nat := if tri t then 3 else 4.
(** number of dofs of the first component: Rc_m2n2k1.py 54 and 96 (inner), 179 and 234 (outer) *)
Definition first_size (k : form) (t : etype) (px py : nat) : nat :=
  match k with Inner => px * (py + 1) | Outer => if tri t then px * py else (px + 1) * py end.
(** np.concatenate of the two components (Rd_m2n2k1.py 132); the slices of Rc_m2n2k1.py 55-56 are its inverse *)
Definition join (n0 : nat) (c : (nat -> R) * (nat -> R)) (i : nat) : R := if i <? n0 then fst c i else snd c (i - n0).
(** Rc_m2n2k1.py 61-62 at one point: [np.einsum('ij, i -> j', bfs[0], local_0)], the sum over the dofs of one component *)
Definition component (n0 nd : nat) (second : bool) (b c : (nat -> R) * (nat -> R)) : R :=
  np_sum nd (fun i => if Bool.eqb (n0 <=? i) second then (join n0 c i * join n0 b i)%R else 0%R).
(** MM_m2n2k1.py 166-203 (outer) and 358-395 (inner): entry (i, j) of the four blocks; [w a b] are the weights times the metric
    of block (a, b), [b q] the basis functions at point q *)
Definition mass_entry (n0 Q : nat) (w : bool -> bool -> nat -> R) (b : nat -> (nat -> R) * (nat -> R)) (i j : nat) : R :=
  np_sum Q (fun q => (w (n0 <=? i)%nat (n0 <=? j)%nat q * join n0 (b q) i * join n0 (b q) j)%R).
