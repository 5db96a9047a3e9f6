(** The global dofs of one form that lie on each global dof of another form.

    Cites /repo/msehtt/multigrid/mesh/great/dof_correspondence/global_.py, function
    ___globalDofCorresponding__computer___ (49-253) and its helpers (256-289).  A rank
    hands in the pairs (global dof, geometry) in the order in which the loops over its
    elements and their local dofs meet them.  Dicts are association lists in the order
    of insertion; an exception is [None]. *)
From Coq Require Import List Arith ZArith Bool.
From Verif Require Import AxisModel.
Import ListNotations.

(** What the geometries offer: ==, whether_contain__input__as_a_part_of_same_type,
    ___possible_subset_group_key___ (if the class has it), ==  on keys, and
    is_equal_to_a_union_of_a_part_of_separate_geometries_of_same_type. *)
Record geometry (G K : Type) := mkGeometry {
  g_eq : G -> G -> bool;
  g_contain : G -> G -> bool;
  g_key : option (G -> K);
  g_keyeq : K -> K -> bool;
  g_union : G -> list G -> option bool }.
Arguments g_eq {G K}. Arguments g_contain {G K}. Arguments g_key {G K}.
Arguments g_keyeq {G K}. Arguments g_union {G K}.

Section Computer.
  Context {G K : Type} (X : geometry G K).

  Notation dict := (list (nat * list G)).

  Fixpoint dget {V} (d : list (nat * V)) (k : nat) : option V :=
    match d with
    | [] => None
    | (k', v) :: r => if k =? k' then Some v else dget r k
    end.

  (** d[k] = v for a key that is there *)
  Fixpoint dput {V} (d : list (nat * V)) (k : nat) (v : V) : list (nat * V) :=
    match d with
    | [] => []
    | (k', v') :: r => if k =? k' then (k', v) :: r else (k', v') :: dput r k v
    end.

  Definition ddel {V} (d : list (nat * V)) (k : nat) : list (nat * V) :=
    filter (fun e => negb (fst e =? k)) d.

  (** ___geo_in_geometries___ (256-263) *)
  Definition geo_in (geo : G) (geometries : list G) : bool := existsb (fun GEO => g_eq X geo GEO) geometries.

  (** ___geo_is_a_part_of_one_in_geometries___ (276-289) *)
  Definition geo_part (geo : G) (geometries : list G) : bool := existsb (fun GEO => g_contain X GEO geo) geometries.

  (** ___there_is_a_geo_in_geometries1_that_is_a_part_of_one_in_geometries0___ (266-273) *)
  Definition some_part (geometries0 geometries1 : list G) : bool :=
    existsb (fun geo => geo_part geo geometries0) geometries1.

  (** 51-64 and 66-79: the geometries of the dofs of one rank *)
  Definition rank_step (d : dict) (e : nat * G) : dict :=
    match dget d (fst e) with
    | Some gs => if geo_in (snd e) gs then d else dput d (fst e) (gs ++ [snd e])
    | None => d ++ [(fst e, [snd e])]
    end.
  Definition rank_geos (l : list (nat * G)) : dict := fold_left rank_step l [].

  (** 81-102: those of form 0, gathered on the master rank *)
  Definition fresh_geos (gs new : list G) : list G := filter (fun ng => negb (geo_in ng gs)) new.
  Definition gather0_step (d : dict) (e : nat * list G) : dict :=
    match dget d (fst e) with
    | Some gs => dput d (fst e) (gs ++ fresh_geos gs (snd e))
    | None => d ++ [e]
    end.
  Definition gather0 (ranks : list dict) : dict := fold_left (fun d r => fold_left gather0_step r d) ranks [].

  (** 106-127: those of form 1.  DOF_GEO_1[dof] and DOF_GEO_1_COPY[dof] are one list,
      which is extended twice. *)
  Definition gather1_step (d : dict) (e : nat * list G) : dict :=
    match dget d (fst e) with
    | Some gs => dput d (fst e) ((gs ++ fresh_geos gs (snd e)) ++ fresh_geos gs (snd e))
    | None => d ++ [e]
    end.
  Definition gather1 (ranks : list dict) : dict := fold_left (fun d r => fold_left gather1_step r d) ranks [].

  (** 131-156: the dofs of form 1 by the key of their first geometry *)
  Fixpoint group_add (k : K) (dof : nat) (g : list (K * list nat)) : list (K * list nat) :=
    match g with
    | [] => [(k, [dof])]
    | (k', l) :: r => if g_keyeq X k k' then (k', l ++ [dof]) :: r else (k', l) :: group_add k dof r
    end.
  Fixpoint group_get (k : K) (g : list (K * list nat)) : list nat :=
    match g with
    | [] => []
    | (k', l) :: r => if g_keyeq X k k' then l else group_get k r
    end.
  Definition group_step (f : G -> K) (g : list (K * list nat)) (e : nat * list G) : list (K * list nat) :=
    match snd e with
    | geo1 :: _ => group_add (f geo1) (fst e) g
    | [] => g
    end.
  Definition groups (f : G -> K) (D1 : dict) : list (K * list nat) := fold_left (group_step f) D1 [].

  (** 173-181: SEARCH_RANGE; an empty group means a search through all of DOF_GEO_1 *)
  Definition search_range (D1 : dict) (rest : dict) (geometries0 : list G) : list nat :=
    match g_key X, geometries0 with
    | Some f, geo0 :: _ =>
        match groups f D1 with
        | [] => map fst rest
        | g => group_get (f geo0) g
        end
    | _, _ => map fst rest
    end.

  (** 183-192: the dofs found for one dof of form 0 *)
  Definition found (rest : dict) (range : list nat) (geometries0 : list G) : list nat :=
    filter (fun dof1 => match dget rest dof1 with
                        | Some geometries1 => some_part geometries0 geometries1
                        | None => false
                        end) range.

  (** 194-202; the state is the correspondence, what is left of DOF_GEO_1 and possible_complete *)
  Notation state := (list (nat * list nat) * dict * bool)%type.
  Definition find_step (D1 : dict) (st : state) (e : nat * list G) : state :=
    let '(cor, rest, possible) := st in
    match found rest (search_range D1 rest (snd e)) (snd e) with
    | [] => (cor, rest, false)
    | l => (cor ++ [(fst e, l)], fold_left ddel l rest, possible)
    end.
  Definition find_all (D0 D1 : dict) : state := fold_left (find_step D1) D0 ([], D1, true).

  (** 209-218: the geometries of the dofs found *)
  Definition add_geo (acc : list G) (g : G) : list G := if geo_in g acc then acc else acc ++ [g].
  Definition union_args (D1 : dict) (dofs1 : list nat) : list G :=
    fold_left (fun acc dof1 => fold_left add_geo (match dget D1 dof1 with Some gs => gs | None => [] end) acc) dofs1 [].

  (** 204-228 *)
  Fixpoint check_complete (D0 D1 : dict) (cor : list (nat * list nat)) : option bool :=
    match cor with
    | [] => Some true
    | (dof0, dofs1) :: r =>
        match dget D0 dof0 with
        | Some (geo0 :: _) =>
            match g_union X geo0 (union_args D1 dofs1) with
            | Some true => check_complete D0 D1 r
            | Some false => Some false
            | None => None
            end
        | _ => None
        end
    end.

  (** ___globalDofCorresponding__computer___ on the master rank: complete and the correspondence *)
  Definition computer (ranks0 ranks1 : list (list (nat * G))) : option (bool * list (nat * list nat)) :=
    let D0 := gather0 (map rank_geos ranks0) in
    let D1 := gather1 (map rank_geos ranks1) in
    let '(cor, _, possible) := find_all D0 D1 in
    if possible then
      match check_complete D0 D1 cor with Some c => Some (c, cor) | None => None end
    else Some (false, cor).

  (** 234-244: the part of one rank *)
  Definition rank_part (own0 own1 : list (nat * G)) (cor : list (nat * list nat)) : option (list (nat * list nat)) :=
    let mine := filter (fun e => match dget (rank_geos own0) (fst e) with Some _ => true | None => false end) cor in
    if forallb (fun e => forallb (fun dof1 => match dget (rank_geos own1) dof1 with Some _ => true | None => false end) (snd e)) mine
    then Some mine else None.
End Computer.

(** PerpRectangle (/repo/tools/miscellaneous/geometries/m3n3.py 354-489), whose union test
    never raises, and OrthogonalHexahedron (492-595), which has no key. *)
Definition rect_keyeq (k k' : axis * (bool * Z)) : bool :=
  axis_eqb (fst k) (fst k') && Bool.eqb (fst (snd k)) (fst (snd k')) && Z.eqb (snd (snd k)) (snd (snd k')).
Definition rects : geometry rect3 (axis * (bool * Z)) :=
  mkGeometry _ _ rect_eq rect_contain (Some rect_key) rect_keyeq (fun s gs => Some (rect_union s gs)).
Definition hexas : geometry hexa3 unit :=
  mkGeometry _ _ hexa_eq hexa_contain None (fun _ _ => true) (fun s gs => Some (hexa_union s gs)).
