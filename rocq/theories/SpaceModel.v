(** Model of the abstract spaces and of the operators between them: src/spaces/main.py, base.py, continuous/*.py, operators.py.

    A mesh (src/mesh.py 82-201) is the text that names it, the text of its manifold, the number of its dimensions and whether its manifold is
    periodic; two Mesh objects of one session never have the same text (mesh.py 114-116), which is what [legit] in SpaceSpec.v says.  A space is
    an object: [s_id] is its identity.  A raised exception is [None]; the registry that is left behind by a call that raises is part of the result.
    [_mesh_set] and [_space_set] always have the same keys (main.py 112-119 and 622-633), they are one dictionary here. *)
From Coq Require Import List ZArith String Bool.
From Verif Require Import MemoModel.
Import ListNotations.
Local Open Scope string_scope.
Local Open Scope Z_scope.

Record mesh := Mesh { mesh_text : string; mani_text : string; ndim : Z; periodic : bool }.

(** main.py 64-74: the implemented classes *)
Inductive cls := Lambda | Bundle | Diagonal.
Definition cls_eqb (a b : cls) : bool := match a, b with Lambda, Lambda => true | Bundle, Bundle => true | Diagonal, Diagonal => true | _, _ => false end.
Definition class_of (abbr : string) : option cls :=
  if String.eqb abbr "Lambda" then Some Lambda else if String.eqb abbr "bundle" then Some Bundle else if String.eqb abbr "bundle-diagonal" then Some Diagonal else None.

Record space := Space { s_cls : cls; s_mesh : mesh; s_k : Z; s_ori : string; s_id : nat }.

(** base.py 30-42: the orientation argument, [None] is python's None *)
Definition parse_orientation (o : option string) : option string :=
  match o with
  | None => Some "unknown"
  | Some s =>
      if existsb (String.eqb s) ["inner"; "outer"; "i"; "o"; "None"] then
        if String.eqb s "i" then Some "inner" else if String.eqb s "o" then Some "outer" else if String.eqb s "None" then Some "unknown" else Some s
      else None
  end.

(** base.py 63-72 *)
Definition opposite_orientation (o : string) : option string :=
  if String.eqb o "inner" then Some "outer" else if String.eqb o "outer" then Some "inner" else if String.eqb o "unknown" then Some "unknown" else None.

(** Lambda.py 26-30, bundle.py 16-20, bundle_diagonal.py 16-20: the symbolic text; [raw] is the argument as it was given *)
Definition is_outer (raw : option string) : bool := match raw with Some s => String.eqb s "outer" | None => false end.
Definition symbol (c : cls) (wide : bool) : string :=
  match c, wide with
  | Lambda, true => "\widetilde\Lambda" | Lambda, false => "\Lambda"
  | Bundle, true => "\widetilde{\mathcal{B}}" | Bundle, false => "\mathcal{B}"
  | Diagonal, true => "\widetilde{\mathcal{S}}" | Diagonal, false => "\mathcal{S}"
  end.
Definition sym_text (c : cls) (wide : bool) (k : Z) (mani : string) : string := symbol c wide ++ "^{(" ++ str_z k ++ ")}" ++ "(" ++ mani ++ ")".

(** Lambda.py 22-25, bundle.py 11-14, bundle_diagonal.py 11-14: which k a class takes *)
Definition k_allowed (c : cls) (n k : Z) : bool := match c with Diagonal => (k =? 0) || (k =? n) | _ => (0 <=? k) && (k <=? n) end.
(** the constructor: the object and its symbolic text *)
Definition construct (id : nat) (c : cls) (M : mesh) (k : Z) (raw : option string) : option (space * string) :=
  match parse_orientation raw with
  | Some o => if k_allowed c (ndim M) k then Some (Space c M k o id, sym_text c (is_outer raw) k (mani_text M)) else None
  | None => None
  end.

(** python dictionaries with texts as keys *)
Fixpoint look {A} (key : string) (l : list (string * A)) : option A := match l with [] => None | (x, v) :: r => if String.eqb key x then Some v else look key r end.
Fixpoint put {A} (key : string) (v : A) (l : list (string * A)) : list (string * A) :=
  match l with [] => [(key, v)] | (x, w) :: r => if String.eqb key x then (x, v) :: r else (x, w) :: put key v r end.

(** main.py 54-58: the registry; [next_id] is a new identity *)
Record registry := Registry { current : string; sets : list (string * (mesh * list (string * space))); next_id : nat }.
Definition empty : registry := Registry "" [] 0.

(** main.py 112-119 and 626-631: a mesh becomes known *)
Definition register (R : registry) (M : mesh) : registry :=
  match look (mesh_text M) (sets R) with Some _ => R | None => Registry (current R) (put (mesh_text M) (M, []) (sets R)) (next_id R) end.
(** main.py 622-633 *)
Definition set_mesh (R : registry) (M : mesh) : registry := let R' := register R M in Registry (mesh_text M) (sets R') (next_id R').

(** main.py 77-139; an object that is made and not kept gets no identity *)
Definition new_on (R : registry) (abbr : string) (k : Z) (M : mesh) (raw : option string) : registry * option space :=
  match look (mesh_text M) (sets R), class_of abbr with
  | Some (M', spaces), Some c =>
      match construct (next_id R) c M k raw with
      | Some (s, srp) =>
          match look srp spaces with
          | Some s' => (R, Some s')
          | None => (Registry (current R) (put (mesh_text M) (M', put srp s spaces) (sets R)) (S (next_id R)), Some s)
          end
      | None => (R, None)
      end
  | _, _ => (R, None)
  end.
Definition new (R : registry) (abbr : string) (k : Z) (om : option mesh) (raw : option string) : registry * option space :=
  match om with
  | None => if String.eqb (current R) "" then (R, None) else match look (current R) (sets R) with Some (M, _) => new_on R abbr k M raw | None => (R, None) end
  | Some M => new_on (register R M) abbr k M raw
  end.

(** mesh.py 161-176 with manifold.py 171-188: the mesh of the boundary; [None] is a NullMesh, which has no symbolic text, so [new] raises on it.
    The name clashes that the constructors of Manifold and Mesh reject are not modelled. *)
Definition boundary (M : mesh) : option mesh :=
  if (ndim M =? 0) || periodic M then None else Some (Mesh ("\eth" ++ mesh_text M) ("\partial" ++ mani_text M) (ndim M - 1) true).

Definition mesh_eqb (a b : mesh) : bool := String.eqb (mesh_text a) (mesh_text b) && String.eqb (mani_text a) (mani_text b) && (ndim a =? ndim b) && Bool.eqb (periodic a) (periodic b).
Definition abbr_of (c : cls) : string := match c with Lambda => "Lambda" | Bundle => "bundle" | Diagonal => "bundle-diagonal" end.
(** the classes that the first four operators accept *)
Definition scalar_or_bundle (c : cls) : bool := match c with Diagonal => false | _ => true end.

(** operators.py 20-61 *)
Definition wedge (R : registry) (s1 s2 : space) : registry * option space :=
  if mesh_eqb (s_mesh s1) (s_mesh s2) then
    if cls_eqb (s_cls s1) (s_cls s2) && scalar_or_bundle (s_cls s1) then
      if s_k s1 + s_k s2 <=? ndim (s_mesh s1) then
        new R (abbr_of (s_cls s1)) (s_k s1 + s_k s2) (Some (s_mesh s1)) (if String.eqb (s_ori s1) (s_ori s2) then Some (s_ori s1) else None)
      else (R, None)
    else (R, None)
  else (R, None).
(** operators.py 275-286 *)
Definition hodge (R : registry) (s : space) : registry * option space :=
  if scalar_or_bundle (s_cls s) then
    match opposite_orientation (s_ori s) with
    | Some o => new R (abbr_of (s_cls s)) (ndim (s_mesh s) - s_k s) (Some (s_mesh s)) (Some o)
    | None => (R, None)
    end
  else (R, None).
(** operators.py 289-300 *)
Definition d (R : registry) (s : space) : registry * option space :=
  if scalar_or_bundle (s_cls s) then
    if s_k s <? ndim (s_mesh s) then new R (abbr_of (s_cls s)) (s_k s + 1) (Some (s_mesh s)) (Some (s_ori s)) else (R, None)
  else (R, None).
(** operators.py 303-314 *)
Definition codifferential (R : registry) (s : space) : registry * option space :=
  if scalar_or_bundle (s_cls s) then
    if 0 <? s_k s then new R (abbr_of (s_cls s)) (s_k s - 1) (Some (s_mesh s)) (Some (s_ori s)) else (R, None)
  else (R, None).
(** operators.py 406-415 *)
Definition trace (R : registry) (s : space) : registry * option space :=
  match s_cls s with
  | Lambda =>
      if (0 <=? s_k s) && (s_k s <? ndim (s_mesh s)) then
        match boundary (s_mesh s) with Some B => new R "Lambda" (s_k s) (Some B) (Some (s_ori s)) | None => (R, None) end
      else (R, None)
  | _ => (R, None)
  end.

(** operators.py 117-176, 179-221, 224-248: the tables of the cross products; a row is the degrees and orientations of the operands and of the range *)
Notation row := (Z * string * Z * string * Z * string)%type.
Definition cross_2d : list row :=
  [ (0, "outer", 1, "inner", 1, "inner"); (0, "outer", 1, "outer", 1, "outer"); (2, "inner", 1, "outer", 1, "outer"); (1, "inner", 1, "inner", 0, "outer");
    (1, "outer", 1, "outer", 0, "outer"); (2, "inner", 1, "inner", 1, "inner"); (1, "outer", 1, "inner", 2, "inner"); (1, "inner", 1, "outer", 0, "outer") ].
Definition cross_3d : list row :=
  [ (1, "outer", 1, "inner", 1, "inner"); (2, "inner", 2, "outer", 2, "outer"); (1, "outer", 2, "outer", 2, "outer"); (2, "inner", 1, "inner", 1, "inner");
    (2, "outer", 1, "inner", 2, "inner"); (2, "outer", 2, "outer", 1, "outer") ].
Definition Cross_2d : list row := [ (0, "outer", 1, "inner", 1, "outer"); (1, "outer", 1, "inner", 0, "outer") ].
Definition Cross_3d : list row :=
  [ (1, "outer", 2, "outer", 1, "outer"); (1, "outer", 1, "inner", 2, "outer"); (2, "outer", 1, "inner", 1, "outer"); (2, "inner", 2, "outer", 2, "inner") ].
Definition CrossP_3d : list row := [ (1, "outer", 1, "inner", 1, "outer") ].
Fixpoint find_row (l : list row) (k1 : Z) (o1 : string) (k2 : Z) (o2 : string) : option (Z * string) :=
  match l with
  | [] => None
  | (a1, p1, a2, p2, a, p) :: r => if (k1 =? a1) && String.eqb o1 p1 && (k2 =? a2) && String.eqb o2 p2 then Some (a, p) else find_row r k1 o1 k2 o2
  end.
(** [m] is the number of dimensions of the embedding space *)
Definition by_table (t2 t3 : list row) (m : Z) (R : registry) (s1 s2 : space) : registry * option space :=
  match s_cls s1, s_cls s2 with
  | Lambda, Lambda =>
      if mesh_eqb (s_mesh s1) (s_mesh s2) then
        let n := ndim (s_mesh s1) in
        let t := if (m =? n) && (n =? 2) then t2 else if (m =? n) && (n =? 3) then t3 else [] in
        match find_row t (s_k s1) (s_ori s1) (s_k s2) (s_ori s2) with
        | Some (k, o) => new R "Lambda" k (Some (s_mesh s1)) (Some o)
        | None => (R, None)
        end
      else (R, None)
  | _, _ => (R, None)
  end.
Definition cross_product := by_table cross_2d cross_3d.
Definition Cross_Product := by_table Cross_2d Cross_3d.
Definition CrossProduct := by_table [] CrossP_3d.

(** operators.py 64-86; the result of a call that returns (no exception) may be python's None: [Some None] *)
Definition tensor_product (m : Z) (R : registry) (s1 s2 : space) : registry * option (option space) :=
  match s_cls s1, s_cls s2 with
  | Bundle, Bundle =>
      if mesh_eqb (s_mesh s1) (s_mesh s2) then
        if (m =? ndim (s_mesh s1)) && (m =? 2) then
          if (s_k s1 =? 0) && (s_k s2 =? 0) && String.eqb (s_ori s1) "inner" && String.eqb (s_ori s2) "inner" then
            let (R', r) := new R "bundle" 1 (Some (s_mesh s1)) (Some "inner") in (R', option_map Some r)
          else (R, None)
        else (R, Some None)
      else (R, None)
  | _, _ => (R, None)
  end.
(** operators.py 89-114 *)
Definition convect (m : Z) (s1 s2 : space) : option (option space) :=
  match s_cls s1, s_cls s2 with
  | Lambda, Lambda =>
      if mesh_eqb (s_mesh s1) (s_mesh s2) then
        if (m =? ndim (s_mesh s1)) && (m =? 2) then
          if (s_k s1 =? s_k s2) && (s_k s2 =? 1) && String.eqb (s_ori s1) (s_ori s2) && String.eqb (s_ori s2) "inner" then Some (Some s1)
          else if (s_k s1 =? 1) && (s_k s2 =? 0) && String.eqb (s_ori s1) "outer" && String.eqb (s_ori s2) "inner" then Some (Some s2)
          else None
        else None
      else None
  | _, _ => Some None
  end.

(** base.py 125-127 with Lambda.py 44-46, bundle.py 35-38: equality compares the texts of the objects; the text of a bundle space contains the address *)
Definition scalar_text (s : space) : string := "<" ++ s_ori s ++ " " ++ str_z (s_k s) ++ "-SV on " ++ mani_text (s_mesh s) ++ ">".
Definition space_eq (s1 s2 : space) : bool :=
  match s_cls s1, s_cls s2 with Lambda, Lambda => String.eqb (scalar_text s1) (scalar_text s2) | _, _ => Nat.eqb (s_id s1) (s_id s2) end.
(** operators.py 418-421 *)
Definition project_to (s1 s2 : space) : option space := if space_eq s1 s2 then None else Some s2.

(** Lambda.py 48-51, bundle.py 40-43, bundle_diagonal.py 40-43: the text that keys matrices and finite dimensional spaces *)
Definition class_text (c : cls) : string := match c with Lambda => ":Lambda:" | Bundle => ":Bundle:" | Diagonal => ":BundleDiagonal:" end.
Definition pure_lin_text (m : Z) (s : space) : string :=
  class_text (s_cls s) ++ "m" ++ str_z m ++ "-n" ++ str_z (ndim (s_mesh s)) ++ "-k" ++ str_z (s_k s) ++ "-" ++ s_ori s.

(** operators.py 317-362 and 365-403: names of the operators of vector calculus *)
Definition scalar_or_bundle_text (ind : string) : bool := String.eqb ind "Lambda" || String.eqb ind "bundle".
Definition d_to_vc (ind : string) (m n k : Z) (ori : string) : option string :=
  if scalar_or_bundle_text ind then
    if (m =? n) && (n =? 1) && (k =? 0) then Some "derivative"
    else if (m =? n) && (n =? 2) && (k =? 0) then if String.eqb ori "inner" then Some "gradient" else if String.eqb ori "outer" then Some "curl" else None
    else if (m =? n) && (n =? 2) && (k =? 1) then if String.eqb ori "inner" then Some "rot" else if String.eqb ori "outer" then Some "divergence" else None
    else if (m =? n) && (n =? 3) then if k =? 0 then Some "gradient" else if k =? 1 then Some "curl" else if k =? 2 then Some "divergence" else None
    else None
  else None.
Definition d_ast_to_vc (ind : string) (m n k : Z) (ori : string) : option (string * string) :=
  if scalar_or_bundle_text ind then
    if (m =? n) && (n =? 1) && (k =? 1) then Some ("-", "derivative")
    else if (m =? n) && (n =? 2) && (k =? 1) then if String.eqb ori "inner" then Some ("-", "divergence") else if String.eqb ori "outer" then Some ("+", "rot") else None
    else if (m =? n) && (n =? 2) && (k =? 2) then if String.eqb ori "inner" then Some ("+", "curl") else if String.eqb ori "outer" then Some ("-", "gradient") else None
    else if (m =? n) && (n =? 3) then if k =? 1 then Some ("-", "divergence") else if k =? 2 then Some ("+", "curl") else if k =? 3 then Some ("-", "gradient") else None
    else None
  else None.
