(** What the statements about abstract spaces are made of: sessions, that is sequences of calls, and the objects that a session holds. *)
From Coq Require Import List ZArith String Bool.
From Verif Require Import SpaceModel.
Import ListNotations.
Local Open Scope string_scope.
Local Open Scope Z_scope.

(** the meshes of a session: a text names one mesh *)
Definition legit (W : string -> mesh) (M : mesh) : Prop := W (mesh_text M) = M.
Definition closed (W : string -> mesh) : Prop := forall M B, legit W M -> boundary M = Some B -> legit W B.

(** the object kept for a mesh under a text, and the objects of a session *)
Definition find (R : registry) (t key : string) : option space := match look t (sets R) with Some (_, l) => look key l | None => None end.
Definition live (R : registry) (s : space) : Prop := exists t key, find R t key = Some s.

(** the calls that a user can make *)
Inductive call :=
| CSet (M : mesh) | CNew (abbr : string) (k : Z) (om : option mesh) (raw : option string)
| CWedge (s1 s2 : space) | CHodge (s : space) | CD (s : space) | CCod (s : space) | CTrace (s : space)
| CCross (s1 s2 : space) | CCross2 (s1 s2 : space) | CCross3 (s1 s2 : space) | CTensor (s1 s2 : space).
Definition run (m : Z) (R : registry) (c : call) : registry :=
  match c with
  | CSet M => set_mesh R M
  | CNew abbr k om raw => fst (new R abbr k om raw)
  | CWedge s1 s2 => fst (wedge R s1 s2)
  | CHodge s => fst (hodge R s)
  | CD s => fst (d R s)
  | CCod s => fst (codifferential R s)
  | CTrace s => fst (trace R s)
  | CCross s1 s2 => fst (cross_product m R s1 s2)
  | CCross2 s1 s2 => fst (Cross_Product m R s1 s2)
  | CCross3 s1 s2 => fst (CrossProduct m R s1 s2)
  | CTensor s1 s2 => fst (tensor_product m R s1 s2)
  end.
(** the arguments are meshes of the session and spaces that the session returned before *)
Definition arguments_ok (W : string -> mesh) (R : registry) (c : call) : Prop :=
  match c with
  | CSet M => legit W M
  | CNew _ _ om _ => match om with Some M => legit W M | None => True end
  | CHodge s | CD s | CCod s | CTrace s => live R s
  | CWedge s1 s2 | CCross s1 s2 | CCross2 s1 s2 | CCross3 s1 s2 | CTensor s1 s2 => live R s1 /\ live R s2
  end.
Definition full_word (raw : option string) : Prop := raw = Some "inner" \/ raw = Some "outer".
(** calls that name the orientation in full, and no wedge of spaces of different orientations *)
Definition tidy (c : call) : Prop :=
  match c with CNew _ _ _ raw => full_word raw | CWedge s1 s2 => s_ori s1 = s_ori s2 | _ => True end.
Definition anything (c : call) : Prop := True.
Inductive later (m : Z) (W : string -> mesh) (ok : call -> Prop) (R : registry) : registry -> Prop :=
| later_here : later m W ok R R
| later_step R' c : later m W ok R R' -> arguments_ok W R' c -> ok c -> later m W ok R (run m R' c).
Definition session m W ok R := later m W ok empty R.

(** what a scalar or a vector of vector calculus is, in a plane and in space: a form of degree 1 in a plane is a vector in the plane, one of
    degree 0 or 2 is a vector across the plane; in space degrees 1 and 2 are vectors *)
Inductive kind := In_plane | Across | In_space | Number.
Definition kind_of (n k : Z) : kind := if n =? 2 then (if k =? 1 then In_plane else Across) else if (k =? 1) || (k =? 2) then In_space else Number.
Definition cross_kind (a b : kind) : option kind :=
  match a, b with
  | In_plane, In_plane => Some Across | Across, In_plane => Some In_plane | In_plane, Across => Some In_plane
  | In_space, In_space => Some In_space | _, _ => None
  end.
Definition swap (o : string) : string := if String.eqb o "inner" then "outer" else "inner".
Definition oriented (s : space) : Prop := s_ori s = "inner" \/ s_ori s = "outer".
