(** Directions of the dofs of faces, and what it means that they agree. *)
From Coq Require Import List Arith Reals.
From Verif Require Import IncidenceModel ReversalModel.
Import ListNotations.

(** The dof of a face of degree 1 is the integral of the field along the face
    (inner), or of the flux to the right of somebody walking along it (outer).
    Here are the corners of the element between which they walk: first the one
    they start from.  (Proved for straight elements, see [reversal_raw_dofs].) *)
Definition walk (k : form) (t : etype) : list (nat * nat) :=
  match k, t with
  | Inner, (Rectangle | MsepyQuad) => [(0, 2); (1, 3); (0, 1); (2, 3)]
  | Inner, (Quad9 | CurvedQuad) => [(0, 3); (1, 2); (0, 1); (3, 2)]
  | Inner, _ => [(0, 1); (1, 2); (0, 2)]
  | Outer, (Rectangle | MsepyQuad) => [(0, 2); (1, 3); (1, 0); (3, 2)]
  | Outer, (Quad9 | CurvedQuad) => [(0, 3); (1, 2); (1, 0); (2, 3)]
  | Outer, _ => [(1, 0); (1, 2); (2, 0)]
  end.
(** face f of element e of the mesh runs from vertex a to vertex b *)
Definition runs (k : form) (m : list element) (e f : nat) (t : etype) (a b : nat) : Prop :=
  exists x i j, In x m /\ e_id x = e /\ e_type x = t /\ nth_error (walk k t) f = Some (i, j) /\
                nth_error (e_map x) i = Some a /\ nth_error (e_map x) j = Some b.
(** the same two vertices *)
Definition same_ends (a b c d : nat) : Prop := (a = c /\ b = d) \/ (a = d /\ b = c).

(** a quantity of directed edges, like the integral of a field *)
Definition directed (w : nat -> nat -> R) : Prop := forall a b, w b a = (- w a b)%R.
(** the reduced test field has the values [w] *)
Definition measured (k : form) (m : list element) (w : nat -> nat -> R) : Prop :=
  forall x f i j c, In x m -> nth_error (walk k (e_type x)) f = Some (i, j) -> nth_error (cochain_indices k (e_type x)) f = Some c ->
  exists a b, nth_error (e_map x) i = Some a /\ nth_error (e_map x) j = Some b /\ nth_error (e_cochain x) c = Some (w a b).
(** not so small that the tolerances hide the sign *)
Definition clear (v : R) : Prop := (1 / 10 ^ 8 < Rabs v * (2 - 1 / 10 ^ 5))%R.
Definition distinct_ids (m : list element) : Prop := NoDup (map e_id m).

(** direction and value after the reversal of the faces in l *)
Definition turned (l : list (nat * nat)) (e f : nat) (d d' : nat * nat) : Prop :=
  (In (e, f) l /\ d' = (snd d, fst d)) \/ (~ In (e, f) l /\ d' = d).
(** elements whose dofs may be reversed *)
Definition unstructured (t : etype) : Prop := t <> Rectangle /\ t <> MsepyQuad.

(** what the search asks of the mesh *)
Definition numbered (k : form) (m : list element) : Prop :=
  (forall x c, In x m -> In c (cochain_indices k (e_type x)) -> c < length (e_gm x)) /\
  (forall x y f g i j i' j' a b c d p q, In x m -> In y m ->
     nth_error (walk k (e_type x)) f = Some (i, j) -> nth_error (walk k (e_type y)) g = Some (i', j') ->
     nth_error (e_map x) i = Some a -> nth_error (e_map x) j = Some b ->
     nth_error (e_map y) i' = Some c -> nth_error (e_map y) j' = Some d -> same_ends a b c d ->
     nth_error (cochain_indices k (e_type x)) f = Some p -> nth_error (cochain_indices k (e_type y)) g = Some q ->
     nth_error (e_gm x) p = nth_error (e_gm y) q).
Definition at_most_two (k : form) (m : list element) : Prop :=
  forall e1 f1 t1 a1 b1 e2 f2 t2 a2 b2 e3 f3 t3 a3 b3,
    runs k m e1 f1 t1 a1 b1 -> runs k m e2 f2 t2 a2 b2 -> runs k m e3 f3 t3 a3 b3 ->
    same_ends a1 b1 a2 b2 -> same_ends a1 b1 a3 b3 ->
    (e1, f1) = (e2, f2) \/ (e1, f1) = (e3, f3) \/ (e2, f2) = (e3, f3).
(** structured elements side by side have the same direction *)
Definition structured_agree (k : form) (m : list element) : Prop :=
  forall e1 f1 t1 e2 f2 t2 a b, runs k m e1 f1 t1 a b -> runs k m e2 f2 t2 b a -> a <> b -> unstructured t1 \/ unstructured t2.

(** the sign of a dof when the dofs in the lists are reversed *)
Definition sign_of (ls : list (list nat)) (i : nat) : R := (if reversed ls i then -1 else 1)%R.
