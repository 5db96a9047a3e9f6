(** Vocabulary for C65. *)
From Coq Require Import List Reals.
From Verif Require Import MappingModel.
Import ListNotations.
Local Open Scope R_scope.
Local Notation mat := MappingModel.mat.

(** twice the signed area of a triangle *)
Definition turn (A B C : pt2) : R := (fst B - fst A) * (snd C - snd A) - (snd B - snd A) * (fst C - fst A).
(** a convex quadrilateral run through anticlockwise *)
Definition convex_anticlockwise (A B C D : pt2) : Prop := 0 < turn A B C /\ 0 < turn B C D /\ 0 < turn C D A /\ 0 < turn D A B.
(** the matrices agree *)
Definition same_matrices (J J' : R -> R -> mat) : Prop := forall xi et i j, J xi et i j = J' xi et i j.
(** moved without turning *)
Definition shifted (P Q : list pt2) : Prop := exists s t, Q = map (fun p => (fst p + s, snd p + t)) P.
