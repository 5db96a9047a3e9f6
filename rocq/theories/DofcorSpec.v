(** What the correspondence of dofs should be. *)
From Coq Require Import List Arith Bool QArith.
From Verif Require Import DofcorModel AxisModel AxisSpec.
Import ListNotations.

(** A dof lies at a geometry in some element of some rank. *)
Definition lies {G} (ranks : list (list (nat * G))) (dof : nat) (g : G) : Prop :=
  exists r, In r ranks /\ In (dof, g) r.

(** Some place of dof1 is a part of some place of dof0. *)
Definition part_of {G K} (X : geometry G K) (ranks0 ranks1 : list (list (nat * G))) (dof0 dof1 : nat) : Prop :=
  exists g0 g1, lies ranks0 dof0 g0 /\ lies ranks1 dof1 g1 /\ g_contain X g0 g1 = true.

(** Equal geometries contain, and are contained in, the same ones. *)
Definition coherent {G K} (X : geometry G K) (ranks0 ranks1 : list (list (nat * G))) : Prop :=
  (forall d g g' h e, lies ranks0 d g -> lies ranks0 d g' -> lies ranks1 e h ->
     g_eq X g g' = true -> g_contain X g h = g_contain X g' h) /\
  (forall d g h h' e, lies ranks0 d g -> lies ranks1 e h -> lies ranks1 e h' ->
     g_eq X h h' = true -> g_contain X g h = g_contain X g h').

(** The keys of the places of dof0 and dof1 are all the same. *)
Definition keys_agree {G K} (X : geometry G K) (ranks0 ranks1 : list (list (nat * G))) (dof0 dof1 : nat) : Prop :=
  forall f, g_key X = Some f ->
  forall g0 g1, lies ranks0 dof0 g0 -> lies ranks1 dof1 g1 -> f g0 = f g1.

(** The list found for a dof of form 0. *)
Definition listed (cor : list (nat * list nat)) (dof0 dof1 : nat) : Prop :=
  exists l, In (dof0, l) cor /\ In dof1 l.

(** ** rectangles *)

(** The points, and the inner points, of a rectangle however it was built. *)
Definition points_of (g : rect3) (p : point3) : Prop := exists a o d, new_rect a o d = Some g /\ rect_points a o d p.
Definition inner_of (g : rect3) (p : point3) : Prop := exists a o d, new_rect a o d = Some g /\ rect_inner a o d p.

(** Every rectangle is built from a corner and sides of the list C. *)
Definition built (C : list (point3 * point3)) (ranks : list (list (nat * rect3))) : Prop :=
  forall dof g, lies ranks dof g -> exists a o d, In (o, d) C /\ new_rect a o d = Some g.

(** A dof has one place: no periodicity. *)
Definition one_place (ranks : list (list (nat * rect3))) : Prop :=
  forall dof g g', lies ranks dof g -> lies ranks dof g' -> same_points (points_of g) (points_of g').

(** Different dofs have no inner points in common. *)
Definition disjoint (ranks : list (list (nat * rect3))) : Prop :=
  forall dof dof' g g', dof <> dof' -> lies ranks dof g -> lies ranks dof' g' -> forall p, ~ (inner_of g p /\ inner_of g' p).

(** g is a union of places of dofs. *)
Definition union_of_places (ranks : list (list (nat * rect3))) (g : rect3) : Prop :=
  exists part, (forall g', In g' part -> exists dof, lies ranks dof g') /\
               same_points (points_of g) (fun p => exists g', In g' part /\ points_of g' p).
