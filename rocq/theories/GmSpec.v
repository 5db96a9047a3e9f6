(** What chaining, splitting and locating mean *)
From Coq Require Import List Arith.
From Verif Require Import Dict.
Import ListNotations.

Notation numbering := (list (list (nat * list nat))).  (* ranks, elements, numbers *)
(** every element is in one rank only and once *)
Definition wf_numbering (g : numbering) : Prop := NoDup (concat (map (map fst) g)).
Definition row_at (g : numbering) (e : nat) (row : list nat) : Prop := exists r, In r g /\ In (e, row) r.
Definition used (g : numbering) (d : nat) : Prop := exists e row, row_at g e row /\ In d row.
(** the numbers are exactly 0..n-1 *)
Definition exactly (g : numbering) (n : nat) : Prop := forall d, used g d <-> d < n.

(** [cgm] is a numbering of the dofs of all members [gms]: rows are the rows of the members one
    after the other, renumbered by a bijection between the (member, dof) and 0..M-1 *)
Definition chained (gms : list numbering) (cgm : numbering) (M : nat) : Prop :=
  exists phi : nat -> nat -> nat,
    (forall e row, row_at cgm e row ->
       exists rows, Forall2 (fun g r => row_at g e r) gms rows /\
         row = concat (map (fun ir => map (phi (fst ir)) (snd ir)) (combine (seq 0 (length gms)) rows))) /\
    (forall i j g h d d', nth_error gms i = Some g -> nth_error gms j = Some h -> used g d -> used h d' ->
       phi i d = phi j d' -> i = j /\ d = d') /\
    (forall k, k < M <-> exists i g d, nth_error gms i = Some g /\ used g d /\ phi i d = k).

(** [l] lists the places of [d] in one rank, each once *)
Definition places (r : list (nat * list nat)) (d : nat) (l : list (nat * nat)) : Prop :=
  NoDup l /\ forall e i, In (e, i) l <-> exists row, In (e, row) r /\ nth_error row i = Some d.

(** the values [vs] of the vector [V] at the numbers [row] *)
Definition vals {A} (V : list A) (row : list nat) (vs : list A) : Prop := Forall2 (fun d v => nth_error V d = Some v) row vs.
(** in every element, the values of the chain are the values of the members one after the other *)
Definition merged {A} (gms : list numbering) (cgm : numbering) (Vs : list (list A)) (V : list A) : Prop :=
  forall e row rows, row_at cgm e row -> Forall2 (fun g r => row_at g e r) gms rows ->
    exists ls, Forall2 (fun Vr l => vals (fst Vr) (snd Vr) l) (combine Vs rows) ls /\ vals V row (concat ls).

(** [k] is a number of dof [d] of member [i]: it stands where [d] stands, behind the earlier members *)
Definition denotes (gms : list numbering) (cgm : numbering) (i d k : nat) : Prop :=
  exists e rows r l row, Forall2 (fun g r => row_at g e r) gms rows /\ nth_error rows i = Some r /\ nth_error r l = Some d /\
    row_at cgm e row /\ nth_error row (length (concat (firstn i rows)) + l) = Some k.
