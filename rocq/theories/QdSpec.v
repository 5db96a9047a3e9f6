(** What quadratures are meant to be. *)
From Coq Require Import Reals List.
From Coquelicot Require Import Coquelicot.
Import ListNotations.
Local Open Scope R_scope.

(** the steps of the method of Newton for a root of f, until step m *)
Definition newton_steps (f : R -> R) (z : nat -> R) (m : nat) : Prop :=
  forall i, (i < m)%nat -> Derive f (z i) <> 0 /\ z (S i) = z i - f (z i) / Derive f (z i).

Definition rsum (l : list R) : R := fold_right Rplus 0 l.
(** one-dimensional quadratures nested in each other; an axis is its nodes and its weights *)
Definition quad1 (nodes weights : list R) (g : R -> R) : R := rsum (map (fun xw => snd xw * g (fst xw)) (combine nodes weights)).
Fixpoint nested (axes : list (list R * list R)) (f : list R -> R) : R :=
  match axes with
  | [] => f []
  | ax :: r => quad1 (fst ax) (snd ax) (fun x => nested r (fun t => f (x :: t)))
  end.
(** the m-th point *)
Definition point (coordinates : list (list R)) (m : nat) : list R := map (fun c => nth m c 0) coordinates.
(** the sum over all points *)
Definition weighted (coordinates : list (list R)) (weights : list R) (f : list R -> R) : R :=
  rsum (map (fun m => nth m weights 0 * f (point coordinates m)) (seq 0 (length weights))).

(** a partition of the edge: the i-th node lies after the first i parts *)
Definition after (l : list R) (i : nat) : R := -1 + 2 * rsum (firstn i l).
