(** What is expected of multigrid schedules and of the solver. *)
From Coq Require Import List ZArith Bool.
From Verif Require Import Dict MgModel.
Import ListNotations.
Local Open Scope Z_scope.

(** schedules as walks on the layers: the layer reached *)
Fixpoint walk (a : Z) (w : list step) : option Z :=
  match w with
  | [] => Some a
  | RS l :: q => if l =? a then walk (a - 1) q else None
  | IS l :: q => if l =? a then walk (a + 1) q else None
  end.
(** the layers visited *)
Fixpoint visited (a : Z) (w : list step) : list Z :=
  a :: match w with [] => [] | RS _ :: q => visited (a - 1) q | IS _ :: q => visited (a + 1) q end.

(** well nested: restrictions and interpolations as brackets *)
Inductive nested : list step -> Prop :=
| nested_nil : nested []
| nested_cons l m k q : nested m -> nested q -> nested (RS l :: m ++ IS k :: q).
(** step [r] is a restriction, step [i] the interpolation closing it *)
Definition matched (w : list step) (r i : nat) : Prop :=
  exists p l m k q, w = p ++ RS l :: m ++ IS k :: q /\ nested m /\ r = length p /\ i = (length p + 1 + length m)%nat.

(** the form of all schedules: nested corrections; [Then sub rest]: restrict, do [sub] one layer below, interpolate, do [rest] *)
Inductive form := Done | Then (sub rest : form).
Fixpoint steps (l : Z) (f : form) : list step := match f with Done => [] | Then s r => RS l :: steps (l - 1) s ++ IS (l - 1) :: steps l r end.
(** with interpolations that are not paired: up one layer, corrections there, ... *)
Fixpoint full_steps (l : Z) (fs : list form) : list step := match fs with [] => [] | f :: r => IS l :: steps (l + 1) f ++ full_steps (l + 1) r end.

Section SolverSpec.
  Context {V : Type} (add sub : V -> V -> V) (A : Z -> V -> V) (b : Z -> V) (down up : Z -> V -> V) (direct : Z -> V -> V) (iter : Z -> V -> V -> V) (zero : Z -> V).
  (** corrections of [x] on layer [l] for the right side [rhs] *)
  Fixpoint corrected (f : form) (l : Z) (x rhs : V) : V :=
    match f with
    | Done => x
    | Then s r =>
        let rhs' := down l (sub (A l x) rhs) in
        let y := if l - 1 =? 0 then direct (l - 1) rhs' else iter (l - 1) rhs' (zero (l - 1)) in
        corrected r l (add x (up (l - 1) (corrected s (l - 1) y rhs'))) rhs
    end.
  Fixpoint full_corrected (fs : list form) (l : Z) (x : V) : V :=
    match fs with [] => x | f :: r => full_corrected r (l + 1) (corrected f (l + 1) (iter (l + 1) (b (l + 1)) (up l x)) (b (l + 1))) end.
End SolverSpec.
