(** Positions in a multi-region structured grid, independent of the numbering code. *)
From Coq Require Import Arith List.
From Verif Require Import NdArray.
Import ListNotations.

(** the element at indices [I] of region [R] has number [e]: regions one after
    another, first index fastest *)
Definition element_number (diss : list (list nat)) (R : nat) (I : list nat) (e : nat) : Prop :=
  exists dis r, nth_error diss R = Some dis /\ ravelF dis I = Some r /\
    e = fold_right Nat.add 0 (firstn R (map prodl diss)) + r.

Definition num_elements (diss : list (list nat)) : nat :=
  fold_right Nat.add 0 (map prodl diss).

Fixpoint set_at (n v : nat) (l : list nat) : list nat :=
  match n, l with
  | _, [] => []
  | 0, _ :: r => v :: r
  | S m, a :: r => a :: set_at m v r
  end.

(** crossing the plus side along axis [a] leads from (R,I) to (R',I') *)
Definition step_plus (diss : list (list nat)) (M : list (list (option nat))) (a : nat)
    (R : nat) (I : list nat) (R' : nat) (I' : list nat) : Prop :=
  exists dis n i, nth_error diss R = Some dis /\ nth_error dis a = Some n /\ nth_error I a = Some i /\
    ((S i < n /\ R' = R /\ I' = set_at a (S i) I) \/
     (S i = n /\ I' = set_at a 0 I /\
      exists row, nth_error M R = Some row /\ nth_error row (2 * a + 1) = Some (Some R'))).

(** [groups] is a partition of 0..n-1 *)
Definition partition (n : nat) (groups : list (list nat)) : Prop :=
  NoDup (concat groups) /\ forall e, In e (concat groups) <-> e < n.
