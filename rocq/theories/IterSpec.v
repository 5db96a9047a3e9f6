(** How often a key is stored in a record, histories of records, trajectories of a solver *)
From Coq Require Import List ZArith QArith Qcanon Bool.
From Verif Require Import Dict IterModel.
Import ListNotations.
Local Open Scope Z_scope.

Definition b2n (b : bool) : nat := if b then 1%nat else 0%nat.
Fixpoint total {A} (f : A -> nat) (l : list A) : nat := match l with [] => 0%nat | a :: r => (f a + total f r)%nat end.
(** how often a key is stored *)
Definition stored (c : computed) (k : ikey) : nat :=
  match k with
  | IInt i => (total (fun r => b2n ((fst r <=? i) && (i <? snd r))%Z) (c_ranges c) + total (fun j => b2n (i =? j)%Z) (c_ints c))%nat
  | IStr s u => total (fun x => b2n (Bool.eqb s (fst x) && (u =? snd x))%Z) (c_strs c)
  end.
(** the record is used by noting inputs and by compressing *)
Inductive record_op := Note (k : ikey) | Compress.
Fixpoint history (ops : list record_op) (c : computed) : option computed :=
  match ops with
  | [] => Some c
  | Note k :: r => history r (update_input c k)
  | Compress :: r => match compress c with Some c' => history r c' | None => None end
  end.
