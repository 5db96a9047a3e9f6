(** What assembled matrices and vectors are: sums of local entries over all elements *)
From Coq Require Import List Arith ZArith QArith Qcanon.
From Verif Require Import Dict GmSpec QSums.
Import ListNotations.
Local Open Scope nat_scope.

Definition elements (g : numbering) : list nat := map fst (concat g).
Definition numbers (g : numbering) (e : nat) : list nat :=
  match find (fun er => fst er =? e) (concat g) with Some er => snd er | None => [] end.
(** entry (r, c) of the assembled matrix; [M e a b] is entry (a, b) of the matrix of element e *)
Definition global_entry (gr gc : numbering) (M : nat -> nat -> nat -> Qc) (r c : nat) : Qc :=
  qsum (map (fun e => sumq (length (numbers gr e)) (fun a => sumq (length (numbers gc e)) (fun b =>
    if andb (nth a (numbers gr e) 0 =? r) (nth b (numbers gc e) 0 =? c) then M e a b else 0%Qc))) (elements gr)).
(** entry r of the assembled vector *)
Definition global_value (g : numbering) (b : nat -> nat -> Qc) (r : nat) : Qc :=
  qsum (map (fun e => sumq (length (numbers g e)) (fun a => if nth a (numbers g e) 0 =? r then b e a else 0%Qc)) (elements g)).
(** ranks have the same elements *)
Definition same_elements (g h : numbering) : Prop := Forall2 (fun x y => forall e, In e (map fst x) <-> In e (map fst y)) g h.
(** [x] solves row r of the system *)
Definition row_solved (n : nat) (A : nat -> nat -> Qc) (b : nat -> Qc) (x : nat -> Qc) (r : nat) : Prop :=
  sumq n (fun c => A r c * x c)%Qc = b r.

(** python indices: dof i of n *)
Definition index_of_dof (n : nat) (i : Z) (d : nat) : Prop := d < n /\ (i = Z.of_nat d \/ i = (Z.of_nat d - Z.of_nat n)%Z).
(** the last of a list of operations on dofs (given by python indices) wins *)
Fixpoint last_op {A} (n : nat) (ops : list (A * Z)) (d : nat) : option A :=
  match ops with
  | [] => None
  | (a, i) :: r => match last_op n r d with
                   | Some a' => Some a'
                   | None => if ((i =? Z.of_nat d) || (i =? Z.of_nat d - Z.of_nat n))%Z%bool then Some a else None
                   end
  end.

(** [w] is [v] with the threshold [t]: zero if [v] is between -t and t *)
Definition cut_to (t v w : Qc) : Prop := ((- t < v < t)%Qc -> w = 0%Qc) /\ (~ (- t < v < t)%Qc -> w = v).
