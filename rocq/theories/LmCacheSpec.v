(** What users expect of a matrix, whatever was read, customised or assembled before *)
From Coq Require Import List Arith String.
From Verif Require Import Dict GmModel LmModel LmCacheModel.
Import ListNotations.
Local Open Scope nat_scope.

(** ** what users expect to read: the customisation, else the operation applied to what is read of the operands *)
Fixpoint want (n : nat) (st : lstate) (i e : nat) : option smat :=
  match n with
  | 0 => None
  | S n =>
      match nth_error (objs st) i with
      | None => None
      | Some o =>
          match get Nat.eqb (o_cust o) e with
          | Some r => deref (heap st) r
          | None =>
              match o_kind o with
              | KData _ d shape => match get Nat.eqb d e with Some r => deref (heap st) r | None => Some (zero_mat (shape e)) end
              | KCall _ f => Some (f e)
              | KUn f s => option_map f (want n st s e)
              | KTr s => option_map tr (want n st s e)
              | KBin _ f a b => match want n st a e, want n st b e with Some x, Some y => Some (f x y) | _, _ => None end
              | KBlk f b bs => option_map f (obind (b :: bs) (fun j => want n st j e))
              end
          end
      end
  end.
Definition expected (st : lstate) (i e : nat) : option smat := want (S i) st i e.
