(** Model of the texts in /repo/tools/quadrature.py: which orders and categories `Quadrature` accepts, and the key
    of its four global caches. *)
From Coq Require Import List ZArith Bool String Ascii.
From Verif Require Import MemoModel MiscModel.
Import ListNotations.
Local Open Scope Z_scope.
Local Open Scope string_scope.

(** c[:len(pre)] == pre, and c[len(pre):] *)
Fixpoint after_prefix (pre c : string) : option string :=
  match pre with
  | EmptyString => Some c
  | String a p => match c with String b q => if Ascii.eqb a b then after_prefix p q else None | EmptyString => None end
  end.
Definition has_prefix (pre c : string) : bool := match after_prefix pre c with Some _ => true | None => false end.
(** quadrature.py:87-109 *)
Definition coded (c : string) : bool := String.eqb c "Gauss" || String.eqb c "Lobatto".
(** 71-76 *)
Definition custom (c : string) : bool := has_prefix "CUS-NODES@" c || has_prefix "nd@" c.
(** 113-127, for one axis *)
Definition check1 (p : Z) (c : string) : bool :=
  if String.eqb c "Gauss" then true
  else if String.eqb c "Lobatto" then (1 <=? p)%Z
  else match after_prefix "CUS-NODES@" c with
       | Some r => (p =? Z.of_nat (List.length (split "-" r)))%Z
       | None => match after_prefix "nd@" c with
                 | Some r => (p =? Z.of_nat (List.length (split "=" r)) - 1)%Z
                 | None => false
                 end
       end.
(** 111-127; p[i] raises IndexError if there are more categories than orders *)
Fixpoint check_p (p : list Z) (cats : list string) : bool :=
  match cats, p with
  | [], _ => true
  | c :: r, q :: t => check1 q c && check_p t r
  | _ :: _, [] => false
  end.
(** 79 *)
Definition cache_key (p : list Z) (cats : list string) : string := "[" ++ join ", " (map str_z p) ++ "]" ++ join "-" cats.
(** 58-80; None: an exception *)
Definition init (p : list Z) (cats : list string) : option string :=
  if forallb (fun q => (0 <=? q)%Z) p && (forallb coded cats || forallb custom cats) && check_p p cats then Some (cache_key p cats) else None.
