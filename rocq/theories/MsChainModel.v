(** Model of chaining regular gathering matrices: /repo/msepy/tools/gathering_matrix.py 20-115 *)
From Coq Require Import List Arith ZArith Bool Lia.
From Verif Require Import Dict GmModel.
Import ListNotations.

Notation mgm := (list (list nat)).            (* element -> local dof -> number *)
(** 208-213 [np.max + 1] *)
Definition m_num (g : mgm) : nat := list_max (map S (concat g)).

(** 87-101 method 1: numbers of later members are shifted, [np.hstack] *)
Fixpoint zip_app (a b : mgm) : mgm :=
  match a, b with x :: a', y :: b' => (x ++ y) :: zip_app a' b' | _, _ => [] end.
Fixpoint method_1 (off : nat) (gms : list mgm) : mgm :=
  match gms with
  | [] => []
  | [g] => map (map (Nat.add off)) g
  | g :: r => zip_app (map (map (Nat.add off)) g) (method_1 (off + m_num g) r)
  end.

(** 62-77 method 0: per member the filter and the new numbers (initially ones) *)
Notation mstate := (nat * list nat)%type.
Definition renumber (row : list nat) (cur : nat) (st : mstate) : option (nat * mstate) :=
  let fv := filter (fun d => fst st <=? d) row in
  match set_all fv (seq cur (length fv)) (snd st) with
  | Some c => Some (cur + length fv, (fst st + length fv, c))
  | None => None
  end.
(** the members, one element *)
Fixpoint renumber_members (rows : list (list nat)) (cur : nat) (sts : list mstate) : option (nat * list mstate) :=
  match rows, sts with
  | [], [] => Some (cur, [])
  | r :: rows', s :: sts' => match renumber r cur s with
                             | Some (cur1, s1) => match renumber_members rows' cur1 sts' with
                                                  | Some (cur2, s2) => Some (cur2, s1 :: s2)
                                                  | None => None
                                                  end
                             | None => None
                             end
  | _, _ => None
  end.
Fixpoint renumber_elements (gms : list mgm) (es : list nat) (cur : nat) (sts : list mstate) : option (nat * list mstate) :=
  match es with
  | [] => Some (cur, sts)
  | e :: r => match obind gms (fun g => nth_error g e) with
              | Some rows => match renumber_members rows cur sts with
                             | Some (cur1, sts1) => renumber_elements gms r cur1 sts1
                             | None => None
                             end
              | None => None
              end
  end.
(** 79-86 the rows of the chain *)
Definition new_row (gms : list mgm) (sts : list mstate) (e : nat) : option (list nat) :=
  option_map (@concat nat)
    (obind (combine gms sts) (fun gs => match nth_error (fst gs) e with
                                        | Some row => obind row (nth_error (snd (snd gs)))
                                        | None => None
                                        end)).
Definition method_0 (n : nat) (gms : list mgm) : option mgm :=
  match renumber_elements gms (seq 0 n) 0 (map (fun g => (0, repeat 1 (m_num g))) gms) with
  | Some (_, sts) => obind (seq 0 n) (new_row gms sts)
  | None => None
  end.

(** 34-56: members must have equally many elements *)
Definition m_chain (method : nat) (gms : list mgm) : option mgm :=
  match gms with
  | [] => None
  | g0 :: _ => if forallb (fun g => length g =? length g0) gms
               then match method with
                    | 0 => method_0 (length g0) gms
                    | 1 => Some (method_1 0 gms)
                    | _ => None
                    end
               else None
  end.

(** 9-12, 55-115: the last chain is kept with the names of its members; [env] the matrix of a name *)
Notation mcache := (option (list nat * mgm)).
Definition m_get (env : nat -> mgm) (c : mcache) (names : list nat) (method : nat) : option mgm * mcache :=
  match c with
  | Some (s, g) => if sig_eqb names s then (Some g, c)
                   else match m_chain method (map env names) with Some g' => (Some g', Some (names, g')) | None => (None, c) end
  | None => match m_chain method (map env names) with Some g' => (Some g', Some (names, g')) | None => (None, c) end
  end.
Definition m_history (env : nat -> mgm) (calls : list (list nat * nat)) : mcache :=
  fold_left (fun c nm => snd (m_get env c (fst nm) (snd nm))) calls None.
