(** What is expected of a cached function, in terms of the calls made and of arrays being close. *)
From Coq Require Import List ZArith QArith Qcanon Bool String.
From Verif Require Import NdCacheModel.
Import ListNotations.
Local Open Scope nat_scope.

(** entries differ by at most 1e-8 + 1e-5 times the second *)
Definition near (a b : Qc) : Prop :=
  (a - b <= Q2Qc (1 # 100000000) + Q2Qc (1 # 100000) * b)%Qc /\ (b - a <= Q2Qc (1 # 100000000) + Q2Qc (1 # 100000) * b)%Qc \/
  (a - b <= Q2Qc (1 # 100000000) - Q2Qc (1 # 100000) * b)%Qc /\ (b - a <= Q2Qc (1 # 100000000) - Q2Qc (1 # 100000) * b)%Qc.
Definition near_array (a b : arr) : Prop :=
  shape a = shape b /\ forall i x y, nth_error (data a) i = Some x -> nth_error (data b) i = Some y -> near x y.

Definition is_hit (l : logged) : bool := match l_out l with Hit _ => true | _ => false end.
(** the calls that computed something *)
Definition made (l : logged) : list entry := match l_out l with Made r => [{| e_arrays := l_args l; e_value := r; e_str := l_str l |}] | _ => [] end.
Definition returned (l : logged) : list nat := match l_out l with Made r | Hit r => [r] | Raised => [] end.
(** no array that was passed to a call or returned by one is written to *)
Fixpoint polite (F : string -> list arr -> option arr) (used : list nat) (st : state) (ops : list op) : Prop :=
  match ops with
  | [] => True
  | o :: r => match o with Set_array x _ => ~ In x used | _ => True end /\
      match step F st o with
      | None => True
      | Some (st', ls) => polite F (flat_map (fun l => l_args l ++ returned l) ls ++ used) st' r
      end
  end.
(** all calls use the same bound *)
Definition bounded_by (m : nat) (ops : list op) : Prop := forall xs s k, In (Call xs s k) ops -> k = m.
Definition is_made (l : logged) : bool := match l_out l with Made _ => true | _ => false end.
(** calls that the cache may answer: same text, arrays near *)
Definition alike (a b : logged) : Prop := l_str a = l_str b /\ Forall2 near_array (l_arrays a) (l_arrays b).
(** the caching was given up: more than 100 calls, less than one in twenty a hit *)
Definition given_up (L : list logged) : Prop := exists L1 L2, L = L1 ++ L2 /\ 100 < List.length L1 /\ 20 * List.length (List.filter is_hit L1) < List.length L1.
