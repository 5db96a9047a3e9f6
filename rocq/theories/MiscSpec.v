(** What is expected of the small tools. *)
From Coq Require Import List ZArith QArith Qround Bool String Ascii Sorted.
From Verif Require Import Dict MemoModel MiscModel.
Import ListNotations.
Local Open Scope Z_scope.
Local Open Scope string_scope.

(** ** graphs *)
Section Graph.
  Context {K : Type}.
  (** an edge was added between nodes that existed *)
  Definition joined (l : list (gop K)) (a b : K) : Prop :=
    exists l1 l2, l = (l1 ++ AddEdge a b :: l2)%list /\ In (AddNode a) l1 /\ In (AddNode b) l1.
  Definition neighbour (l : list (gop K)) (a b : K) : Prop := joined l a b \/ joined l b a.
  (** every edge in one of its two directions, once *)
  Definition drawn_once (edge : K -> K -> Prop) (pl : list (K * K)) : Prop :=
    NoDup pl /\ (forall a b, edge a b <-> In (a, b) pl \/ In (b, a) pl) /\ (forall a b, In (a, b) pl -> In (b, a) pl -> a = b).
End Graph.

(** ** rankings *)
Section Ranking.
  Context {C : Type}.
  Notation record := (string * Z * C)%type.
  Definition host (v : record) : string := fst (fst v).
  (** the last report of a host *)
  Definition latest (l : list record) (h : string) : option record := List.find (fun v => String.eqb (host v) h) (rev l).
  Definition ranked (leb : C -> C -> bool) (l : list record) : Prop := StronglySorted (fun a b => leb (snd a) (snd b) = true) l.
  (** the text holds these records, in this order, and is read as such *)
  Definition holds (to_float : string -> option C) (file : string) (l : list record) : Prop :=
    exists d, start to_float file = Some (d, map host l) /\ d = number 0 l.
  Definition no_char (c : ascii) (s : string) : Prop := ~ In c (list_ascii_of_string s).
End Ranking.
