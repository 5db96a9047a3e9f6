(** What is wanted of the distribution of elements.  Independent of the model. *)
From Coq Require Import List Arith QArith Permutation.
From Verif Require Import Dict.
Import ListNotations.
Local Open Scope nat_scope.

(** every element has exactly one rank, no rank has another element or one twice, no rank is without elements *)
Definition dealt {K} (size : nat) (ks : list K) (ds : list (list K)) : Prop :=
  length ds = size /\
  (forall e, In e ks -> exists r, r < size /\ In e (nth r ds []) /\ forall r', r' < size -> In e (nth r' ds []) -> r' = r) /\
  (forall r e, In e (nth r ds []) -> In e ks) /\
  (forall r, r < size -> nth r ds [] <> [] /\ NoDup (nth r ds [])).

(** ... and the ranks are consecutive runs of the list *)
Definition dealt_in_order {K} (size : nat) (ks : list K) (ds : list (list K)) : Prop :=
  length ds = size /\ concat ds = ks /\ Forall (fun d => d <> []) ds.

(** [d] has the keys [es], in this order, with the values of [g] *)
Definition restriction {K V} (eqb : K -> K -> bool) (g : dict K V) (es : list K) (d : dict K V) : Prop :=
  keys d = es /\ forall e, In e es -> get eqb d e = get eqb g e.

(** [d'] is [d] with the keys of [ks] replaced by their positions in [ks] *)
Definition by_position {K V} (eqb : K -> K -> bool) (ks : list K) (d : dict K V) (d' : dict nat V) : Prop :=
  forall i e, nth_error ks i = Some e -> get Nat.eqb d' i = get eqb d e.

(** equality of keys is decided *)
Definition decides {K} (eqb : K -> K -> bool) : Prop := forall a b, eqb a b = true <-> a = b.
