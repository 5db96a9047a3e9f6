(** One-to-one correspondence with the box that is said to be the domain. *)
From Coq Require Import Reals.
Local Open Scope R_scope.

Definition unit (x : R) : Prop := 0 <= x <= 1.
Definition bijection1 (f : R -> R) (a b : R) : Prop :=
  (forall r, unit r -> a <= f r <= b) /\
  (forall r r', unit r -> unit r' -> f r = f r' -> r = r') /\
  (forall X, a <= X <= b -> exists r, unit r /\ f r = X).
Definition bijection2 (f : R -> R -> R * R) (a b c d : R) : Prop :=
  (forall r s, unit r -> unit s -> a <= fst (f r s) <= b /\ c <= snd (f r s) <= d) /\
  (forall r s r' s', unit r -> unit s -> unit r' -> unit s' -> f r s = f r' s' -> r = r' /\ s = s') /\
  (forall X Y, a <= X <= b -> c <= Y <= d -> exists r s, unit r /\ unit s /\ f r s = (X, Y)).
Definition bijection3 (f : R -> R -> R -> R * R * R) (a b c d e g : R) : Prop :=
  (forall r s t, unit r -> unit s -> unit t -> a <= fst (fst (f r s t)) <= b /\ c <= snd (fst (f r s t)) <= d /\ e <= snd (f r s t) <= g) /\
  (forall r s t r' s' t', unit r -> unit s -> unit t -> unit r' -> unit s' -> unit t' ->
     f r s t = f r' s' t' -> r = r' /\ s = s' /\ t = t') /\
  (forall X Y Z, a <= X <= b -> c <= Y <= d -> e <= Z <= g -> exists r s t, unit r /\ unit s /\ unit t /\ f r s t = (X, Y, Z)).
