(** Vocabulary for the statements about time sequences. *)
From Coq Require Import List ZArith QArith String Ascii.
From Verif Require Import MetricKeyModel TimeModel.
Import ListNotations.
Local Open Scope Q_scope.

(** ** function time sequences: steps in units of 1e-8 and times, for the increments [d 0], [d 1], ... *)
Fixpoint step (interval : Q) (n : nat) : Z := match n with O => 0%Z | S n => rnd (inject_Z (step interval n) + interval * E8) end.
Fixpoint time (t0 : Q) (d : nat -> Q) (n : nat) : Q := match n with O => t0 | S n => time t0 d n + d n end.
(** the polygon through the points (step, time) *)
Definition on_polygon (interval t0 : Q) (d : nat -> Q) (k : Z) (t : Q) : Prop :=
  exists n, (step interval n <= k <= step interval (S n))%Z /\
    t == time t0 d n + inject_Z (k - step interval n) / inject_Z (step interval (S n) - step interval n) * (time t0 d (S n) - time t0 d n).
(** the questions of a history *)
Definition asked (interval : Q) (func : nat -> option Q) (t0 : Q) (l : list Q) : fseq := fasks interval func (new_fseq t0) l.
(** ** texts *)
Local Open Scope string_scope.
(** a decimal literal, with or without a sign in front *)
Definition literal (t : string) (v : Q) : Prop :=
  (exists q, number t = Some q /\ v = q) \/ (exists w q, t = String "-" w /\ number w = Some q /\ v = Qopp q).
(** no letter stands next to a letter, a digit, a point or an underscore *)
Definition apart (s : string) : Prop :=
  forall p c q, s = p ++ String c q -> letter c = true ->
    (forall p' a, p = p' ++ String a "" -> word_char a = false) /\ (forall a q', q = String a q' -> word_char a = false).
(** a letter directly before a power *)
Definition base_of_power (c : ascii) (s : string) : Prop := exists p q, s = p ++ String c (String "*" (String "*" q)).
Fixpoint env_of (kw : list (ascii * Q)) (c : ascii) : option Q := match kw with [] => None | (a, v) :: r => if Ascii.eqb a c then Some v else env_of r c end.
