(** What lines, parts and crossings are, without the code. *)
From Coq Require Import Reals.
From Verif Require Import SgModel.
Local Open Scope R_scope.

(** the point that divides A B in the ratio t : 1 - t *)
Definition at_ (s : seg) (t : R) : pt :=
  mkPt (ptx (sA s) + t * (ptx (sB s) - ptx (sA s))) (pty (sA s) + t * (pty (sB s) - pty (sA s))).

(** g is the stretch of s between two ratios, in either direction *)
Definition part_of (g s : seg) : Prop :=
  exists t u, 0 <= t <= 1 /\ 0 <= u <= 1 /\ sA g = at_ s t /\ sB g = at_ s u.

(** p is on the infinite line through s *)
Definition on_line (p : pt) (s : seg) : Prop := exists t, p = at_ s t.

(** the two ends differ in x by as much as the code can tell from vertical, or not at all *)
Definition steep_or_clear (s : seg) : Prop :=
  ptx (sA s) = ptx (sB s) \/ / 10 ^ 8 <= Rabs (ptx (sA s) - ptx (sB s)).

(** the line is level, or the code can tell it from level *)
Definition level_or_clear (s : seg) : Prop :=
  pty (sA s) = pty (sB s) \/
  / 10 ^ 8 * Rabs (ptx (sA s) - ptx (sB s)) <= Rabs (pty (sA s) - pty (sB s)).
