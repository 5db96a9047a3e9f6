(** Vocabulary for the statements about the nonlinear solvers. *)
From Coq Require Import List ZArith QArith Qcanon Bool Arith.
From Verif Require Import NrModel.
Import ListNotations.
Local Open Scope nat_scope.

(** ** norms *)
Definition below (b : fl) (a : Q) : Prop := exists q, b = Fin q /\ (q < a)%Q.
(** more than a hundred times, and grown *)
Definition blown_up (old new : fl) : Prop := exists o, old = Fin o /\ (new = Inf \/ exists n, new = Fin n /\ (o < n)%Q /\ (100 * o < n)%Q).
(** decreased by less than 1e-4 of its size *)
Definition stalled (old new : fl) : Prop := exists o n, old = Fin o /\ new = Fin n /\ (n < o)%Q /\ (o - n < (1 # 10000) * o)%Q.
Definition nonneg (b : fl) : Prop := forall q, b = Fin q -> (0 <= q)%Q.
(** the norms of iterations [k] and [k + 1] (counted from 1) *)
Definition grows_at (betas : list fl) (k : nat) : Prop := exists i o n, k = S (S i) /\ nth_error betas i = Some o /\ nth_error betas (S i) = Some n /\ blown_up o n.
Definition stalls_at (betas : list fl) (k : nat) : Prop := exists i o n, k = S (S i) /\ nth_error betas i = Some o /\ nth_error betas (S i) = Some n /\ stalled o n.
Definition small_at (betas : list fl) (atol : Q) (k : nat) : Prop := exists i n, k = S i /\ nth_error betas i = Some n /\ below n atol.
Definition limit (m : maxit) : Z := match m with Int n | Forced n => n end.

(** ** values at unknown [u], element [e], place [l] *)
Definition at3 {X} (x : list (list (list X))) (u e l : nat) : option X :=
  match nth_error x u with
  | None => None
  | Some xu => match nth_error xu e with None => None | Some xe => nth_error xe l end
  end.
Definition qsum (l : list Qc) : Qc := fold_right Qcplus 0%Qc l.
(** one value per dof *)
Definition single_valued (gms : list (list (list nat))) (x : iterate) : Prop :=
  forall u e l e' l' d, at3 gms u e l = Some d -> at3 gms u e' l' = Some d -> at3 x u e l = at3 x u e' l'.
Definition fits (gms : list (list (list nat))) (x : iterate) : Prop := forall u e l, at3 gms u e l = None <-> at3 x u e l = None.

(** ** customizations *)
Definition is_AddFix (w : what) : Prop := exists u d p, w = AddFix u d p.
Definition is_SetX0 (w : what) : Prop := exists u d v, w = SetX0 u d v.
Definition is_Fixed (w : what) : Prop := exists u d, w = Fixed u d.
Definition is_SetDofs (w : what) : Prop := exists u d v, w = SetDofs u d v.
(** the solution without the multiplier of an additional constraint *)
Definition solution (ws : list what) (raw x : list Qc) : Prop :=
  ((forall w, In w ws -> ~ is_AddFix w) /\ x = raw) \/
  ((exists a w b, ws = a ++ w :: b /\ is_AddFix w /\ (forall v, In v (a ++ b) -> ~ is_AddFix v)) /\ x = removelast raw).
(** iterations: the linear system at each iterate is solved, the solution is added (Newton) or replaces it (Picard) *)
Section Path.
Variables (gms : list (list (list nat))) (chain : nat -> nat -> nat) (lin : iterate -> list what -> option (list Qc)) (ws : list what).
(** [y] has a value at each place with a dof, the entry of [x] with the chained number of the dof *)
Definition distributed (x : list Qc) (y : iterate) : Prop :=
  fits gms y /\ forall u e l, at3 y u e l = match at3 gms u e l with Some d => nth_error x (chain u d) | None => None end.
Definition sum_of (x y z : iterate) : Prop :=
  forall u e l, at3 z u e l = match at3 x u e l, at3 y u e l with Some a, Some b => Some (a + b)%Qc | _, _ => None end.
Inductive newton_path : iterate -> list (list Qc) -> iterate -> Prop :=
| np_nil x : newton_path x [] x
| np_cons x raw y dx x1 ys xf : lin x ws = Some raw -> solution ws raw y -> distributed y dx -> sum_of x dx x1 ->
    newton_path x1 ys xf -> newton_path x (y :: ys) xf.
Inductive picard_path : iterate -> list (list Qc) -> iterate -> Prop :=
| pp_nil x : picard_path x [] x
| pp_cons x raw y x1 ys xf : lin x ws = Some raw -> solution ws raw y -> distributed y x1 ->
    picard_path x1 ys xf -> picard_path x (y :: ys) xf.
End Path.
(** the linear solver leaves fixed dofs alone: what identity rows with right hand side zero ask for (C21, C22) *)
Definition respects_fixed (chain : nat -> nat -> nat) (lin : iterate -> list what -> option (list Qc)) : Prop :=
  forall xi ws x u dofs d v, lin xi ws = Some x -> In (Fixed u dofs) ws -> In d dofs -> nth_error x (chain u d) = Some v -> v = 0%Qc.
(** it imposes the prescribed values *)
Definition imposes (chain : nat -> nat -> nat) (lin : iterate -> list what -> option (list Qc)) : Prop :=
  forall xi ws x u dofs vals i d v y, lin xi ws = Some x -> In (SetDofs u dofs vals) ws -> nth_error dofs i = Some d -> nth_error vals i = Some v ->
    nth_error x (chain u d) = Some y -> y = v.
(** a boundary condition asks for [v] at dof [d] of unknown [u] *)
Definition prescribed (h : list (nat * list nat * list Qc)) (u d : nat) (v : Qc) : Prop :=
  exists dofs vals i, In (u, dofs, vals) h /\ nth_error dofs i = Some d /\ nth_error vals i = Some v.

(** the report of a run of [k] iterations with at most [n]: why it ended, and that nothing ended it before *)
Definition truthful (B : list fl) (atol : Q) (k : nat) (n : Z) (j : nat) (i : Z) : Prop :=
  (forall k', 1 <= k' < k -> ~ small_at B atol k' /\ (Z.of_nat k' < n)%Z /\ ~ grows_at B k' /\ ~ stalls_at B k') /\
  ((j = 1 /\ i = 0%Z /\ small_at B atol k) \/
   (j = 2 /\ i = Z.of_nat k /\ ~ small_at B atol k /\ (n <= Z.of_nat k)%Z) \/
   (j = 3 /\ i = (-1)%Z /\ ~ small_at B atol k /\ (Z.of_nat k < n)%Z /\ grows_at B k) \/
   (j = 4 /\ i = Z.of_nat k /\ ~ small_at B atol k /\ (Z.of_nat k < n)%Z /\ stalls_at B k)).
(** customizations a scheme never applies *)
Definition unknown_to (s : scheme) (w : what) : Prop := match s with Newton => is_SetDofs w | Picard => is_Fixed w \/ is_SetX0 w end.
(** the numbers of places *)
Definition shape {X} (x : list (list (list X))) : list (list nat) := map (map (@length X)) x.
(** how many additional constraints *)
Definition extras (ws : list what) : nat := length (filter (fun w => match w with AddFix _ _ _ => true | _ => false end) ws).
(** differences of successive vectors *)
Definition minus (a b : list Qc) : list Qc := map (fun p => (fst p - snd p)%Qc) (combine a b).
Fixpoint diffs (p : list Qc) (ys : list (list Qc)) : list (list Qc) := match ys with [] => [] | y :: r => minus p y :: diffs y r end.
(** every chained number belongs to a place *)
Definition covers (gms : list (list (list nat))) (chain : nat -> nat -> nat) (N : nat) : Prop := forall n, n < N <-> exists u e l d, at3 gms u e l = Some d /\ chain u d = n.
