(** C37: the nonlinear solvers.  Only statements and references to proofs; vocabulary in NrSpec.v, model in NrModel.v.
    In all of them the gathering matrices, the chained numbers, the norm, the linear solver and the limits are arbitrary. *)
From Coq Require Import List ZArith QArith Qcanon Qabs Bool Arith Lia.
From Verif Require Import NrModel NrSpec NrProofs NrRun NrMain NrTotal NrPicard.
Import ListNotations.
Local Open Scope nat_scope.


(** * termination and reports *)

(** the loop ends, whatever the linear systems do *)
Theorem newton_stops gms chain nrm lin atol m cs st x0 : snd (newton gms chain nrm lin atol m cs st x0) <> Fuel.
Proof. exact (newton_ends gms chain nrm lin atol m cs st x0). Qed.
Print Assumptions newton_stops.

(** and a larger bound of the model changes nothing *)
Theorem newton_bound_irrelevant gms chain nrm lin atol m fuel more cs st xi k B : snd (newton_loop gms chain nrm lin atol m fuel cs st xi k B) <> Fuel -> newton_loop gms chain nrm lin atol m (fuel + more) cs st xi k B = newton_loop gms chain nrm lin atol m fuel cs st xi k B.
Proof. exact (newton_more gms chain nrm lin atol m fuel more cs st xi k B). Qed.
Print Assumptions newton_bound_irrelevant.

Theorem picard_stops gms chain N nrm lin rep atol m uniq cs st x0 : snd (picard_loop gms chain N nrm lin rep atol m uniq (enough m) cs st x0 0 []) <> Fuel.
Proof. exact (picard_ends gms chain N nrm lin rep atol m uniq cs st x0). Qed.
Print Assumptions picard_stops.

(** at most max(1, maxiter) linear systems are solved; there is one norm for each *)
Theorem nonlinear_iterations gms chain N nrm lin rep atol m uniq s h mm x0 mm' a i B :
  solve gms chain N nrm lin rep atol m uniq s h mm x0 = (mm', Some (a, i, B)) -> 1 <= length B /\ (Z.of_nat (length B) <= Z.max 1 (limit m))%Z.
Proof. intros H. destruct (solve_first _ _ _ _ _ _ _ _ _ _ _ _ _ _ _ _ _ H) as [j Hj]. split; [apply Hj|apply (first_stop_bound _ _ _ _ _ _ Hj)]. Qed.
Print Assumptions nonlinear_iterations.
(** the report is true, and the run ends at the first iteration with a reason *)
Theorem nonlinear_report gms chain N nrm lin rep atol n uniq s h mm x0 mm' a i B :
  solve gms chain N nrm lin rep atol (Int n) uniq s h mm x0 = (mm', Some (a, i, B)) -> Forall nonneg B ->
  exists j, truthful B atol (length B) n j i.
Proof. intros H Hn. destruct (solve_first _ _ _ _ _ _ _ _ _ _ _ _ _ _ _ _ _ H) as [j Hj]. exists j. now apply first_stop_truthful. Qed.
Print Assumptions nonlinear_report.
(** 'convergence info' 0 means that the last norm is below the tolerance, and conversely *)
Theorem info_zero_iff_converged gms chain N nrm lin rep atol n uniq s h mm x0 mm' a i B :
  solve gms chain N nrm lin rep atol (Int n) uniq s h mm x0 = (mm', Some (a, i, B)) -> Forall nonneg B ->
  i = 0%Z <-> small_at B atol (length B).
Proof.
  intros H Hn. destruct (solve_first _ _ _ _ _ _ _ _ _ _ _ _ _ _ _ _ _ H) as [j Hj]. destruct (first_stop_truthful _ _ _ _ _ _ Hj Hn) as [_ T].
  destruct Hj as (_ & H1 & _). destruct T as [T|[T|[T|T]]]; split; try tauto; intros ->; exfalso; destruct T as (_ & E & _); lia.
Qed.
Print Assumptions info_zero_iff_converged.
(** a forced number of iterations is made exactly, whatever the norms *)
Theorem forced_iterations gms chain N nrm lin rep atol n uniq s h mm x0 mm' a i B :
  solve gms chain N nrm lin rep atol (Forced n) uniq s h mm x0 = (mm', Some (a, i, B)) -> Z.of_nat (length B) = Z.max 1 n /\ i = Z.of_nat (length B).
Proof. intros H. destruct (solve_first _ _ _ _ _ _ _ _ _ _ _ _ _ _ _ _ _ H) as [j Hj]. apply first_stop_forced in Hj. tauto. Qed.
Print Assumptions forced_iterations.
(** finding: norms that are not numbers are not noticed, the run goes on to the limit *)
Theorem nan_runs_to_limit gms chain N nrm lin rep atol n uniq s h mm x0 mm' a i B :
  solve gms chain N nrm lin rep atol (Int n) uniq s h mm x0 = (mm', Some (a, i, B)) -> Forall (eq NaN) B -> Z.of_nat (length B) = Z.max 1 n /\ i = Z.of_nat (length B).
Proof. intros H Hn. destruct (solve_first _ _ _ _ _ _ _ _ _ _ _ _ _ _ _ _ _ H) as [j Hj]. apply first_stop_nan in Hj; tauto. Qed.
Print Assumptions nan_runs_to_limit.

(** * solutions *)

(** the solution is what the unknowns have afterwards *)
Theorem solution_is_stored gms chain N nrm lin rep atol m uniq s h mm x0 mm' a i B : solve gms chain N nrm lin rep atol m uniq s h mm x0 = (mm', Some (a, i, B)) ->
  match a with Local x => s = Newton /\ m_store mm' = Some x | Global x => s = Picard /\ exists xl, m_store mm' = Some xl /\ distributed gms chain x xl end.
Proof. exact (solve_store gms chain N nrm lin rep atol m uniq s h mm x0 mm' a i B). Qed.
Print Assumptions solution_is_stored.

(** the solution is the initial guess plus the solutions of the linear systems at the successive iterates; the norms are theirs *)
Theorem newton_solution gms chain nrm lin atol m cs st x0 mm x k B j i : newton gms chain nrm lin atol m cs st x0 = (mm, Done x k B j i) ->
  (forall w, In w (map fst cs) -> ~ is_SetX0 w) ->
  exists ys, B = map nrm ys /\ newton_path gms chain lin (map fst cs) x0 ys x /\
   forall u e l d v, at3 gms u e l = Some d -> at3 x0 u e l = Some v ->
     exists vs, omap (fun y => nth_error y (chain u d)) ys = Some vs /\ at3 x u e l = Some (v + qsum vs)%Qc.
Proof. exact (newton_value gms chain nrm lin atol m cs st x0 mm x k B j i). Qed.
Print Assumptions newton_solution.

(** a dof shared by elements keeps one value *)
Theorem newton_single_valued gms chain nrm lin atol m cs st x0 mm x k B j i : newton gms chain nrm lin atol m cs st x0 = (mm, Done x k B j i) -> single_valued gms x0 -> single_valued gms x.
Proof. exact (newton_single gms chain 0 nrm lin (fun _ _ => None) atol m cs st x0 mm x k B j i). Qed.
Print Assumptions newton_single_valued.

(** each iterate solves the system at the one before; the norms are those of the differences *)
Theorem picard_solution gms chain N nrm lin rep atol m uniq h mm x0 g0 mm' x i B : solve gms chain N nrm lin rep atol m uniq Picard h mm x0 = (mm', Some (Global x, i, B)) ->
  covers gms chain N -> length g0 = N -> distributed gms chain g0 x0 ->
  exists ys y xf, ys = y ++ [x] /\ picard_path gms chain lin (map fst (m_cus mm ++ flat_map (unhold Picard) h)) x0 ys xf /\
    m_store mm' = Some xf /\ B = map nrm (diffs g0 ys).
Proof. exact (picard_value gms chain N nrm lin rep atol m uniq h mm x0 g0 mm' x i B). Qed.
Print Assumptions picard_solution.

(** * boundary conditions *)

(** essential boundary conditions hold exactly at every place of the dof, whatever the initial guess *)
Theorem newton_boundary_values gms chain N nrm lin rep atol m uniq h x0 st mm' x i B : solve gms chain N nrm lin rep atol m uniq Newton h {| m_cus := []; m_store := st |} x0 = (mm', Some (Local x, i, B)) ->
  respects_fixed chain lin -> fits gms x0 ->
  forall u d v, prescribed h u d v -> (forall v', prescribed h u d v' -> v' = v) ->
  forall e l, at3 gms u e l = Some d -> at3 x u e l = Some v.
Proof. exact (newton_boundary gms chain N nrm lin rep atol m uniq h x0 st mm' x i B). Qed.
Print Assumptions newton_boundary_values.

Theorem picard_boundary_values gms chain N nrm lin rep atol m uniq h x0 st mm' x i B : solve gms chain N nrm lin rep atol m uniq Picard h {| m_cus := []; m_store := st |} x0 = (mm', Some (Global x, i, B)) ->
  imposes chain lin -> forall u d v, prescribed h u d v -> forall e l, at3 gms u e l = Some d ->
  nth_error x (chain u d) = Some v /\ exists xl, m_store mm' = Some xl /\ at3 xl u e l = Some v.
Proof. exact (picard_boundary gms chain N nrm lin rep atol m uniq h x0 st mm' x i B). Qed.
Print Assumptions picard_boundary_values.

(** * customizations *)

(** with solvable systems, fresh customizations the scheme knows and at most one extra row there is no exception *)
Theorem newton_solve_succeeds gms chain N nrm lin rep atol m uniq h mm x0 (ws := map fst (m_cus mm ++ flat_map (unhold Newton) h)) : (forall xi, exists raw, lin xi ws = Some raw /\ length raw = N + extras ws) -> extras ws <= 1 ->
  (forall u e l d, at3 gms u e l = Some d -> chain u d < N) -> shape x0 = shape gms ->
  (forall w f, In (w, f) (m_cus mm) -> f = 0 /\ ~ is_SetDofs w) ->
  (forall u d p, In (AddFix u d p) ws -> p = (-1)%Z) ->
  (forall u dofs vals, In (SetX0 u dofs vals) ws -> u < length gms /\ length vals = length dofs) ->
  exists mm' x i B, solve gms chain N nrm lin rep atol m uniq Newton h mm x0 = (mm', Some (Local x, i, B)).
Proof. exact (solve_newton_total gms chain N nrm lin rep atol m uniq h mm x0). Qed.
Print Assumptions newton_solve_succeeds.

(** finding: a system with customizations, or with essential boundary conditions in nonlinear rows, can be solved once
    only; every later call fails, with any scheme and arguments *)
Theorem second_solve_raises gms chain N nrm lin rep atol m uniq s h mm x0 mm' r :
  solve gms chain N nrm lin rep atol m uniq s h mm x0 = (mm', Some r) -> m_cus mm <> [] \/ h <> [] ->
  forall chain' N' nrm' lin' rep' atol' m2 uniq' s' x0', snd (solve gms chain' N' nrm' lin' rep' atol' m2 uniq' s' h mm' x0') = None.
Proof.
  intros H Hne chain' N' nrm' lin' rep' atol' m2 uniq' s' x0'. apply solve_keeps in H. destruct H as [Hf H1].
  destruct (m_cus mm') as [|c cs] eqn:E.
  - exfalso. destruct (m_cus mm) as [|c0 cs0]; [|discriminate]. destruct Hne as [Hne|Hne]; [easy|].
    destruct h as [|[[u d] v] h]; [easy|]. destruct s; discriminate.
  - apply (solve_used gms chain' N' nrm' lin' rep' atol' m2 uniq' s' h mm' x0' c); [rewrite E; now left|]. rewrite (H1 c) by now left. easy.
Qed.
Print Assumptions second_solve_raises.

(** a customization the scheme does not apply is reported, never ignored *)
Theorem foreign_customization_raises gms chain N nrm lin rep atol m uniq s h mm x0 w f : In (w, f) (m_cus mm) -> unknown_to s w -> snd (solve gms chain N nrm lin rep atol m uniq s h mm x0) = None.
Proof. exact (solve_unknown gms chain N nrm lin rep atol m uniq s h mm x0 w f). Qed.
Print Assumptions foreign_customization_raises.

(** finding: with Picard an additional constraint is possible only if the entry of the guess at the local place with the global number (a wrong index) is zero *)
Theorem picard_constraint_guess gms chain N nrm lin rep atol m uniq h mm x0 mm' r u d p : solve gms chain N nrm lin rep atol m uniq Picard h mm x0 = (mm', Some r) -> In (AddFix u d p) (map fst (m_cus mm)) -> uniq = true /\ exists e, rep u d = Some e /\ at3 x0 u e d = Some 0%Qc.
Proof. exact (picard_constraint gms chain N nrm lin rep atol m uniq h mm x0 mm' r u d p). Qed.
Print Assumptions picard_constraint_guess.

(** finding: a run that fails in a later iteration leaves the last increment, no iterate, in the unknowns *)
Theorem failed_run_keeps_iterates_refuted : exists gms chain nrm lin atol m x0 mm, newton gms chain nrm lin atol m [] (Some x0) x0 = (mm, Raise) /\
  m_store mm <> Some x0 /\ forall ys x, newton_path gms chain lin [] x0 ys x -> m_store mm <> Some x.
Proof.
  pose (q := fun z => Q2Qc (inject_Z z)).
  exists [[[0]]], (fun _ d => d), (fun _ => Fin 1), (fun xi _ => match xi with [[[v]]] => if Qc_eq_bool v (q 5%Z) then Some [q 1%Z] else None | _ => None end), (1 # 10)%Q, (Int 5), [[[q 5%Z]]],
    {| m_cus := []; m_store := Some [[[q 1%Z]]] |}.
  split; [vm_compute; reflexivity|]. split; [cbn [m_store]; intros E; vm_compute in E; discriminate|].
  intros ys x Hp E. cbn [m_store] in E. injection E as <-. inversion Hp as [|x' raw y dx x1 ys' xf Hl Hs [Hf Hd] Ha Hp' E1 E2 E3]; subst.
  assert (raw = [q 1%Z]) by (vm_compute in Hl; injection Hl as <-; vm_compute; reflexivity). subst raw.
  assert (Ey : y = [q 1%Z]) by (destruct Hs as [[_ ->]|[(a & w & b & Ea & _) _]]; [easy|now destruct a]). subst y.
  assert (H6 : at3 x1 0 0 0 = Some (q 6%Z)) by (rewrite (Ha 0 0 0), (Hd 0 0 0); vm_compute; reflexivity).
  inversion Hp' as [|x' raw' y dx' x2 ys2 xf Hl' _ _ _ _ E1 E2 E3]; subst.
  - cbn in H6. vm_compute in H6. discriminate.
  - destruct x1 as [|[|[|v [|]] [|]] [|]]; try discriminate. cbn in H6. injection H6 as ->. vm_compute in Hl'. discriminate.
Qed.
Print Assumptions failed_run_keeps_iterates_refuted.

(** ** a concrete system: x^2 = 4 at dof 0, dof 1 prescribed as 7; two elements share both dofs *)
Definition q (z : Z) : Qc := Q2Qc (inject_Z z).
Definition gms := [[[0; 1]; [1; 0]]].
Definition chain (u d : nat) := d.
Definition nrm (x : list Qc) : fl := Fin (Qabs (this (nth 0 x 0%Qc))).
Definition lin (xi : iterate) (ws : list what) : option (list Qc) :=
  match xi with
  | [[[a; b]; _]] => Some [((q 4 - a * a) / (q 2 * a))%Qc; 0%Qc]
  | _ => None
  end.
Definition x0 : iterate := [[[q 1; q 3]; [q 3; q 1]]].
Definition run := solve gms chain 2 nrm lin (fun _ _ => Some 0) (1 # 1000)%Q (Int 20) true Newton [(0, [1], [q 7])] {| m_cus := []; m_store := None |} x0.
Example nr_run_ok : match run with
  | (mm, Some (Local x, i, B)) => i = 0%Z /\ length B = 4 /\ option_map this (at3 x 0 0 1) = Some (7 # 1)%Q /\ option_map this (at3 x 0 1 0) = Some (7 # 1)%Q /\
      map snd (m_cus mm) = [1; 1]
  | _ => False end.
Proof. vm_compute. repeat split. Qed.
Example nr_hypotheses : respects_fixed chain (fun xi ws => match lin xi ws with Some l => if existsb (fun w => match w with Fixed 0 [1] => false | SetX0 _ _ _ => false | _ => true end) ws then None else Some l | None => None end)
  /\ fits gms x0 /\ single_valued gms x0 /\ covers gms chain 2 /\ prescribed [(0, [1], [q 7])] 0 1 (q 7).
Proof.
  split; [|split; [|split; [|split]]].
  - intros xi ws x u dofs d v H Hin Hd Hv. destruct (lin xi ws) as [l|] eqn:El; [|discriminate]. destruct (existsb _ ws) eqn:E; [discriminate|]. injection H as <-.
    assert (dofs = [1]).
    { rewrite <- not_true_iff_false in E. destruct u as [|u]; [|destruct E; apply existsb_exists; exists (Fixed (S u) dofs); easy].
      destruct dofs as [|[|[|n]] [|? ?]]; try easy; destruct E; apply existsb_exists; eexists; (split; [exact Hin|easy]). }
    subst dofs. destruct Hd as [<-|[]]. unfold lin in El. destruct xi as [|[|[|a [|b [|]]] [|? [|]]] [|]]; try discriminate. injection El as <-. now injection Hv.
  - intros u e l; destruct u as [|[|u]]; destruct e as [|[|[|e]]]; destruct l as [|[|[|l]]]; cbn; easy.
  - intros u e l e' l' d; destruct u as [|[|u]]; destruct e as [|[|[|e]]]; destruct l as [|[|[|l]]]; destruct e' as [|[|[|e']]]; destruct l' as [|[|[|l']]]; cbn; congruence.
  - intros n. split.
    + intros H. destruct n as [|[|n]]; [exists 0, 0, 0, 0; easy|exists 0, 0, 1, 1; easy|lia].
    + intros (u & e & l & d & H & <-). unfold chain. destruct u as [|[|u]]; destruct e as [|[|[|e]]]; destruct l as [|[|[|l]]]; cbn in H; try discriminate; injection H as <-; lia.
  - exists [1], [q 7], 0. repeat split. now left.
Qed.
(** a diverging and a stalling sequence *)
Example nr_reports : stop [Fin 1; Fin 101] (1 # 10) 2 (Int 5) = Stop 3 (-1) /\ stop [Fin 1; Fin (99999 # 100000)] (1 # 10) 2 (Int 5) = Stop 4 2 /\
  stop [Fin 1; NaN] (1 # 10) 2 (Int 5) = Go /\ stop [Fin 1; NaN] (1 # 10) 5 (Int 5) = Stop 2 5 /\ stop [Fin 1; Fin (1 # 100)] (1 # 10) 7 (Int 5) = Stop 1 0.
Proof. vm_compute. repeat split. Qed.
 
