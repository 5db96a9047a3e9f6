(** C35, C36, C54, C55: multigrid schedules and the multigrid solver.  Only statements and references to proofs;
    vocabulary in MgSpec.v, model in MgModel.v. *)
From Coq Require Import List ZArith QArith Qcanon Bool Lia.
From Verif Require Import Dict MgModel MgSpec MgProofs MgSolve.
Import ListNotations.
Local Open Scope Z_scope.

(** * C35 schedules are walks on the layers *)

(** from the top layer to the top layer, within the layers, reaching the bottom; its length *)
Theorem V_cycle_is_a_walk n : (1 <= n)%nat -> walk (Z.of_nat n - 1) (parse_V n) = Some (Z.of_nat n - 1) /\ Forall (fun v => 0 <= v <= Z.of_nat n - 1) (visited (Z.of_nat n - 1) (parse_V n)) /\ In 0 (visited (Z.of_nat n - 1) (parse_V n)) /\ length (parse_V n) = (2 * (n - 1))%nat.
Proof. exact (V_walk n). Qed.
Print Assumptions V_cycle_is_a_walk.

(** from the bottom to the top *)
Theorem N_cycle_is_a_walk n : (1 <= n)%nat -> walk 0 (parse_N n) = Some (Z.of_nat n - 1) /\ Forall (fun v => 0 <= v <= Z.of_nat n - 1) (visited 0 (parse_N n)) /\ length (parse_N n) = (3 * (n - 1))%nat.
Proof. exact (N_walk n). Qed.
Print Assumptions N_cycle_is_a_walk.

(** any accepted sequence: one layer at a time, from the top to the top *)
Theorem W_cycle_is_a_walk n ss w : parse_W n ss = Some w -> walk (Z.of_nat n - 1) w = Some (Z.of_nat n - 1).
Proof. exact (W_walk n ss w). Qed.
Print Assumptions W_cycle_is_a_walk.

(** any accepted sequence: from the bottom to the top *)
Theorem FMG_cycle_is_a_walk n ss w : parse_FMG n ss = Some w -> walk 0 w = Some (Z.of_nat n - 1).
Proof. exact (FMG_walk n ss w). Qed.
Print Assumptions FMG_cycle_is_a_walk.

(** an accepted sequence leaving the layers: below the bottom *)
Theorem W_cycle_below_bottom_refuted : exists n ss w, parse_W n ss = Some w /\ In (-1) (visited (Z.of_nat n - 1) w) /\ exists d, pairs w = Some d.
Proof. exact (W_levels_refuted). Qed.
Print Assumptions W_cycle_below_bottom_refuted.

(** above the top; asking for its pairs raises *)
Theorem W_cycle_above_top_refuted : exists n ss w, parse_W n ss = Some w /\ In (Z.of_nat n) (visited (Z.of_nat n - 1) w) /\ pairs w = None.
Proof. exact (W_above_refuted). Qed.
Print Assumptions W_cycle_above_top_refuted.

Example cycles_meet : parse_W 3 [2; 1; 1; 2]%nat = Some [RS 2; RS 1; IS 0; RS 1; IS 0; IS 1] /\ parse_FMG 3 [1; 1; 2]%nat = Some [IS 0; RS 1; IS 0; IS 1] /\
  parse_V 3 = [RS 2; RS 1; IS 0; IS 1] /\ parse_N 3 = [IS 0; IS 1; RS 2; RS 1; IS 0; IS 1].
Proof. repeat split. Qed.

(** * C36 pairs *)

(** an interpolation is paired with the restriction it closes, or with None if it closes none *)
Theorem pairs_are_brackets w d : pairs w = Some d ->
  (forall i r, get Nat.eqb d i = Some (Some r) <-> matched w r i) /\ (forall i, get Nat.eqb d i = Some None <-> (exists k, nth_error w i = Some (IS k)) /\ forall r, ~ matched w r i).
Proof. exact (pairs_spec w d). Qed.
Print Assumptions pairs_are_brackets.

(** pairs are found iff the walk never goes above its end *)
Theorem pairs_exist w a e : walk a w = Some e -> (pairs w <> None <-> Forall (fun v => v <= e) (visited a w)).
Proof. exact (pairs_defined w a e). Qed.
Print Assumptions pairs_exist.

Theorem pairs_join_the_same_layers w a e r i : walk a w = Some e -> matched w r i -> exists l, nth_error w r = Some (RS l) /\ nth_error w i = Some (IS (l - 1)).
Proof. exact (matched_levels w a e r i). Qed.
Print Assumptions pairs_join_the_same_layers.

Theorem restriction_has_one_partner w r i i' : matched w r i -> matched w r i' -> i = i'.
Proof. exact (matched_fun_i w r i i'). Qed.
Print Assumptions restriction_has_one_partner.

Theorem interpolation_has_one_partner w r r' i : matched w r i -> matched w r' i -> r = r'.
Proof. exact (matched_fun_r w r r' i). Qed.
Print Assumptions interpolation_has_one_partner.

Theorem pairs_are_nested w r i r' i' : matched w r i -> matched w r' i' -> (r < r' < i)%nat -> (i' < i)%nat.
Proof. exact (matched_nested w r i r' i'). Qed.
Print Assumptions pairs_are_nested.

Theorem restrictions_are_paired w d r l : pairs w = Some d -> nth_error w r = Some (RS l) -> exists i, matched w r i.
Proof. exact (restriction_paired w d r l). Qed.
Print Assumptions restrictions_are_paired.

(** the layer above an unpaired interpolation was not visited before *)
Theorem unpaired_interpolations_enter_new_layers w d a e i : walk a w = Some e -> pairs w = Some d -> get Nat.eqb d i = Some None -> exists l, nth_error w i = Some (IS l) /\ Forall (fun v => v <= l) (visited a (firstn i w)).
Proof. exact (unpaired_first w d a e i). Qed.
Print Assumptions unpaired_interpolations_enter_new_layers.

Example pairs_meet :
  exists d, pairs [IS 0; RS 1; IS 0; IS 1; RS 2; RS 1; IS 0; RS 1; IS 0; IS 1] = Some d /\ map (fun i => get Nat.eqb d i) [0; 2; 3; 6; 8; 9]%nat = [Some None; Some (Some 1%nat); Some None; Some (Some 5%nat); Some (Some 7%nat); Some (Some 4%nat)].
Proof. eexists. split; reflexivity. Qed.

(** * C54 the solver makes the nested corrections of its schedule *)

(** for every schedule from the top to the top: whatever is cleaned on the way, the result is that of the recursive corrections *)
Theorem multigrid_from_the_top {V : Type} (add sub : V -> V -> V) (A : Z -> V -> V) (b : Z -> V) (down up : Z -> V -> V) (direct : Z -> V -> V) (iter : Z -> V -> V -> V) (zero : Z -> V) clean w top x0 :
  walk top w = Some top -> Forall (fun v => v <= top) (visited top w) -> w <> [] ->
    exists f, w = steps top f /\ msolve add sub A b down up direct iter zero clean w top x0 = Some (corrected add sub A down up direct iter zero f top (iter top (b top) x0) (b top)).
Proof. exact (solve_top add sub A b down up direct iter zero clean w top x0). Qed.
Print Assumptions multigrid_from_the_top.

(** for every schedule from the bottom to the top; the given start is not used *)
Theorem multigrid_from_the_bottom {V : Type} (add sub : V -> V -> V) (A : Z -> V -> V) (b : Z -> V) (down up : Z -> V -> V) (direct : Z -> V -> V) (iter : Z -> V -> V -> V) (zero : Z -> V) clean w top x0 :
  walk 0 w = Some top -> Forall (fun v => 0 <= v <= top) (visited 0 w) -> 0 < top ->
    exists fs, w = full_steps 0 fs /\ Z.of_nat (length fs) = top /\ msolve add sub A b down up direct iter zero clean w top x0 = Some (full_corrected add sub A b down up direct iter zero fs 0 (direct 0 (b 0))).
Proof. exact (solve_bottom add sub A b down up direct iter zero clean w top x0). Qed.
Print Assumptions multigrid_from_the_bottom.

Theorem cleaning_is_invisible {V : Type} (add sub : V -> V -> V) (A : Z -> V -> V) (b : Z -> V) (down up : Z -> V -> V) (direct : Z -> V -> V) (iter : Z -> V -> V -> V) (zero : Z -> V) w top x0 :
  (walk top w = Some top /\ Forall (fun v => v <= top) (visited top w) /\ w <> []) \/ (walk 0 w = Some top /\ Forall (fun v => 0 <= v <= top) (visited 0 w) /\ 0 < top) ->
  msolve add sub A b down up direct iter zero true w top x0 = msolve add sub A b down up direct iter zero false w top x0.
Proof. exact (cleaning add sub A b down up direct iter zero w top x0). Qed.
Print Assumptions cleaning_is_invisible.
Definition toy (clean : bool) (w : list step) (top : Z) : option Z :=
  msolve Z.add Z.sub (fun l x => (l + 2) * x) (fun l => 7 * (l + 1)) (fun _ x => x + 1) (fun _ x => 2 * x) (fun _ r => 2 * r + 1) (fun l r x => x + 3 * r + l) (fun l => l) clean w top 5.
Example solver_meets : toy true [RS 2; RS 1; IS 0; RS 1; IS 0; IS 1] 2 = toy false [RS 2; RS 1; IS 0; RS 1; IS 0; IS 1] 2 /\ toy true [RS 2; RS 1; IS 0; RS 1; IS 0; IS 1] 2 = Some 235434 /\
  [RS 2; RS 1; IS 0; RS 1; IS 0; IS 1] = steps 2 (Then (Then Done (Then Done Done)) Done) /\ toy true [IS 0; RS 1; IS 0; IS 1] 2 = Some 1863 /\ [IS 0; RS 1; IS 0; IS 1] = full_steps 0 [Then Done Done; Done].
Proof. vm_compute. repeat split. Qed.

(** * C55 the correction has the wrong sign *)

(** two equal layers, exact transfers, an exact solve on the lower layer: the residual is doubled instead of removed *)
Theorem coarse_correction_doubles_the_residual {V : Type} (add sub : V -> V -> V) (A : Z -> V -> V) (b : Z -> V) (down up : Z -> V -> V) (direct : Z -> V -> V) (iter : Z -> V -> V -> V) (zero : Z -> V) clean x0 :
    (forall x y, A 1 (add x y) = add (A 1 x) (A 1 y)) -> (forall x y z, sub (add x y) z = add (sub x z) y) -> (forall x, A 0 x = A 1 x) -> (forall x, down 1 x = x) -> (forall x, up 0 x = x) -> (forall r, A 0 (direct 0 r) = r) ->
    let x := iter 1 (b 1) x0 in exists x', msolve add sub A b down up direct iter zero clean (parse_V 2) 1 x0 = Some x' /\ sub (A 1 x') (b 1) = add (sub (A 1 x) (b 1)) (sub (A 1 x) (b 1)).
Proof. exact (two_layers_double add sub A b down up direct iter zero clean x0). Qed.
Print Assumptions coarse_correction_doubles_the_residual.

(** A x = 2 x, b = 6, x = 4 before: the residual is 2 and the solution 3; after: x = 5, the residual is 4 *)
Theorem coarse_correction_refuted : exists (A direct : Z -> Qc -> Qc) (x0 : Qc),
  (forall r, A 0 (direct 0 r) = r) /\ (forall x, A 0 x = A 1 x) /\
  msolve Qcplus Qcminus A (fun _ => Q2Qc 6) (fun _ x => x) (fun _ x => x) direct (fun _ _ x => x) (fun _ => 0%Qc) false (parse_V 2) 1 x0 = Some (Q2Qc 5) /\
  (A 1%Z x0 - Q2Qc 6 = Q2Qc 2)%Qc /\ (A 1%Z (Q2Qc 5) - Q2Qc 6 = Q2Qc 4)%Qc.
Proof. exact sign_instance. Qed.
Print Assumptions coarse_correction_refuted.
