(** C78: the iterative solvers gmres and lgmres.  Only statements and references to proofs; vocabulary in GmresSpec.v; model in
    GmresModel.v.  Failed stands for an exception or a result with nan. *)
From Coq Require Import List Arith ZArith Bool Reals Lra Lia.
From Verif Require Import GmresModel GmresSpec GmresThms5 GmresThms6.
Import ListNotations.
Local Open Scope R_scope.

(** the number of ranks and how the system is spread over them do not matter *)
Theorem C78_ranks_do_not_matter : forall n SIZE Ar fr A b linsolve restart inner outer atol m x0,
  (0 < SIZE)%nat -> shares SIZE Ar fr A b ->
  gmres n SIZE Ar fr linsolve restart atol m x0 = gmres n 1 (fun _ => A) (fun _ => b) linsolve restart atol m x0 /\
  lgmres n SIZE Ar fr linsolve inner outer atol m x0 = lgmres n 1 (fun _ => A) (fun _ => b) linsolve inner outer atol m x0.
Proof.
  exact (fun n SIZE Ar fr A b linsolve restart inner outer atol m x0 HS SH =>
    conj (ranks_gmres n SIZE Ar fr A b linsolve HS SH restart atol m x0) (ranks_lgmres n SIZE Ar fr A b linsolve HS SH inner outer atol m x0)).
Qed.
Print Assumptions C78_ranks_do_not_matter.

(** every round of gmres leaves the smallest residual that a step in the Krylov space can leave *)
Theorem C78_gmres_rounds_are_best : forall n SIZE Ar fr A b linsolve, (0 < SIZE)%nat -> shares SIZE Ar fr A b ->
  forall restart atol m x0 x T beta judge info, solves linsolve restart ->
  gmres n SIZE Ar fr linsolve restart atol m x0 = Done x T beta judge info ->
  exists xs, best_run n A b (gmres_steps n A b restart) x0 T xs /\ xs T = x /\ beta = len n (res n A b x) /\ (T <= limit m)%nat /\
             good_end n A b atol m xs T judge info.
Proof. exact gmres_run. Qed.
Print Assumptions C78_gmres_rounds_are_best.

(** the same for lgmres, with the last corrections among the directions; its caches do not matter *)
Theorem C78_lgmres_rounds_are_best : forall n SIZE Ar fr A b linsolve, (0 < SIZE)%nat -> shares SIZE Ar fr A b ->
  forall inner outer atol m x0 x T beta judge info, solves linsolve (inner + outer) ->
  lgmres n SIZE Ar fr linsolve inner outer atol m x0 = Done x T beta judge info ->
  exists xs, best_run n A b (lgmres_steps n A b inner outer) x0 T xs /\ xs T = x /\ beta = len n (res n A b x) /\ (T <= limit m)%nat /\
             good_end n A b atol m xs T judge info.
Proof. exact lgmres_run. Qed.
Print Assumptions C78_lgmres_rounds_are_best.

(** no run is endless or raises LinerSystemSolverDivergenceError *)
Theorem C78_gmres_ends : forall n SIZE Ar fr A b linsolve, (0 < SIZE)%nat -> shares SIZE Ar fr A b ->
  forall restart atol m x0, solves linsolve restart ->
  gmres n SIZE Ar fr linsolve restart atol m x0 <> Diverged /\ gmres n SIZE Ar fr linsolve restart atol m x0 <> Fuel.
Proof. exact gmres_ends. Qed.
Print Assumptions C78_gmres_ends.
Theorem C78_lgmres_ends : forall n SIZE Ar fr A b linsolve, (0 < SIZE)%nat -> shares SIZE Ar fr A b ->
  forall inner outer atol m x0, solves linsolve (inner + outer) ->
  lgmres n SIZE Ar fr linsolve inner outer atol m x0 <> Diverged /\ lgmres n SIZE Ar fr linsolve inner outer atol m x0 <> Fuel.
Proof. exact lgmres_ends. Qed.
Print Assumptions C78_lgmres_ends.

(** a result is never worse than the guess *)
Theorem C78_gmres_not_worse : forall n SIZE Ar fr A b linsolve, (0 < SIZE)%nat -> shares SIZE Ar fr A b ->
  forall restart atol m x0 x T beta judge info, solves linsolve restart ->
  gmres n SIZE Ar fr linsolve restart atol m x0 = Done x T beta judge info -> len n (res n A b x) <= len n (res n A b x0).
Proof. exact gmres_not_worse. Qed.
Print Assumptions C78_gmres_not_worse.
Theorem C78_lgmres_not_worse : forall n SIZE Ar fr A b linsolve, (0 < SIZE)%nat -> shares SIZE Ar fr A b ->
  forall inner outer atol m x0 x T beta judge info, solves linsolve (inner + outer) ->
  lgmres n SIZE Ar fr linsolve inner outer atol m x0 = Done x T beta judge info -> len n (res n A b x) <= len n (res n A b x0).
Proof. exact lgmres_not_worse. Qed.
Print Assumptions C78_lgmres_not_worse.

(** info is 0 exactly if the residual is below the tolerance *)
Theorem C78_gmres_info : forall n SIZE Ar fr A b linsolve, (0 < SIZE)%nat -> shares SIZE Ar fr A b ->
  forall restart atol k x0 x T beta judge info, solves linsolve restart -> (0 < k)%Z ->
  gmres n SIZE Ar fr linsolve restart atol (Int k) x0 = Done x T beta judge info -> (info = 0%Z <-> len n (res n A b x) < atol).
Proof. exact gmres_info. Qed.
Print Assumptions C78_gmres_info.
Theorem C78_lgmres_info : forall n SIZE Ar fr A b linsolve, (0 < SIZE)%nat -> shares SIZE Ar fr A b ->
  forall inner outer atol k x0 x T beta judge info, solves linsolve (inner + outer) -> (0 < k)%Z ->
  lgmres n SIZE Ar fr linsolve inner outer atol (Int k) x0 = Done x T beta judge info -> (info = 0%Z <-> len n (res n A b x) < atol).
Proof. exact lgmres_info. Qed.
Print Assumptions C78_lgmres_info.
(** but with maxiter = 0 it is 0 without convergence *)
Theorem C78_no_rounds_refuted : forall n SIZE Ar fr b linsolve, (0 < SIZE)%nat ->
  forall A restart atol x0, shares SIZE Ar fr A b -> atol <= len n (res n A b x0) ->
  gmres n SIZE Ar fr linsolve restart atol (Int 0) x0 = Done x0 0 (len n (res n A b x0)) 2 0.
Proof. exact gmres_no_rounds. Qed.
Print Assumptions C78_no_rounds_refuted.

(** the first round fails if there are fewer unknowns than steps, for one step, if the Krylov vectors are dependent, for an exact guess *)
Theorem C78_gmres_fails_refuted : forall n SIZE Ar fr A b linsolve, (0 < SIZE)%nat -> shares SIZE Ar fr A b ->
  forall restart atol m x0, starts n A b atol m x0 ->
  ((n < restart)%nat \/ restart = 1%nat \/ ~ independent n restart (krylov n A (res n A b x0)) \/ solution n A b x0) ->
  gmres n SIZE Ar fr linsolve restart atol m x0 = Failed.
Proof. exact gmres_first_fails. Qed.
Print Assumptions C78_gmres_fails_refuted.
Theorem C78_lgmres_fails_refuted : forall n SIZE Ar fr A b linsolve, (0 < SIZE)%nat -> shares SIZE Ar fr A b ->
  forall inner outer atol m x0, starts n A b atol m x0 ->
  ((n < inner + outer)%nat \/ (inner + outer = 1)%nat \/ ~ independent n (inner + outer) (krylov n A (res n A b x0)) \/ solution n A b x0) ->
  lgmres n SIZE Ar fr linsolve inner outer atol m x0 = Failed.
Proof. exact lgmres_first_fails. Qed.
Print Assumptions C78_lgmres_fails_refuted.
(** so the identity is never solved *)
Theorem C78_identity_refuted : forall n SIZE Ar fr b linsolve, (0 < SIZE)%nat ->
  forall restart atol m x0, shares SIZE Ar fr identity_matrix b -> starts n identity_matrix b atol m x0 -> (1 <= restart)%nat ->
  gmres n SIZE Ar fr linsolve restart atol m x0 = Failed.
Proof. exact gmres_identity. Qed.
Print Assumptions C78_identity_refuted.

(** for regular matrices these are the only failures *)
Theorem C78_gmres_fails_only_there : forall n SIZE Ar fr A b linsolve, (0 < SIZE)%nat -> shares SIZE Ar fr A b ->
  forall restart atol m x0, solves linsolve restart -> solves_regular linsolve restart -> injective n A -> restart <> 1%nat ->
  gmres n SIZE Ar fr linsolve restart atol m x0 = Failed ->
  exists xs T, best_run n A b (gmres_steps n A b restart) x0 T xs /\ (T < limit m)%nat /\
               (solution n A b (xs T) \/ ~ independent n restart (krylov n A (res n A b (xs T)))).
Proof. exact gmres_fails_only. Qed.
Print Assumptions C78_gmres_fails_only_there.

(** with as many steps as unknowns one round solves the system *)
Theorem C78_full_round_solves : forall n SIZE Ar fr A b linsolve, (0 < SIZE)%nat -> shares SIZE Ar fr A b ->
  forall atol m x0 x T beta judge info xs, solves linsolve n -> solution n A b xs ->
  gmres n SIZE Ar fr linsolve n atol m x0 = Done x T beta judge info -> (0 < T)%nat -> solution n A b x /\ T = 1%nat.
Proof. exact gmres_full. Qed.
Print Assumptions C78_full_round_solves.
Theorem C78_full_round_converges : forall n SIZE Ar fr A b linsolve, (0 < SIZE)%nat -> shares SIZE Ar fr A b ->
  forall atol k x0 xs, solves linsolve n -> solves_regular linsolve n -> injective n A -> solution n A b xs -> n <> 1%nat ->
  independent n n (krylov n A (res n A b x0)) -> 0 < atol -> (0 < k)%Z ->
  exists x T beta, gmres n SIZE Ar fr linsolve n atol (Int k) x0 = Done x T beta 1 0 /\ len n (res n A b x) < atol /\ (T <= 1)%nat.
Proof. exact gmres_full_converges. Qed.
Print Assumptions C78_full_round_converges.
Theorem C78_full_round_of_lgmres_converges : forall n SIZE Ar fr A b linsolve, (0 < SIZE)%nat -> shares SIZE Ar fr A b ->
  forall inner outer atol k x0 xs, (inner + outer = n)%nat -> solves linsolve n -> solves_regular linsolve n -> injective n A -> solution n A b xs -> n <> 1%nat ->
  independent n n (krylov n A (res n A b x0)) -> 0 < atol -> (0 < k)%Z ->
  exists x T beta, lgmres n SIZE Ar fr linsolve inner outer atol (Int k) x0 = Done x T beta 1 0 /\ len n (res n A b x) < atol /\ (T <= 1)%nat.
Proof. exact lgmres_full_converges. Qed.
Print Assumptions C78_full_round_of_lgmres_converges.

(** a quarter turn on three ranks is solved with restart = 2 and not with the default restart = 75 *)
Example C78_turn : exists x T beta,
  gmres 2 3 turn_share e0_share cramer 2 (/ 100000) (Int 30) (fun _ => 0) = Done x T beta 1 0 /\ len 2 (res 2 turn_matrix e0 x) < / 100000 /\ (T <= 1)%nat.
Proof.
  apply (C78_full_round_converges 2 3 turn_share e0_share turn_matrix e0 cramer ltac:(lia) turn_shares (/ 100000) 30 (fun _ => 0) _
    cramer_solves cramer_regular turn_injective turn_solution ltac:(lia) turn_independent ltac:(lra) eq_refl).
Qed.
Example C78_turn_by_lgmres : exists x T beta,
  lgmres 2 3 turn_share e0_share cramer 1 1 (/ 100000) (Int 30) (fun _ => 0) = Done x T beta 1 0 /\ len 2 (res 2 turn_matrix e0 x) < / 100000 /\ (T <= 1)%nat.
Proof.
  apply (C78_full_round_of_lgmres_converges 2 3 turn_share e0_share turn_matrix e0 cramer ltac:(lia) turn_shares 1 1 (/ 100000) 30 (fun _ => 0) _ eq_refl
    cramer_solves cramer_regular turn_injective turn_solution ltac:(lia) turn_independent ltac:(lra) eq_refl).
Qed.
Example C78_turn_default : gmres 2 3 turn_share e0_share cramer 75 (/ 100000) (Int 30) (fun _ => 0) = Failed.
Proof.
  apply (C78_gmres_fails_refuted 2 3 turn_share e0_share turn_matrix e0 cramer ltac:(lia) turn_shares 75 _ _ _ turn_starts). left. lia.
Qed.
Example C78_turn_lgmres : lgmres 2 3 turn_share e0_share cramer 75 15 (/ 100000) (Int 30) (fun _ => 0) = Failed.
Proof.
  apply (C78_lgmres_fails_refuted 2 3 turn_share e0_share turn_matrix e0 cramer ltac:(lia) turn_shares 75 15 _ _ _ turn_starts). left. lia.
Qed.
