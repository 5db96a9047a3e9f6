(** Vocabulary of GmresProps.v: residuals, Krylov spaces, least squares, independent of the solvers. *)
From Coq Require Import List Arith ZArith Bool Reals.
From Verif Require Import GmresModel.
Import ListNotations.
Local Open Scope R_scope.

Definition total (n : nat) (g : nat -> R) : R := fold_right Rplus 0 (map g (seq 0 n)).
Definition apply (n : nat) (A : mat) (x : vec) : vec := fun i => total n (fun j => A i j * x j).
Definition len (n : nat) (v : vec) : R := sqrt (total n (fun i => v i * v i)).
(** b - A x *)
Definition res (n : nat) (A : mat) (b : vec) (x : vec) : vec := fun i => b i - apply n A x i.
(** A x = b *)
Definition solution (n : nat) (A : mat) (b : vec) (x : vec) : Prop := forall i, (i < n)%nat -> apply n A x i = b i.
Definition injective (n : nat) (A : mat) : Prop :=
  forall x, (forall i, (i < n)%nat -> apply n A x i = 0) -> forall i, (i < n)%nat -> x i = 0.
(** r, A r, A A r, ... *)
Fixpoint krylov (n : nat) (A : mat) (r : vec) (j : nat) : vec :=
  match j with O => r | S j' => apply n A (krylov n A r j') end.
(** combinations of the first k of the vectors *)
Definition comb (k : nat) (B : nat -> vec) (c : vec) : vec := fun l => total k (fun j => c j * B j l).
Definition independent (n k : nat) (B : nat -> vec) : Prop :=
  forall c, (forall l, (l < n)%nat -> comb k B c l = 0) -> forall j, (j < k)%nat -> c j = 0.
(** the step from x to x' is in the set of steps and no other step of the set leaves a smaller residual *)
Definition best_step (n : nat) (A : mat) (b : vec) (allowed : vec -> Prop) (x x' : vec) : Prop :=
  (exists d, allowed d /\ forall l, x' l = x l + d l) /\
  forall d, allowed d -> len n (res n A b x') <= len n (res n A b (fun l => x l + d l)).
Definition in_krylov (n : nat) (A : mat) (r : vec) (k : nat) (d : vec) : Prop := exists c, forall l, d l = comb k (krylov n A r) c l.
(** a combination of m Krylov vectors and of k further vectors *)
Definition in_augmented (n : nat) (A : mat) (r : vec) (m k : nat) (z : nat -> vec) (d : vec) : Prop :=
  exists c e, forall l, d l = comb m (krylov n A r) c l + comb k z e l.

(** the data of the ranks add up to the system *)
Definition shares (SIZE : nat) (Ar : nat -> mat) (fr : nat -> vec) (A : mat) (b : vec) : Prop :=
  (forall i j, total SIZE (fun r => Ar r i j) = A i j) /\ (forall i, total SIZE (fun r => fr r i) = b i).

(** np.linalg.solve: a result solves the system; a regular system has a result *)
Definition solves (linsolve : nat -> mat -> vec -> option vec) (k : nat) : Prop :=
  forall M b y, linsolve k M b = Some y -> forall i, (i < k)%nat -> apply k M y i = b i.
Definition solves_regular (linsolve : nat -> mat -> vec -> option vec) (k : nat) : Prop :=
  forall M b, injective k M -> linsolve k M b <> None.

(** the guess is not good enough and a round is allowed *)
Definition starts (n : nat) (A : mat) (b : vec) (atol : R) (m : maxit) (x0 : vec) : Prop :=
  match m with Int k => (0 < k)%Z /\ atol <= len n (res n A b x0) | Forced k => (0 < k)%Z end.
(** the number of rounds that is allowed *)
Definition limit (m : maxit) : nat := Z.to_nat (match m with Int k => k | Forced k => k end).
(** a run of T rounds, every one of which takes the best step that is allowed in it *)
Definition best_run (n : nat) (A : mat) (b : vec) (allowed : (nat -> vec) -> nat -> vec -> Prop) (x0 : vec) (T : nat) (xs : nat -> vec) : Prop :=
  xs 0%nat = x0 /\ forall i, (i < T)%nat -> best_step n A b (allowed xs i) (xs i) (xs (S i)).
Definition gmres_steps (n : nat) (A : mat) (b : vec) (restart : nat) (xs : nat -> vec) (i : nat) : vec -> Prop :=
  in_krylov n A (res n A b (xs i)) restart.
(** the last corrections, at most [outer] of them, take the place of Krylov vectors *)
Definition lgmres_steps (n : nat) (A : mat) (b : vec) (inner outer : nat) (xs : nat -> vec) (i : nat) : vec -> Prop :=
  in_augmented n A (res n A b (xs i)) (inner + outer - Nat.min i outer) (Nat.min i outer) (fun p l => xs (i - p)%nat l - xs (i - p - 1)%nat l).
(** why a run stops; xs: the iterates *)
Definition good_end (n : nat) (A : mat) (b : vec) (atol : R) (m : maxit) (xs : nat -> vec) (T : nat) (judge : nat) (info : Z) : Prop :=
  let beta := len n (res n A b (xs T)) in
  match m with
  | Forced k => judge = 2%nat /\ info = Z.of_nat T /\ (k <= Z.of_nat T)%Z
  | Int k =>
      (judge = 1%nat /\ info = 0%Z /\ beta < atol) \/
      (judge = 2%nat /\ info = Z.of_nat T /\ (k <= Z.of_nat T)%Z /\ atol <= beta) \/
      (judge = 4%nat /\ info = Z.of_nat T /\ (0 < T)%nat /\ atol <= beta /\
       len n (res n A b (xs (T - 1)%nat)) * (1 - / 1000000) < beta < len n (res n A b (xs (T - 1)%nat)))
  end.

(** Cramer's rule for two unknowns, in place of np.linalg.solve in the examples *)
Definition cramer (k : nat) (M : mat) (b : vec) : option vec :=
  if (k =? 2)%nat then
    let D := M 0%nat 0%nat * M 1%nat 1%nat - M 0%nat 1%nat * M 1%nat 0%nat in
    if Req_EM_T D 0 then None
    else Some (fun i => if (i =? 0)%nat then (b 0%nat * M 1%nat 1%nat - M 0%nat 1%nat * b 1%nat) / D
                        else (M 0%nat 0%nat * b 1%nat - b 0%nat * M 1%nat 0%nat) / D)
  else None.
Definition identity_matrix : mat := fun i j => if (i =? j)%nat then 1 else 0.
(** a quarter turn, on three ranks *)
Definition turn_matrix : mat := fun i j => match i, j with 0%nat, 1%nat => -1 | 1%nat, 0%nat => 1 | _, _ => 0 end.
Definition turn_share (r : nat) : mat := fun i j => match r with 0%nat => 2 * turn_matrix i j | 1%nat => - turn_matrix i j | _ => 0 end.
Definition e0 : vec := fun i => if (i =? 0)%nat then 1 else 0.
Definition e0_share (r : nat) : vec := fun i => match r with 2%nat => e0 i | _ => 0 end.
