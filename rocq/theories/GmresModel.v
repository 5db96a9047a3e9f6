(** Model of the iterative solvers /repo/msehtt/tools/linear_system/static/global_/solvers/mpi_py.py (gmres, lgmres) with the stop
    criterion of /repo/msepy/tools/nonlinear_system/static/solve/Newton_Raphson.py 326-414.
    Numbers are reals.  A vector is a function of the index, of which the first [n] entries are used.  None stands for an
    exception or for a result with nan (a division by zero).  All ranks are run together: what a rank holds is a function of
    the rank; COMM.Reduce and COMM.Allreduce are sums over the ranks, COMM.Bcast gives all ranks the value of the master,
    rank 0.  np.linalg.solve is a parameter.  Left out: times, messages, the cache of residuals, shapes of arguments. *)
From Coq Require Import List Arith ZArith Bool Reals.
Import ListNotations.
Local Open Scope R_scope.

Notation vec := (nat -> R).
Notation mat := (nat -> nat -> R).
Fixpoint rsum (n : nat) (f : nat -> R) : R := match n with O => 0 | S k => rsum k f + f k end.
(** np.sum(a * b) *)
Definition dot (n : nat) (a b : vec) : R := rsum n (fun i => a i * b i).
(** np.sum(a ** 2) ** 0.5 *)
Definition norm (n : nat) (a : vec) : R := sqrt (dot n a a).
(** M @ x *)
Definition mv (n : nat) (M : mat) (x : vec) : vec := fun i => rsum n (fun j => M i j * x j).

(** ** the stop criterion, Newton_Raphson.py 326-414 *)
Inductive maxit := Int (k : Z) | Forced (k : Z).
Inductive verdict := Go | Stop (judge : nat) (info : Z).
Definition rltb (a b : R) : bool := if Rlt_dec a b then true else false.
Definition stop (BETA : list R) (atol : R) (ITER : nat) (m : maxit) : verdict :=
  let '(j1, j2, j3, j4) :=
    match m with
    | Forced k => (false, (k <=? Z.of_nat ITER)%Z, false, false)
    | Int k =>
        let beta := last BETA 0 in
        let j1 := rltb beta atol in
        let j2 := (k <=? Z.of_nat ITER)%Z in
        match rev BETA with
        | _ :: old :: _ => (j1, j2, negb j1 && rltb old beta && rltb (100 * old) beta,
                            negb j1 && rltb beta old && rltb ((old - beta) / old) (/ 1000000))
        | _ => (j1, j2, false, false)
        end
    end in
  if j1 then Stop 1 0
  else if j2 then Stop 2 (Z.of_nat ITER)
  else if j3 then Stop 3 (-1)
  else if j4 then Stop 4 (Z.of_nat ITER)
  else Go.
(** mpi_py.py 121-131, 296-305: the list of residuals with the new one *)
Definition new_betas (BETA : option (list R)) (beta : R) : list R :=
  let B := match BETA with None => [beta] | Some B => B end in
  let B := if (20 <? length B)%nat then firstn 1 B ++ skipn (length B - 2) B else B in
  B ++ [beta].

(** ** what the ranks hold *)

(** Vm of the master (rows), Vs of the other ranks (by the index of the row), Vm of the other ranks (the vector that was
    broadcast), Hm of every rank *)
Record st := mk_st { Vm : nat -> vec; Vs : nat -> nat -> vec; cur : vec; Hm : nat -> mat }.

Section Solve.
(** the dimension, the number of ranks, the matrix and the right-hand side that each rank holds, np.linalg.solve *)
Variable n : nat.
Variable SIZE : nat.
Variable Ar : nat -> mat.
Variable fr : nat -> vec.
Variable linsolve : nat -> mat -> vec -> option vec.

Definition reduce (g : nat -> vec) : vec := fun i => rsum SIZE (fun r => g r i).

(** 63-68, 254-257 *)
Definition local_ind (restart r : nat) : list nat := filter (fun i => (i mod SIZE =? r)%nat) (seq 0 restart).
(** [for i in local_ind: if i <= j: ... else: break] *)
Fixpoint until (j : nat) (l : list nat) : list nat :=
  match l with [] => [] | i :: l' => if (i <=? j)%nat then i :: until j l' else [] end.
Definition mem (i : nat) (l : list nat) : bool := existsb (Nat.eqb i) l.

(** 109-119, 283-293: f - A x summed over the ranks *)
Definition residual (x : vec) : vec := reduce (fun r i => fr r i - mv n (Ar r) x i).

(** 136-141, 312-317: v0 becomes the first vector; [0 in local_ind] holds for the master only *)
Definition begin (v0 : vec) (s : st) : st :=
  mk_st (fun i => if (i =? 0)%nat then v0 else Vm s i)
        (fun r i => if negb (r =? 0)%nat && (0 mod SIZE =? r)%nat && (i =? 0)%nat then v0 else Vs s r i)
        v0 (Hm s).
(** 145-150, 321-327: what each rank multiplies *)
Definition times_current (j : nat) (s : st) : nat -> vec := fun r => mv n (Ar r) (if (r =? 0)%nat then Vm s j else cur s).

(** 143-201, 344-394: step j, [Avj]: the products of the ranks.  del v_jp1 in the first step of a round raises *)
Definition step (restart j : nat) (Avj : nat -> vec) (s : st) : option st :=
  let Vs' := fun r i => if negb (r =? 0)%nat && mem j (local_ind restart r) && (i =? j)%nat then cur s else Vs s r i in
  let AVJ := reduce Avj in
  let row := fun r i => if (r =? 0)%nat then Vm s i else Vs' r i in
  let mine := fun r => until j (local_ind restart r) in
  let Hij := fun r i => dot n AVJ (row r i) in
  let part := fun r l => fold_left (fun acc i => acc + Hij r i * row r i l) (mine r) 0 in
  let hat := fun l => AVJ l - reduce part l in
  let h := norm n hat in
  let Hm' := fun r i k =>
    if (r =? 0)%nat && (i =? S j)%nat && (k =? j)%nat then h
    else if (k =? j)%nat && mem i (mine r) then Hij r i else Hm s r i k in
  if (j <? restart - 1)%nat then
    if Req_EM_T h 0 then None
    else let v := fun l => hat l / h in
         Some (mk_st (fun i => if (i =? S j)%nat then v else Vm s i) Vs' v Hm')
  else if (j =? 0)%nat then None
  else Some (mk_st (Vm s) Vs' (cur s) Hm').

(** 203-210, 396-402: the coefficients on the master *)
Definition combined (s : st) : mat := fun i j => rsum SIZE (fun r => Hm s r i j).
Definition coefficients (restart : nat) (beta : R) (H : mat) : option vec :=
  linsolve restart (fun i k => rsum (S restart) (fun l => H l i * H l k)) (fun i => H 0%nat i * beta).

(** ** gmres: one round, 107-215 *)
Fixpoint steps (restart : nat) (js : list nat) (s : st) : option st :=
  match js with
  | [] => Some s
  | j :: js' => match step restart j (times_current j s) s with Some s' => steps restart js' s' | None => None end
  end.
Definition round (restart : nat) (xs : vec * st) : option (vec * st) :=
  let '(x, s) := xs in
  let VV := residual x in
  let beta := norm n VV in
  if Req_EM_T beta 0 then None
  else match steps restart (seq 0 restart) (begin (fun i => VV i / beta) s) with
       | None => None
       | Some s' =>
           match coefficients restart beta (combined s') with
           | None => None
           | Some y => Some (fun l => x l + rsum restart (fun j => y j * Vm s' j l), s')
           end
       end.

(** ** lgmres: one round, 273-445 *)

(** 275-280 *)
Definition split_mk (inner outer ITER : nat) : nat * nat :=
  if (ITER <? outer)%nat then (inner + outer - ITER, ITER)%nat else (inner, outer).
(** the dictionaries ZZZ and AZ_cache; the second holds the products of every rank *)
Notation zdict := (nat -> option vec).
Notation adict := (nat -> option (nat -> vec)).
Definition del {X} (d : nat -> option X) (k : nat) : nat -> option X := fun i => if (i =? k)%nat then None else d i.
Definition put {X} (d : nat -> option X) (k : nat) (v : X) : nat -> option X := fun i => if (i =? k)%nat then Some v else d i.
(** 329-338 *)
Definition cached_product (outer ITER index : nat) (Z : zdict) (AZ : adict) : option ((nat -> vec) * adict) :=
  match AZ index with
  | Some a => Some (a, AZ)
  | None =>
      match (if (outer <? ITER)%nat then match AZ (ITER - outer - 1)%nat with Some _ => Some (del AZ (ITER - outer - 1)) | None => None end
             else Some AZ), Z index with
      | Some AZ', Some z => let a := fun r => mv n (Ar r) z in Some (a, put AZ' index a)
      | _, _ => None
      end
  end.
Fixpoint lsteps (restart m outer ITER : nat) (js : list nat) (Z : zdict) (sa : st * adict) : option (st * adict) :=
  match js with
  | [] => Some sa
  | j :: js' =>
      let '(s, AZ) := sa in
      match (if (j <? m)%nat then Some (times_current j s, AZ) else cached_product outer ITER (ITER + m - 1 - j) Z AZ) with
      | None => None
      | Some (Avj, AZ') =>
          match step restart j Avj s with Some s' => lsteps restart m outer ITER js' Z (s', AZ') | None => None end
      end
  end.
(** 407-416: the rows of Ws *)
Fixpoint recent (Z : zdict) (l : list nat) : option (list vec) :=
  match l with
  | [] => Some []
  | i :: l' => match Z i, recent Z l' with Some z, Some r => Some (z :: r) | _, _ => None end
  end.
Definition directions (m k ITER : nat) (Z : zdict) (s : st) : option (nat -> vec) :=
  if (k =? 0)%nat then Some (Vm s)
  else match recent Z (map (fun i => (ITER - i - 1)%nat) (seq 0 k)) with
       | None => None
       | Some DL => Some (fun j => if (j <? m)%nat then Vm s j else nth (j - m) DL (fun _ => 0))
       end.
Record lst := mk_lst { lx : vec; lmem : st; lZ : zdict; lAZ : adict }.
Definition lround (inner outer ITER : nat) (S0 : lst) : option lst :=
  let restart := (inner + outer)%nat in
  let '(m, k) := split_mk inner outer ITER in
  let x := lx S0 in
  let VV := residual x in
  let beta := norm n VV in
  if Req_EM_T beta 0 then None
  else match lsteps restart m outer ITER (seq 0 restart) (lZ S0) (begin (fun i => VV i / beta) (lmem S0), lAZ S0) with
       | None => None
       | Some (s', AZ') =>
           match coefficients restart beta (combined s'), directions m k ITER (lZ S0) s' with
           | Some y, Some W =>
               let ym := fun l => rsum restart (fun j => y j * W j l) in
               match (if (outer <=? ITER)%nat && (0 <? outer)%nat
                      then match lZ S0 (ITER - outer)%nat with Some _ => Some (del (lZ S0) (ITER - outer)) | None => None end
                      else Some (lZ S0)) with
               | None => None
               | Some Z' => Some (mk_lst (fun l => x l + ym l) s' (put Z' ITER ym) AZ')
               end
           | _, _ => None
           end
       end.

(** ** the loop, 107-221 and 273-449 *)
Inductive outcome := Done (x : vec) (ITER : nat) (beta : R) (judge : nat) (info : Z) | Diverged | Failed | Fuel.
Fixpoint loop {X} (xof : X -> vec) (next : nat -> X -> option X) (atol : R) (m : maxit) (fuel ITER : nat) (BETA : option (list R)) (s : X)
  : outcome :=
  match fuel with
  | O => Fuel
  | S fuel' =>
      let beta := norm n (residual (xof s)) in
      let B := new_betas BETA beta in
      match stop B atol ITER m with
      | Stop j info => if (info <? 0)%Z then Diverged else Done (xof s) ITER beta j info
      | Go => match next ITER s with None => Failed | Some s' => loop xof next atol m fuel' (S ITER) (Some B) s' end
      end
  end.
(** more passes than any run makes *)
Definition enough (m : maxit) : nat := S (Z.to_nat (match m with Int k => k | Forced k => k end)).
(** np.zeros for Hm; the content of np.empty is of no account: zeros *)
Definition fresh : st := mk_st (fun _ _ => 0) (fun _ _ _ => 0) (fun _ => 0) (fun _ _ _ => 0).
(** x0 is updated in place: afterwards the array of the guess is the result *)
Definition gmres (restart : nat) (atol : R) (m : maxit) (x0 : vec) : outcome :=
  loop fst (fun _ => round restart) atol m (enough m) 0 None (x0, fresh).
Definition lgmres (inner outer : nat) (atol : R) (m : maxit) (x0 : vec) : outcome :=
  loop lx (lround inner outer) atol m (enough m) 0 None (mk_lst x0 fresh (fun _ => None) (fun _ => None)).
End Solve.
