(** Model of the nonlinear solvers: /repo/msehtt/tools/nonlinear_system/static/{customize.py, solve/main.py,
    solve/Newton_Raphson.py, solve/Picard.py} and [_Xxx.update] of tools/linear_system/static/local/main.py.
    Simplifications: one rank; entries of vectors are exact rationals; a norm is a finite rational, inf or nan, and is
    computed by an arbitrary function [nrm]; building and solving the linear system of one iteration is an arbitrary
    function [lin] of the current iterate and the customizations in force (None: an exception);
    a chained dof number is given by an arbitrary function [chain] (C17); times, messages and caches are left out. *)
From Coq Require Import List ZArith QArith Qcanon Bool Arith.
Import ListNotations.
Local Open Scope nat_scope.

(** ** the stop criterion *)
Inductive fl := Fin (q : Q) | Inf | NaN.
(** python's [a < b] for floats that are not negative infinity *)
Definition flt (a b : fl) : bool :=
  match a, b with
  | Fin x, Fin y => negb (Qle_bool y x)
  | Fin _, Inf => true
  | _, _ => false
  end.
(** [100 * b] *)
Definition times100 (b : fl) : fl := match b with Fin x => Fin (100 * x)%Q | o => o end.
(** [(old - new) / old < 0.0001]; x / 0 is inf, inf / inf is nan *)
Definition small_progress (old new : fl) : bool :=
  match old, new with
  | Fin o, Fin n => if Qeq_bool o 0 then false else negb (Qle_bool (1 # 10000) ((o - n) / o))
  | _, _ => false
  end.
(** an int, or a str that is an int *)
Inductive maxit := Int (n : Z) | Forced (n : Z).
Inductive verdict := Go | Stop (judge : nat) (info : Z).
(** Newton_Raphson.py 401-485, [_check_stop_criterion_]; BETA is not empty *)
Definition stop (BETA : list fl) (atol : Q) (ITER : nat) (m : maxit) : verdict :=
  let '(j1, j2, j3, j4) :=
    match m with
    | Forced n => (false, (n <=? Z.of_nat ITER)%Z, false, false)
    | Int n =>
        let beta := last BETA NaN in
        let j1 := flt beta (Fin atol) in
        let j2 := (n <=? Z.of_nat ITER)%Z in
        match rev BETA with
        | _ :: old :: _ =>
            (j1, j2, negb j1 && flt old beta && flt (times100 old) beta, negb j1 && flt beta old && small_progress old beta)
        | _ => (j1, j2, false, false)
        end
    end in
  if j1 then Stop 1 0
  else if j2 then Stop 2 (Z.of_nat ITER)
  else if j3 then Stop 3 (-1)
  else if j4 then Stop 4 (Z.of_nat ITER)
  else Go.

(** ** local vectors: for each unknown, each element, the list of its values *)
Notation local := (list (list Qc)).
Notation iterate := (list (list (list Qc))).
Section OPT.
Context {A B C : Type}.
Fixpoint omap (f : A -> option B) (l : list A) : option (list B) :=
  match l with
  | [] => Some []
  | a :: r => match f a, omap f r with Some b, Some s => Some (b :: s) | _, _ => None end
  end.
Fixpoint ozip (f : A -> B -> option C) (l : list A) (m : list B) : option (list C) :=
  match l, m with
  | [], [] => Some []
  | a :: r, b :: s => match f a b, ozip f r s with Some c, Some t => Some (c :: t) | _, _ => None end
  | _, _ => None
  end.
End OPT.
(** vector/static/local.py 247-260, and instant.py 211-232: [_xi + dx]; different shapes: an exception *)
Definition add_local (x y : local) : option local := ozip (ozip (fun a b => Some (a + b)%Qc)) x y.
Definition add_iterate (x y : iterate) : option iterate := ozip add_local x y.

(** ** nonlinear customizations, customize.py 31-84 *)
Inductive what :=
| Fixed (u : nat) (dofs : list nat)
| SetX0 (u : nat) (dofs : list nat) (vals : list Qc)
| AddFix (u : nat) (dof : nat) (place : Z)
| SetDofs (u : nat) (dofs : list nat) (vals : list Qc).
(** with 'take-effect' *)
Notation cus := (what * nat)%type.

Section Solve.
(** the gathering matrix of each unknown, the chained numbers, the number of chained dofs *)
Variable gms : list (list (list nat)).
Variable chain : nat -> nat -> nat.
Variable N : nat.
Variable nrm : list Qc -> fl.
Variable lin : iterate -> list what -> option (list Qc).
(** [find_representative_location] *)
Variable rep : nat -> nat -> option nat.
Variable atol : Q.
Variable m : maxit.

(** main.py 488-504 ([_Xxx.update]): the values of a global vector, unknown by unknown and element by element; an
    index out of range: an exception *)
Definition scatter (x : list Qc) : option iterate :=
  omap (fun ug => omap (omap (fun d => nth_error x (chain (fst ug) d))) (snd ug)) (combine (seq 0 (length gms)) gms).

(** Newton_Raphson.py 132-149: write [v] at every location of dof [d] *)
Definition put_dof (gm : list (list nat)) (x : local) (d : nat) (v : Qc) : option local :=
  ozip (ozip (fun g y => Some (if g =? d then v else y))) gm x.
Fixpoint put_dofs (gm : list (list nat)) (x : local) (dofs : list nat) (vals : list Qc) : option local :=
  match dofs, vals with
  | [], _ => Some x
  | _ :: _, [] => None
  | d :: r, v :: s => match put_dof gm x d v with None => None | Some y => put_dofs gm y r s end
  end.
Fixpoint replace_nth {X} (l : list X) (n : nat) (a : X) : list X :=
  match l, n with [], _ => [] | _ :: r, O => a :: r | b :: r, S k => b :: replace_nth r k a end.
(** Newton_Raphson.py 122-153; the customizations, the initial guess, and whether all went well *)
Fixpoint set_x0 (cs : list cus) (x : iterate) : list cus * option iterate :=
  match cs with
  | [] => ([], Some x)
  | (SetX0 u dofs vals, f) :: r =>
      if negb (f =? 0) then ((SetX0 u dofs vals, f) :: r, None) else
      match nth_error x u, nth_error gms u with
      | Some xu, Some gm =>
          match put_dofs gm xu dofs vals with
          | None => ((SetX0 u dofs vals, 1) :: r, None)
          | Some y => let '(r', o) := set_x0 r (replace_nth x u y) in ((SetX0 u dofs vals, 1) :: r', o)
          end
      | _, _ => ((SetX0 u dofs vals, 1) :: r, None)
      end
  | c :: r => let '(r', o) := set_x0 r x in (c :: r', o)
  end.
(** Newton_Raphson.py 236-282 (and Picard.py 146-202 with other kinds): the customizations of one iteration take effect *)
Definition newton_kind (w : what) : bool := match w with Fixed _ _ | AddFix _ _ _ => true | _ => false end.
Definition picard_kind (w : what) : bool := match w with SetDofs _ _ _ | AddFix _ _ _ => true | _ => false end.
Definition bad_place (w : what) : bool := match w with AddFix _ _ p => negb (p =? -1)%Z | _ => false end.
Fixpoint take (kind : what -> bool) (ITER : nat) (cs : list cus) : list cus * bool :=
  match cs with
  | [] => ([], true)
  | (w, f) :: r =>
      if kind w then
        if negb (f =? (if ITER =? 1 then 0 else 1)) then (cs, false) else
        if bad_place w then ((w, 1) :: r, false) else
        let '(r', b) := take kind ITER r in ((w, 1) :: r', b)
      else let '(r', b) := take kind ITER r in ((w, f) :: r', b)
  end.
Definition extra_row (w : what) : bool := match w with AddFix _ _ _ => true | _ => false end.
(** Newton_Raphson.py 304-320: the values of the extra rows are dropped; None: NotImplementedError *)
Definition drop_extra (cs : list cus) (x : list Qc) : option (list Qc) :=
  match length (filter (fun c => extra_row (fst c)) cs) with
  | O => Some x
  | S O => Some (removelast x)
  | _ => None
  end.

(** what a solver leaves: the customizations, the cochains of the unknowns at their time (None: not touched) *)
Record mem := { m_cus : list cus; m_store : option iterate }.
Inductive outcome (X : Type) := Raise | Done (x : X) (iters : nat) (betas : list fl) (judge : nat) (info : Z) | Fuel.
Arguments Raise {X}. Arguments Fuel {X}. Arguments Done {X}.

(** Newton_Raphson.py 155-372; [fuel]: bound of the number of iterations *)
Fixpoint newton_loop (fuel : nat) (cs : list cus) (st : option iterate) (xi : iterate) (ITER0 : nat) (BETA0 : list fl) : mem * outcome iterate :=
  match fuel with
  | O => ({| m_cus := cs; m_store := st |}, Fuel)
  | S fuel =>
      let ITER := S ITER0 in
      let '(cs, ok) := take newton_kind ITER cs in
      let fail := ({| m_cus := cs; m_store := st |}, Raise) in
      if negb ok then fail else
      match lin xi (map fst cs) with
      | None => fail
      | Some x0 =>
          match drop_extra cs x0 with
          | None => fail
          | Some x =>
              match scatter x with
              | None => fail
              | Some dx =>
                  (* ls.x.update(x): the unknowns are occupied by dx *)
                  let BETA := BETA0 ++ [nrm x] in
                  match add_iterate xi dx with
                  | None => ({| m_cus := cs; m_store := Some dx |}, Raise)
                  | Some xi1 =>
                      match stop BETA atol ITER m with
                      | Stop j i => ({| m_cus := cs; m_store := Some xi1 |}, Done xi1 ITER BETA j i)
                      | Go => newton_loop fuel cs (Some dx) xi1 ITER BETA
                      end
                  end
              end
          end
      end
  end.
(** enough for every run, see [newton_stops] *)
Definition enough : nat := match m with Int n | Forced n => S (Z.to_nat n) end.
Definition newton (cs : list cus) (st : option iterate) (x0 : iterate) : mem * outcome iterate :=
  let '(cs, o) := set_x0 cs x0 in
  match o with
  | None => ({| m_cus := cs; m_store := st |}, Raise)
  | Some xi => newton_loop enough cs st xi 0 []
  end.

(** vector/static/local.py 45-62: assemble in mode 'replace' *)
Definition place (v : list Qc) (u d : nat) (y : Qc) : list Qc := replace_nth v (chain u d) y.
Definition gathered (x : iterate) : list Qc :=
  fold_left (fun v u => fold_left (fun v e => fold_left (fun v dy => place v u (fst dy) (snd dy))
      (combine (nth e (nth u gms []) []) (nth e (nth u x []) [])) v) (seq 0 (length (nth u gms []))) v)
    (seq 0 (length gms)) (repeat 0%Qc N).
(** [assembled_xi.V - x]; different lengths: an exception *)
Definition vsub (x y : list Qc) : option (list Qc) := ozip (fun a b => Some (a - b)%Qc) x y.
(** Picard.py 183-201 and vector/static/local.py 81-85: the entry of the guess with the global number is read in an
    element having the dof; only the value zero can be added to the right hand side *)
Definition guess_ok (xi : iterate) (w : what) : bool :=
  match w with
  | AddFix u d _ =>
      match rep u d with
      | None => false
      | Some e => match nth_error xi u with
                  | None => false
                  | Some xu => match nth_error xu e with
                               | None => false
                               | Some l => match nth_error l d with None => false | Some v => Qc_eq_bool v 0 end
                               end
                  end
      end
  | _ => true
  end.
(** Picard.py 101-257; [uniq]: the text 'unique' occurs in a signature *)
Fixpoint picard_loop (uniq : bool) (fuel : nat) (cs : list cus) (st : option iterate) (xi : iterate) (ITER0 : nat) (BETA0 : list fl) : mem * outcome (list Qc) :=
  match fuel with
  | O => ({| m_cus := cs; m_store := st |}, Fuel)
  | S fuel =>
      let ITER := S ITER0 in
      let '(cs, ok) := take picard_kind ITER cs in
      let fail := ({| m_cus := cs; m_store := st |}, Raise) in
      if negb ok then fail else
      if negb uniq then fail else
      if negb (forallb (fun c => guess_ok xi (fst c)) cs) then fail else
      match lin xi (map fst cs) with
      | None => fail
      | Some x0 =>
          match drop_extra cs x0 with
          | None => fail
          | Some x =>
              match vsub (gathered xi) x with
              | None => fail
              | Some d =>
                  let BETA := BETA0 ++ [nrm d] in
                  match scatter x with
                  | None => fail
                  | Some x1 =>
                      match stop BETA atol ITER m with
                      | Stop j i => ({| m_cus := cs; m_store := Some x1 |}, Done x ITER BETA j i)
                      | Go => picard_loop uniq fuel cs (Some x1) x1 ITER BETA
                      end
                  end
              end
          end
      end
  end.

(** ** solve/main.py 37-110 *)
Inductive scheme := Newton | Picard.
(** essential boundary conditions of rows with nonlinear terms, on hold: main.py (of the system) 390-402 *)
Notation hold := (nat * list nat * list Qc)%type.
Definition unhold (s : scheme) (h : hold) : list cus :=
  let '(u, dofs, vals) := h in
  match s with
  | Newton => [(Fixed u dofs, 0); (SetX0 u dofs vals, 0)]
  | Picard => [(SetDofs u dofs vals, 0)]
  end.
Definition no_effect (c : cus) : bool := snd c =? 0.
Definition full_effect (c : cus) : bool := snd c =? 1.
Inductive answer := Local (x : iterate) | Global (x : list Qc).
(** the result is None if an exception is raised *)
Definition solve (uniq : bool) (s : scheme) (onhold : list hold) (mm : mem) (x0 : iterate) : mem * option (answer * Z * list fl) :=
  let cs := m_cus mm ++ flat_map (unhold s) onhold in
  let mm := {| m_cus := cs; m_store := m_store mm |} in
  if negb (forallb no_effect cs) then (mm, None) else
  match s with
  | Newton =>
      let '(mm', o) := newton cs (m_store mm) x0 in
      match o with
      | Done x _ betas _ info => if forallb full_effect (m_cus mm') then (mm', Some (Local x, info, betas)) else (mm', None)
      | _ => (mm', None)
      end
  | Picard =>
      let '(mm', o) := picard_loop uniq enough cs (m_store mm) x0 0 [] in
      match o with
      | Done x _ betas _ info => if forallb full_effect (m_cus mm') then (mm', Some (Global x, info, betas)) else (mm', None)
      | _ => (mm', None)
      end
  end.
End Solve.
Arguments Raise {X}. Arguments Fuel {X}. Arguments Done {X}.
