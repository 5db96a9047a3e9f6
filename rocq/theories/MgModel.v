(** Model of multigrid schedules, /repo/tools/miscellaneous/multigrid_scheme.py, and of the multigrid solver,
    /repo/msehtt/multigrid/tools/linear_system/static/solvers/multigrid.py.
    Simplifications: a sequence like '3-1-1' is the list of its numbers; steps are identified by their index instead
    of by the text of their address; in the solver one rank, vectors of a layer are an arbitrary type with arbitrary
    addition, subtraction, matrices, transfers, and solvers without side effects (intermediate_maxiter and the other
    options are part of them); the transfers of the components and [merge]/[split] are one transfer. *)
From Coq Require Import List ZArith Bool.
From Verif Require Import Dict.
Import ListNotations.
Local Open Scope Z_scope.

(** ** schedules *)
(** 305-331: a restriction from [l] to [l - 1], an interpolation from [l] to [l + 1] *)
Inductive step := RS (l : Z) | IS (l : Z).
(** [range(num_max_layers)], 193-194 *)
Definition layers (n : nat) : list Z := map Z.of_nat (seq 0 n).
(** 174-199 *)
Definition parse_V (n : nat) : list step := map RS (removelast (rev (layers n))) ++ map IS (removelast (layers n)).
(** 201-228 *)
Definition parse_N (n : nat) : list step := map IS (removelast (layers n)) ++ map RS (removelast (rev (layers n))) ++ map IS (removelast (layers n)).
(** 259-266, 296-303: one number of a sequence *)
Fixpoint moves (down : bool) (l : Z) (s : nat) : list step * Z :=
  match s with
  | O => ([], l)
  | S k => if down then let (w, l') := moves down (l - 1) k in (RS l :: w, l') else let (w, l') := moves down (l + 1) k in (IS l :: w, l')
  end.
(** 256-273, 293-310 *)
Fixpoint parse_seq (down : bool) (l : Z) (ss : list nat) : list step :=
  match ss with [] => [] | s :: r => let (w, l') := moves down l s in w ++ parse_seq (negb down) l' r end.
(** 275, 312: the assertion on the last step; no steps: IndexError *)
Definition check_last (n : nat) (w : list step) : option (list step) :=
  match rev w with IS l :: _ => if l =? Z.of_nat n - 2 then Some w else None | _ => None end.
(** 230-276; no numbers: ValueError *)
Definition parse_W (n : nat) (ss : list nat) : option (list step) := match ss with [] => None | _ => check_last n (parse_seq true (Z.of_nat n - 1) ss) end.
(** 278-313 *)
Definition parse_FMG (n : nat) (ss : list nat) : option (list step) := match ss with [] => None | _ => check_last n (parse_seq false 0 ss) end.

(** 135-181 [pairs]: the loop over the reversed schedule; None: pop from an empty list *)
Fixpoint pair_loop (w : list (nat * step)) (stack : list nat) (d : dict nat (option nat)) : option (list nat * dict nat (option nat)) :=
  match w with
  | [] => Some (stack, d)
  | (i, IS _) :: q => pair_loop q (i :: stack) d
  | (i, RS _) :: q => match stack with [] => None | j :: st => pair_loop q st (put Nat.eqb d j (Some i)) end
  end.
Definition pairs (w : list step) : option (dict nat (option nat)) :=
  match pair_loop (rev (combine (seq 0 (length w)) w)) [] [] with
  | None => None
  | Some (stack, d) => Some (fold_left (fun d i => put Nat.eqb d i None) (rev stack) d)
  end.

(** ** the solver *)
Section Solver.
  Context {V : Type}.
  Variable add sub : V -> V -> V.
  Variable A : Z -> V -> V.              (* [AAA[l].M @ x] *)
  Variable b : Z -> V.                   (* [bbb[l]] *)
  Variable down up : Z -> V -> V.        (* [pass_vector] from layer [l] to [l - 1], [l + 1] *)
  Variable direct : Z -> V -> V.         (* [spsolve(AAA[l], rhs)] *)
  Variable iter : Z -> V -> V -> V.      (* [linearSolver(AAA[l], rhs, x0)] *)
  Variable zero : Z -> V.                (* the initial guess 0 *)
  (** [x, error, rhs]; [x] is an object: an address *)
  Record triple := { t_x : nat; t_err : V; t_rhs : option V }.
  (** [___StepIO___]: input and output; a cleaned one is None *)
  Record io := { io_in : triple; io_out : triple }.
  Record mstate := { mheap : list V; mios : list (option io); fresh_unpaired : bool }.
  Fixpoint hset (h : list V) (a : nat) (v : V) : list V := match h, a with [], _ => [] | _ :: r, O => v :: r | x :: r, S k => x :: hset r k v end.
  Fixpoint clean_at {X} (l : list (option X)) (i : nat) : list (option X) := match l, i with [], _ => [] | _ :: r, O => None :: r | x :: r, S k => x :: clean_at r k end.
  (** 102-143: the input of step 0 *)
  Definition first_input (top : Z) (x0 : V) (s : step) : option (list V * triple) :=
    match s with
    | IS l => if l =? 0 then let x := direct 0 (b 0) in Some ([x], {| t_x := 0; t_err := sub (A 0 x) (b 0); t_rhs := None |}) else None
    | RS l => if l =? top then let x := iter l (b l) x0 in Some ([x], {| t_x := 0; t_err := sub (A l x) (b l); t_rhs := Some (b l) |}) else None
    end.
  (** 265-277: forget all unpaired interpolations *)
  Definition clean_unpaired (w : list step) (d : dict nat (option nat)) (ios : list (option io)) : list (option io) :=
    fold_left (fun ios s => match nth_error w s with
                            | Some (IS _) => match get Nat.eqb d s with Some None => clean_at ios s | _ => ios end
                            | _ => ios
                            end) (seq 0 (length ios)) ios.
  (** 150-281: step [s], with its input *)
  Definition mstep (clean : bool) (w : list step) (d : dict nat (option nat)) (st : mstate) (s : nat) (stp : step) (inp : triple) : option mstate :=
    let h := mheap st in
    match stp with
    | IS l =>
        match get Nat.eqb d s with
        | None => None
        | Some None =>
            match nth_error h (t_x inp) with
            | None => None
            | Some x =>
                let x' := iter (l + 1) (b (l + 1)) (up l x) in
                let out := {| t_x := length h; t_err := sub (A (l + 1) x') (b (l + 1)); t_rhs := Some (b (l + 1)) |} in
                Some {| mheap := h ++ [x']; mios := mios st ++ [Some {| io_in := inp; io_out := out |}]; fresh_unpaired := true |}
            end
        | Some (Some r) =>
            match nth_error h (t_x inp), nth_error (mios st) r with
            | Some dx, Some (Some ior) =>
                let tr := io_in ior in
                match nth_error h (t_x tr), t_rhs tr with
                | Some x, Some bv =>
                    let x' := add x (up l dx) in
                    let out := {| t_x := t_x tr; t_err := sub (A (l + 1) x') bv; t_rhs := Some bv |} in
                    let ios := if clean then clean_at (clean_at (mios st) r) (s - 1) else mios st in
                    Some {| mheap := hset h (t_x tr) x'; mios := ios ++ [Some {| io_in := inp; io_out := out |}]; fresh_unpaired := fresh_unpaired st |}
                | _, _ => None
                end
            | _, _ => None
            end
        end
    | RS l =>
        let rhs := down l (t_err inp) in
        let x := if l - 1 =? 0 then direct (l - 1) rhs else iter (l - 1) rhs (zero (l - 1)) in
        let out := {| t_x := length h; t_err := sub (A (l - 1) x) rhs; t_rhs := Some rhs |} in
        let ios := mios st ++ [Some {| io_in := inp; io_out := out |}] in
        Some {| mheap := h ++ [x]; mios := if clean && fresh_unpaired st then clean_unpaired w d ios else ios;
                fresh_unpaired := if clean && fresh_unpaired st then false else fresh_unpaired st |}
    end.
  (** 148-281: the loop; the input of a later step is the output of the one before (None: it was cleaned) *)
  Fixpoint mloop (clean : bool) (w : list step) (d : dict nat (option nat)) (st : mstate) (s : nat) (q : list step) (inp : triple) : option (mstate * triple) :=
    match q with
    | [] => Some (st, inp)
    | stp :: r => match mstep clean w d st s stp inp with
                  | None => None
                  | Some st' => match nth_error (mios st') s with Some (Some x) => mloop clean w d st' (S s) r (io_out x) | _ => None end
                  end
    end.
  (** 27-283: the vector the final solve starts from *)
  Definition msolve (clean : bool) (w : list step) (top : Z) (x0 : V) : option V :=
    match rev w with
    | IS l :: _ =>
        if negb (l + 1 =? top) then None else
        match w with
        | [] => None
        | s0 :: _ => match first_input top x0 s0, pairs w with
                     | Some (h, inp), Some d =>
                         match mloop clean w d {| mheap := h; mios := []; fresh_unpaired := false |} 0 w inp with
                         | Some (st, out) => nth_error (mheap st) (t_x out)
                         | None => None
                         end
                     | _, _ => None
                     end
        end
    | _ => None
    end.
End Solver.
