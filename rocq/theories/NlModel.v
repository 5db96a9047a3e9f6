(** Model of nonlinear terms and of the linear systems made of them in each iteration:
    /repo/msehtt/tools/nonlinear_system/operator/{local_multilinear.py, dynamic.py},
    /repo/msehtt/tools/nonlinear_system/static/main.py,
    /repo/msehtt/tools/nonlinear_system/static/solve/{Newton_Raphson.py, Picard.py},
    /repo/msehtt/static/form/addons/nop_data_computer/trilinear_base.py.
    Numbers are reals.  None stands for an exception; an exception raised later, when a matrix made "in realtime" is asked
    for an element, is the None of that element.  A dict over the elements of the rank is a function of the element and the
    list of these elements.  Not modelled: einsum and + accept an axis of length 1 for one of any length; here it is an
    exception. *)
From Coq Require Import List Arith Bool ZArith Reals.
Import ListNotations.
Local Open Scope R_scope.

(** ** forms *)

(** a generic form (an object), or its copy at a time, times being rounded to 8 digits (cochain/main.py 26-30) *)
Inductive cf := Gen (f : nat) | Copy (f : nat) (t : Z).

(** addons/static.py 206-211; generic forms are compared by identity *)
Definition cf_eqb (a b : cf) : bool :=
  match a, b with
  | Gen f, Gen g => f =? g
  | Copy f t, Copy g u => (f =? g) && (t =? u)%Z
  | _, _ => false
  end%nat.

(** the generic form: [cf] or [cf._f] *)
Definition base (c : cf) : nat := match c with Gen f => f | Copy f _ => f end.
(** [c in l] *)
Definition cf_in (c : cf) (l : list cf) : bool := existsb (cf_eqb c) l.
(** [l.index(c)] *)
Fixpoint cf_index (c : cf) (l : list cf) : option nat :=
  match l with
  | [] => None
  | d :: l' => if cf_eqb c d then Some 0%nat else option_map S (cf_index c l')
  end.

(** ** arrays *)

Record nd := mk_nd { shape : list nat; at_ : list nat -> R }.

Fixpoint rsum (n : nat) (f : nat -> R) : R := match n with O => 0 | S k => rsum k f + f k end.

(** np.einsum with letters 0, 1, ... : the letters of the array, of the vectors, of the result *)
Definition upd (env : nat -> nat) (l i : nat) : nat -> nat := fun m => if (m =? l)%nat then i else env m.
Fixpoint sum_over (dim : nat -> nat) (ls : list nat) (env : nat -> nat) (body : (nat -> nat) -> R) : R :=
  match ls with
  | [] => body env
  | l :: ls' => rsum (dim l) (fun i => sum_over dim ls' (upd env l i) body)
  end.
Fixpoint bind (ls r : list nat) : nat -> nat :=
  match ls, r with
  | l :: ls', i :: r' => upd (bind ls' r') l i
  | _, _ => fun _ => 0%nat
  end.
Fixpoint entries (env : nat -> nat) (ls : list nat) (vs : list (list R)) : R :=
  match ls, vs with
  | l :: ls', v :: vs' => nth (env l) v 0 * entries env ls' vs'
  | _, _ => 1
  end.
Fixpoint dim_of (mda sh : list nat) (l : nat) : nat :=
  match mda, sh with
  | m :: mda', n :: sh' => if (m =? l)%nat then n else dim_of mda' sh' l
  | _, _ => 0%nat
  end.
Fixpoint fits (dim : nat -> nat) (ls : list nat) (vs : list (list R)) : bool :=
  match ls, vs with
  | [], [] => true
  | l :: ls', v :: vs' => (length v =? dim l)%nat && fits dim ls' vs'
  | _, _ => false
  end.
Definition mem (l : nat) (ls : list nat) : bool := existsb (Nat.eqb l) ls.
Definition einsum (mda given res : list nat) (T : nd) (vs : list (list R)) : option nd :=
  let dim := dim_of mda (shape T) in
  if (length mda =? length (shape T))%nat && fits dim given vs then
    Some (mk_nd (map dim res)
      (fun r => sum_over dim (filter (fun l => negb (mem l res)) mda) (bind res r)
                  (fun env => at_ T (map env mda) * entries env given vs)))
  else None.

Section opts.
  Context {X : Type}.
  Definition is_none (o : option X) : bool := match o with None => true | Some _ => false end.
  Definition is_some (o : option X) : bool := negb (is_none o).
  (** the letters of what is given, what is left, and the given *)
  Fixpoint some_at (k : nat) (p : list (option X)) : list nat :=
    match p with [] => [] | Some _ :: p' => k :: some_at (S k) p' | None :: p' => some_at (S k) p' end.
  Fixpoint none_at (k : nat) (p : list (option X)) : list nat :=
    match p with [] => [] | Some _ :: p' => none_at (S k) p' | None :: p' => k :: none_at (S k) p' end.
  Fixpoint somes (p : list (option X)) : list X :=
    match p with [] => [] | Some x :: p' => x :: somes p' | None :: p' => somes p' end.
End opts.

(** ** multilinear operators *)

(** an operator: data (local_multilinear.py 29-42: arrays, or the helper of a factor), [correspondence], and
    [direct_derivative_contribution] *)
Inductive nop :=
| Arr (d : nat -> nd) (cs : list cf) (direct : bool)
| Mul (c : R) (n : nop) (cs : list cf) (direct : bool).
Definition corr (n : nop) : list cf := match n with Arr _ cs _ => cs | Mul _ _ cs _ => cs end.
Definition direct (n : nop) : bool := match n with Arr _ _ b => b | Mul _ _ _ b => b end.

Definition scale (c : R) (a : nd) : nd := mk_nd (shape a) (fun r => c * at_ a r).

(** local_multilinear.py 80-148 ([__call__]), 150-179 ([_make_operands]), 366-369 (the helper of a factor) *)
Definition contract (T : nd) (p : list (option (list R))) : option nd :=
  if forallb is_none p then Some T
  else if (14 <=? length p)%nat then None
  else einsum (seq 0 (length p)) (some_at 0 p) (none_at 0 p) T (somes p).
Fixpoint call (n : nop) (e : nat) (p : list (option (list R))) : option nd :=
  match n with
  | Arr d cs _ => if (length p =? length cs)%nat then contract (d e) p else None
  | Mul c m cs _ => if (length p =? length cs)%nat then option_map (scale c) (call m e p) else None
  end.

(** 190-202 *)
Definition rmul (c : R) (n : nop) : nop := Mul c n (corr n) (direct n).

(** 44-53: no object occurs twice; copies are made for each position, so only a generic form can *)
Fixpoint objects_differ (cs : list cf) : bool :=
  match cs with
  | [] => true
  | Gen f :: cs' => negb (cf_in (Gen f) cs') && objects_differ cs'
  | Copy _ _ :: cs' => objects_differ cs'
  end.
(** 20-62, with 58 raising if there is no form *)
Definition new_op (d : nat -> nd) (cs : list cf) (dir : bool) : option nop :=
  match cs with
  | [] => None
  | _ => if objects_differ cs then Some (Arr d cs dir) else None
  end.

(** the values of a form in the elements: a cochain, a cochain vector, a local vector (112-130) *)
Notation cochain := (nat -> list R).

(** 204-240; [els]: the elements of the rank *)
Fixpoint left_over {X} (cs : list cf) (p : list (option X)) : list cf :=
  match cs, p with
  | c :: cs', None :: p' => c :: left_over cs' p'
  | _ :: cs', Some _ :: p' => left_over cs' p'
  | _, _ => []
  end.
Definition at_element (p : list (option cochain)) (e : nat) : list (option (list R)) :=
  map (option_map (fun c : cochain => c e)) p.
Definition or_empty (o : option nd) : nd := match o with Some a => a | None => mk_nd [] (fun _ => 0) end.
Definition eliminate (els : list nat) (n : nop) (p : list (option cochain)) : option nop :=
  if forallb is_none p then None
  else if negb (length p =? length (corr n))%nat then None
  else if negb (forallb (fun e => is_some (call n e (at_element p e))) els) then None
  else new_op (fun e => or_empty (call n e (at_element p e))) (left_over (corr n) p) false.

(** ** local matrices *)

Record mat := mk_mat { rows : nat; cols : nat; ent : nat -> nat -> R }.
(** matrix/static/local.py 19-48: the gathering matrices are those of the forms [gm_row], [gm_col] *)
Record lmat := mk_lmat { gm_row : nat; gm_col : nat; mdata : nat -> option mat }.

(** local_multilinear.py 349-355 *)
Definition dense (transpose : bool) (a : option nd) : option mat :=
  match a with
  | Some a =>
      match shape a with
      | [r; c] => Some (if transpose then mk_mat c r (fun i j => at_ a [j; i]) else mk_mat r c (fun i j => at_ a [i; j]))
      | _ => None
      end
  | None => None
  end.
(** 242-257 *)
Definition matrix (n : nop) (transpose : bool) : option lmat :=
  match corr n with
  | [c1; c2] => Some (mk_lmat (base c1) (base c2) (fun e => dense transpose (call n e [None; None])))
  | _ => None
  end.

(** matrix/static/local.py 250-262 *)
Definition mneg (M : mat) : mat := mk_mat (rows M) (cols M) (fun i j => - ent M i j).
Definition lneg (m : lmat) : lmat := mk_lmat (gm_row m) (gm_col m) (fun e => option_map mneg (mdata m e)).
(** 318-343 *)
Definition madd (M N : mat) : option mat :=
  if (rows M =? rows N)%nat && (cols M =? cols N)%nat then
    Some (mk_mat (rows M) (cols M) (fun i j => ent M i j + ent N i j))
  else None.
Definition ladd (m n : lmat) : lmat :=
  mk_lmat (gm_row m) (gm_col m)
    (fun e => match mdata m e, mdata n e with Some M, Some N => madd M N | _, _ => None end).

(** local_multilinear.py 282-322; the known pairs: a position of the correspondence (the form there is one object) and its
    cochain.  The result: raised; or returns None; or a matrix *)
Definition pick (p : nat) (known : list (nat * option cochain)) : option cochain :=
  fold_left (fun acc kv => if (fst kv =? p)%nat then snd kv else acc) known None.
Definition count_none {X} (p : list (option X)) : nat := length (filter is_none p).
Definition cfs_eqb (a b : list cf) : bool :=
  (length a =? length b)%nat && forallb (fun p => cf_eqb (fst p) (snd p)) (combine a b).
Definition derivative_contribution (els : list nat) (n : nop) (test unk : cf) (known : list (nat * option cochain))
  : option (option lmat) :=
  if negb (direct n) then None
  else if negb (cf_in test (corr n)) then None
  else if negb (cf_in unk (corr n)) then Some None
  else
    let provided := map (fun p => pick p known) (seq 0 (length (corr n))) in
    if negb (count_none provided + length known =? length (corr n))%nat then None
    else match eliminate els n provided with
         | None => None
         | Some m =>
             if cfs_eqb (corr m) [test; unk] then option_map Some (matrix m false)
             else if cfs_eqb (corr m) [unk; test] then option_map Some (matrix m true)
             else None
         end.

(** 325-337: the data of what is left *)
Fixpoint set_nth {X} (l : list X) (k : nat) (a : X) : list X :=
  match l, k with
  | [], _ => []
  | _ :: l', O => a :: l'
  | b :: l', S k' => b :: set_nth l' k' a
  end.
Definition provide (cs : list cf) (pairs : list (cf * cochain)) : list (option cochain) :=
  fold_left (fun p fc => match cf_index (fst fc) cs with Some k => set_nth p k (Some (snd fc)) | None => p end)
    pairs (repeat None (length cs)).
Definition evaluate (els : list nat) (n : nop) (pairs : list (cf * cochain)) : option (nat -> nd) :=
  match eliminate els n (provide (corr n) pairs) with
  | Some (Arr d _ _) => Some d
  | _ => None
  end.

(** ** the nonlinear system *)

(** static/main.py 28-84.  The blocks of [A] and [b] that are None have been replaced by zeros (linear_system/dynamic/main.py
    375-392).  [terms i]: the nonlinear terms of row i and whether their sign is '+'.  [nloc f e]: the number of dofs of form
    [f] in element [e] *)
Record nls := mk_nls {
  els : list nat;
  n0 : nat; n1 : nat;
  A : nat -> nat -> lmat;
  b : nat -> cochain;
  terms : nat -> list (nop * bool);
  tests : nat -> cf;
  uks : list cf;
  nloc : nat -> nat -> nat
}.

(** Newton_Raphson.py 214-232 *)
Definition itm (us : list cf) (x : list cochain) (cp : cf) : option cochain :=
  match cf_index cp us with Some k => nth_error x k | None => None end.
Fixpoint known_from (us : list cf) (x : list cochain) (test unk : cf) (k : nat) (cs : list cf)
  : list (nat * option cochain) :=
  match cs with
  | [] => []
  | cp :: cs' =>
      (if cf_eqb cp unk || cf_eqb cp test then [] else [(k, itm us x cp)]) ++ known_from us x test unk (S k) cs'
  end.

(** 208-252: one term is added to a block *)
Definition add_term (s : nls) (x : list cochain) (i : nat) (unk : cf) (acc : option lmat) (t : nop * bool) : option lmat :=
  match acc with
  | None => None
  | Some L =>
      if negb (cf_in (tests s i) (corr (fst t))) then None
      else if cf_in unk (corr (fst t)) then
        match derivative_contribution (els s) (fst t) (tests s i) unk
                (known_from (uks s) x (tests s i) unk 0 (corr (fst t))) with
        | Some (Some m) => Some (ladd L (if snd t then m else lneg m))
        | _ => None
        end
      else Some L
  end.
(** 174-252: block (i, j) of the matrix of one iteration *)
Definition lhs (s : nls) (x : list cochain) (i j : nat) : option lmat :=
  match nth_error (uks s) j with
  | None => None
  | Some unk => fold_left (add_term s x i unk) (terms s i) (Some (A s i j))
  end.

(** static/main.py 476-523: the nonlinear part of row i; None: no terms *)
Definition shape_eqb (a c : list nat) : bool := if list_eq_dec Nat.eq_dec a c then true else false.
Definition nd_add (u v : nd) : option nd :=
  if shape_eqb (shape u) (shape v) then Some (mk_nd (shape u) (fun r => at_ u r + at_ v r)) else None.
Definition signed (plus : bool) (a : nd) : nd := if plus then a else mk_nd (shape a) (fun r => - at_ a r).
Definition add_value (s : nls) (pairs : list (cf * cochain)) (acc : option (option (nat -> nd))) (t : nop * bool)
  : option (option (nat -> nd)) :=
  match acc, evaluate (els s) (fst t) pairs with
  | Some None, Some v => Some (Some (fun e => signed (snd t) (v e)))
  | Some (Some u), Some v =>
      let w e := nd_add (u e) (signed (snd t) (v e)) in
      if forallb (fun e => is_some (w e)) (els s) then Some (Some (fun e => or_empty (w e))) else None
  | _, _ => None
  end.
Definition nonlinear_f (s : nls) (x : list cochain) (i : nat) : option (option (nat -> nd)) :=
  fold_left (add_value s (combine (uks s) x)) (terms s i) (Some None).

(** vector/static/local.py 121-145: a dict given to a local vector; a column is accepted *)
Definition as_vec (n : nat) (a : nd) : option (list R) :=
  match shape a with
  | [m] => if (m =? n)%nat then Some (map (fun i => at_ a [i]) (seq 0 n)) else None
  | [m; 1%nat] => if (m =? n)%nat then Some (map (fun i => at_ a [i; 0%nat]) (seq 0 n)) else None
  | _ => None
  end.
(** 240-272 *)
Fixpoint vzip (f : R -> R -> R) (u v : list R) : option (list R) :=
  match u, v with
  | [], [] => Some []
  | a :: u', c :: v' => option_map (cons (f a c)) (vzip f u' v')
  | _, _ => None
  end.
Definition ozip (f : R -> R -> R) (u v : option (list R)) : option (list R) :=
  match u, v with Some u, Some v => vzip f u v | _, _ => None end.
(** matrix/static/local.py 345-393 *)
Definition mat_vec (M : mat) (v : list R) : option (list R) :=
  if (cols M =? length v)%nat then
    Some (map (fun i => rsum (cols M) (fun j => ent M i j * nth j v 0)) (seq 0 (rows M)))
  else None.
Definition block_vec (s : nls) (x : list cochain) (i e j : nat) : option (list R) :=
  match mdata (A s i j) e, nth_error x j with
  | Some M, Some v => mat_vec M (v e)
  | _, _ => None
  end.

(** static/main.py 525-597 with neg=False and neg=True: row i, element e *)
Definition linear_f (s : nls) (x : list cochain) (i e : nat) : option (list R) :=
  fold_left (fun acc j => ozip Rplus acc (block_vec s x i e j)) (seq 1 (n1 s - 1)) (block_vec s x i e 0).
Definition nonlinear_vec (s : nls) (x : list cochain) (i e : nat) : option (option (list R)) :=
  match nonlinear_f s x i with
  | None => None
  | Some None => Some None
  | Some (Some v) =>
      if forallb (fun e' => is_some (as_vec (nloc s (base (tests s i)) e') (v e'))) (els s)
      then Some (as_vec (nloc s (base (tests s i)) e) (v e)) else None
  end.
Definition evaluate_f (s : nls) (x : list cochain) (i e : nat) : option (list R) :=
  match nonlinear_vec s x i e with
  | None => None
  | Some None => ozip Rplus (linear_f s x i e) (Some (map Ropp (b s i e)))
  | Some (Some v) => ozip Rplus (ozip Rplus (linear_f s x i e) (Some v)) (Some (map Ropp (b s i e)))
  end.
(** Newton_Raphson.py 254: the right-hand side of an iteration *)
Definition newton_rhs (s : nls) (x : list cochain) (i e : nat) : option (list R) :=
  option_map (map Ropp) (evaluate_f s x i e).

(** Picard.py 126-136 *)
Definition picard_rhs (s : nls) (x : list cochain) (i e : nat) : option (list R) :=
  match nonlinear_vec s x i e with
  | None => None
  | Some None => Some (b s i e)
  | Some (Some v) => ozip Rminus (Some (b s i e)) (Some v)
  end.

(** ** terms with three forms, trilinear_base.py *)

(** 120-162: dimensions == 1; [abc]: the forms (objects), [c f]: the cochain of [f] in the element *)
Definition letters_other (abc : list nat) (vf : nat) : list (nat * nat) :=
  filter (fun p => negb (snd p =? vf)%nat) (combine (seq 0 3) abc).
Definition letters_same (abc : list nat) (vf : nat) : list nat :=
  map fst (filter (fun p => (snd p =? vf)%nat) (combine (seq 0 3) abc)).
Definition one_dim (abc : list nat) (vf : nat) (T : nd) (c : nat -> list R) : option nd :=
  match letters_same abc vf, letters_other abc vf with
  | [t], [g0; g1] => einsum (seq 0 3) [fst g0; fst g1] [t] T [c (snd g0); c (snd g1)]
  | _, _ => None
  end.
(** 46-58, 174-228: dimensions == 2; the matrix and the forms of its gathering matrices *)
Definition two_dim (abc : list nat) (rf cf' : nat) (T : nd) (c : nat -> list R) : option (nat * nat * mat) :=
  match letters_same abc rf, letters_same abc cf' with
  | [r], [k] =>
      if (r =? k)%nat then None
      else
        let g := (3 - r - k)%nat in
        match einsum (seq 0 3) [g] [r; k] T [c (nth g abc 0%nat)] with
        | Some a => option_map (fun M => (rf, cf', M)) (dense false (Some a))
        | None => None
        end
  | _, _ => None
  end.
(** 60-77: dimensions == 3 is allowed *)
Definition three_dim_ok (fa fb fc : nat) : bool := negb (fa =? fb)%nat && negb (fb =? fc)%nat.
(** operator/dynamic.py 36-57, 95-99: the static term of forms [fs]; [bs]: the base of a form; [ts]: the times *)
Definition static_term (d : nat -> nd) (fs : list nat) (tf : nat) (bs : nat -> nat) (ts : nat -> Z) : option nop :=
  if mem tf fs then
    new_op d (map (fun f => if (f =? tf)%nat then Gen f else Copy (bs f) (ts f)) fs) true
  else None.
(** 60-77 and dynamic.py *)
Definition three_dim (fa fb fc tf : nat) (d : nat -> nd) (bs : nat -> nat) (ts : nat -> Z) : option nop :=
  if three_dim_ok fa fb fc then static_term d [fa; fb; fc] tf bs ts else None.
(** 91-117: the wrapper *)
Definition wrapped (T : nd) (p : list (option (list R))) : option nd :=
  match p with
  | [None; Some u; Some v] => einsum (seq 0 3) [1%nat; 2%nat] [0%nat] T [u; v]
  | [Some u; None; Some v] => einsum (seq 0 3) [0%nat; 2%nat] [1%nat] T [u; v]
  | [Some u; Some v; None] => einsum (seq 0 3) [0%nat; 1%nat] [2%nat] T [u; v]
  | _ => None
  end.
