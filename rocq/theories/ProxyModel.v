(** Algebraic and matrix proxies of weak formulations: from pairings of forms to products of
    abstract arrays, to the block system A x = b, and to the system that is assembled.

    Cites /repo/src/wf/term/pattern.py, /repo/src/wf/term/ap.py, /repo/src/spaces/ap.py,
    /repo/src/algebra/array.py, /repo/src/algebra/linear_system.py, /repo/src/wf/mp/main.py,
    /repo/src/form/parameters.py and /repo/msehtt/tools/linear_system/dynamic/.
    Printing, boundary conditions, time indicators and the products of three forms other than as
    opaque nonlinear terms are not modelled.  A raised exception is [None]. *)
From Coq Require Import Ascii String Reals QArith Bool Arith List.
From Verif Require Import WfModel.
Import ListNotations.
Local Open Scope list_scope.
Local Open Scope nat_scope.

(* ---------------------------------------------------------------- scalars *)

(** Scalar parameters: the number 1 (_cs1), other root parameters, and what + and / make of them
    (form/parameters.py 14-223) *)
Inductive scalar :=
| One
| Par (c : nat)
| Plus_ (a b : scalar)
| Over (a b : scalar).

Definition is_one (f : scalar) : bool := match f with One => true | _ => false end.

(* ---------------------------------------------------------------- arrays *)

(** Entries of shapes: the integer 1, or the text of a space with its degree *)
Inductive dim := Unit | Sp (s d : nat).
Definition dim_eqb (a b : dim) : bool :=
  match a, b with
  | Unit, Unit => true
  | Sp s d, Sp s' d' => (s =? s') && (d =? d')
  | _, _ => false
  end.

(** Root arrays by what their lin_repr says (spaces/ap.py): the vector of a root form, the mass
    matrix, the matrix of d and its transpose, the matrix of a duality pairing, the trace matrix,
    the boundary vector <tr star f0 | tr .>, any other *)
Inductive root :=
| Vec (f : nat)
| Mass (s d : nat)
| Ed (s d : nat)
| EdT (s d : nat)
| Wdp (a b : nat)
| TrM (f : nat)
| Bdp (f0 f1 : nat)
| Other (n : nat).
Definition root_eq_dec (a b : root) : {a = b} + {a <> b}.
Proof. decide equality; apply Nat.eq_dec. Defined.

(** AbstractArray (algebra/array.py 41-82): components, each with whether it is transposed *)
Record arr := mkArr { a_factor : scalar; a_comps : list (root * bool) }.
Definition of_root (r : root) : arr := mkArr One [(r, false)].

(** self @ other (238-265) *)
Definition matmul (a b : arr) : option arr :=
  if is_one (a_factor a) then Some (mkArr (a_factor b) (a_comps a ++ a_comps b))
  else if is_one (a_factor b) then Some (mkArr (a_factor a) (a_comps a ++ a_comps b))
  else None.
(** other * self (267-283) *)
Definition rmul (f : scalar) (a : arr) : option arr :=
  if is_one (a_factor a) then Some (mkArr f (a_comps a)) else None.
(** self.T (206-236); only mass matrices are symmetric *)
Definition transpose (a : arr) : option arr :=
  match a_factor a, a_comps a with
  | One, [(Mass s d, false)] => Some a
  | One, [(r, false)] => Some (mkArr One [(r, true)])
  | _, _ => None
  end.

Section Shapes.
  (** the space and degree of a root form, d of a space, the trace of a space; [other] gives the
      shape of other arrays *)
  Context (space degree : nat -> nat) (d_space tr_space : nat -> nat) (other : nat -> dim * dim).

  (** the shapes given to _root_array (spaces/ap.py 150-155, 180-185, 220-241, 198-203, 310-330; form/ap.py 25) *)
  Definition root_shape (r : root) : dim * dim :=
    match r with
    | Vec f => (Sp (space f) (degree f), Unit)
    | Mass s d => (Sp s d, Sp s d)
    | Ed s d => (Sp (d_space s) d, Sp s d)
    | EdT s d => (Sp s d, Sp (d_space s) d)
    | Wdp a b => (Sp (space a) (degree a), Sp (space b) (degree b))
    | TrM f => (Sp (tr_space (space f)) (degree f), Sp (space f) (degree f))
    | Bdp _ f1 => (Sp (space f1) (degree f1), Unit)
    | Other n => other n
    end.
  Definition comp_shape (c : root * bool) : dim * dim :=
    let '(p, q) := root_shape (fst c) in if snd c then (q, p) else (p, q).
  (** shape (139-164); [Some None] is None, for no components *)
  Fixpoint shape_from (s : dim * dim) (l : list (root * bool)) : option (dim * dim) :=
    match l with
    | [] => Some s
    | c :: r => let '(p, q) := comp_shape c in
                if dim_eqb (snd s) p then shape_from (fst s, q) r else None
    end.
  Definition shape (a : arr) : option (option (dim * dim)) :=
    match a_comps a with
    | [] => Some None
    | c :: r => match shape_from (comp_shape c) r with Some s => Some (Some s) | None => None end
    end.
  Definition pair_eqb (a b : dim * dim) : bool := dim_eqb (fst a) (fst b) && dim_eqb (snd a) (snd b).
  Definition shape_eqb (a b : option (dim * dim)) : bool :=
    match a, b with
    | None, None => true
    | Some a, Some b => pair_eqb a b
    | _, _ => false
    end.

  (* -------------------------------------------------------------- terms *)

  (** Forms as the patterns see them, f being root: f, d f, tr f, tr star f, the time derivative of f *)
  Inductive pform := Rt (f : nat) | Dr (f : nat) | Tr_ (f : nat) | TrStar (f : nat) | Dt (f : nat).

  (** a term of the weak formulation; [PNon] a product of three unknown forms *)
  Inductive pterm :=
  | PIp (factor : scalar) (f0 f1 : pform)
  | PDp (factor : scalar) (f0 f1 : pform)
  | PNon (n : nat) (forms : list nat).

  (** A term as algebraic proxy: an array of shape (1, 1), or a nonlinear term *)
  Inductive ap := Lin (a : arr) | Non (n : nat).

  (** a @ b @ c @ ... *)
  Fixpoint product_of (a : arr) (l : list arr) : option arr :=
    match l with
    | [] => Some a
    | b :: r => match matmul a b with Some ab => product_of ab r | None => None end
    end.
  Definition vec (f : nat) : arr := of_root (Vec f).
  (** v.T @ rest *)
  Definition tested_with (f : nat) (l : list arr) : option arr :=
    match transpose (vec f) with Some v => product_of v l | None => None end.

  (** factor * TermLinearAlgebraicProxy(term_ap) (wf/term/ap.py 98-125) *)
  Definition linear_term (factor : scalar) (t : option arr) : option ap :=
    match t with
    | Some a =>
        match shape a with
        | Some (Some (Unit, Unit)) =>
            match rmul factor a with Some b => Some (Lin b) | None => None end
        | _ => None
        end
    | None => None
    end.

  (** _VarPar_M (spaces/ap.py 133-157) *)
  Definition par_mass (s0 s1 d0 d1 : nat) : option arr :=
    if (s0 =? s1) && (d0 =? d1) then Some (of_root (Mass s0 d0)) else None.
  Definition par_E (f : nat) : arr := of_root (Ed (space f) (degree f)).
  Definition par_ET (f : nat) : arr := of_root (EdT (space f) (degree f)).
  Definition with_mass (m : option arr) (k : arr -> option arr) : option arr :=
    match m with Some m => k m | None => None end.

  (** the pattern (pattern.py 14-120, 993-1020, 1339-1375) and what it parses to (ap.py 128-560);
      [dual f]: f.is_dual_representation() *)
  Definition term_ap (dual : nat -> bool) (test : nat) (t : pterm) : option ap :=
    match t with
    | PIp c (Rt f0) (Rt f1) =>
        (* _parse_reprs_rt_rt *)
        linear_term c (with_mass (par_mass (space f0) (space f1) (degree f0) (degree f1)) (fun m =>
          if test =? f1 then tested_with f1 [m; vec f0] else tested_with f0 [m; vec f1]))
    | PIp c (Dr f0) (Rt f1) =>
        if dual f1 then
          (* _parse_reprs_d_dual_ *)
          linear_term c (if test =? f1 then tested_with f1 [par_E f0; vec f0] else tested_with f0 [par_ET f0; vec f1])
        else
          (* _parse_reprs_d_ *)
          linear_term c (with_mass (par_mass (d_space (space f0)) (space f1) (degree f0) (degree f1)) (fun m =>
            if test =? f1 then tested_with f1 [m; par_E f0; vec f0] else tested_with f0 [par_ET f0; m; vec f1]))
    | PIp c (Rt f0) (Dr f1) =>
        if dual f0 then
          (* _parse_reprs__dual_d *)
          linear_term c (if test =? f1 then tested_with f1 [par_ET f1; vec f0] else tested_with f0 [par_E f1; vec f1])
        else
          (* _parse_reprs__d *)
          linear_term c (with_mass (par_mass (space f0) (d_space (space f1)) (degree f0) (degree f1)) (fun m =>
            if test =? f1 then tested_with f1 [par_ET f1; m; vec f0] else tested_with f0 [m; par_E f1; vec f1]))
    | PIp c (Dr f0) (Dr f1) =>
        (* _parse_reprs_dd *)
        linear_term c (with_mass (par_mass (d_space (space f0)) (d_space (space f1)) (degree f0) (degree f1)) (fun m =>
          if test =? f1 then tested_with f1 [par_ET f1; m; par_E f0; vec f0]
          else if test =? f0 then tested_with f0 [par_ET f0; m; par_E f1; vec f1] else None))
    | PIp c (Rt A) (Tr_ B) | PIp c (Tr_ B) (Rt A) =>
        (* _parse_reprs_A_trB *)
        if space A =? tr_space (space B) then
          linear_term c (with_mass (par_mass (space A) (space A) (degree A) (degree B)) (fun m =>
            if test =? A then tested_with A [m; of_root (TrM B); vec B]
            else if test =? B then
              match transpose (of_root (TrM B)) with Some tT => tested_with B [tT; m; vec A] | None => None end
            else None))
        else None
    | PDp c (TrStar f0) (Tr_ f1) =>
        (* _parse_reprs_tr_star_star *)
        linear_term c (if test =? f1 then tested_with f1 [of_root (Bdp f0 f1)] else None)
    | PDp c (Rt f0) (Rt f1) =>
        (* _parse_reprs_dp *)
        linear_term c (if test =? f0 then tested_with f0 [of_root (Wdp f0 f1); vec f1]
                       else if test =? f1 then tested_with f1 [of_root (Wdp f1 f0); vec f0] else None)
    | PNon n forms => if existsb (Nat.eqb test) forms then Some (Non n) else None
    | _ => None
    end.

  (* -------------------------------------------------------------- blocks *)

  (** an entry of a block vector or matrix: signed arrays *)
  Notation entry := (list (sgn * arr)).

  (** BlockColVector._add, BlockMatrix._add (algebra/linear_system.py 40-48, 136-144): on one entry *)
  Definition add_to (e : entry) (s : sgn) (a : arr) : option entry :=
    match e with
    | [] => Some [(s, a)]
    | (_, a0) :: _ =>
        match shape a, shape a0 with
        | Some p, Some q => if shape_eqb p q then Some (e ++ [(s, a)]) else None
        | _, _ => None
        end
    end.
  Fixpoint set {A} (l : list A) (i : nat) (x : A) : list A :=
    match l, i with
    | [], _ => []
    | _ :: r, 0 => x :: r
    | y :: r, S i => y :: set r i x
    end.
  (** BlockColVector(n)._add(i, ...) *)
  Definition add_vec (v : list entry) (i : nat) (s : sgn) (a : arr) : option (list entry) :=
    match nth_error v i with
    | Some e => match add_to e s a with Some e' => Some (set v i e') | None => None end
    | None => None
    end.
  Definition add_mat (m : list (list entry)) (i j : nat) (s : sgn) (a : arr) : option (list (list entry)) :=
    match nth_error m i with
    | Some row => match add_vec row j s a with Some row' => Some (set m i row') | None => None end
    | None => None
    end.
  Definition empty_vec (n : nat) : list entry := repeat [] n.
  Definition empty_mat (n m : nat) : list (list entry) := repeat (repeat [] m) n.
  Definition vec_is_empty (v : list entry) : bool := forallb (fun e => match e with [] => true | _ => false end) v.
  Definition mat_is_empty (m : list (list entry)) : bool := forallb vec_is_empty m.

  (* -------------------------------------------------------------- matrix proxy *)

  (** MatrixProxy (wf/mp/main.py 84-156): the blocks matrix @ vector on the left and on the right,
      what remains, and the nonlinear terms; the vector of a block is kept by its targets *)
  Record mp := mkMp {
    m_left : list (list (list entry) * list nat);
    m_right : list (list (list entry) * list nat);
    m_lbv : list entry;
    m_rbv : list entry;
    m_lnon : list (list (sgn * nat));
    m_rnon : list (list (sgn * nat)) }.

  (** _test_vector_remover (164-197), for linear terms *)
  Definition remove_test (test : nat) (a : arr) : option arr :=
    match a_comps a with
    | (r, true) :: l => if root_eq_dec r (Vec test) then Some (mkArr (a_factor a) l) else None
    | _ => None
    end.

  (** the loop over the terms of one side of equation i (112-150) *)
  Fixpoint sort_terms (test : nat) (l : list (sgn * ap)) (e : entry) (n : list (sgn * nat)) : option (entry * list (sgn * nat)) :=
    match l with
    | [] => Some (e, n)
    | (s, Lin a) :: r =>
        match remove_test test a with
        | Some a' => match add_to e s a' with Some e' => sort_terms test r e' n | None => None end
        | None => None
        end
    | (s, Non k) :: r => sort_terms test r e (n ++ [(s, k)])
    end.
  Fixpoint sort_all (eqs : list (list (sgn * ap) * nat)) : option (list entry * list (list (sgn * nat))) :=
    match eqs with
    | [] => Some ([], [])
    | (l, test) :: r =>
        match sort_terms test l [] [], sort_all r with
        | Some (e, n), Some (es, ns) => Some (e :: es, n :: ns)
        | _, _ => None
        end
    end.

  Fixpoint index_in (l : list nat) (f : nat) : option nat :=
    match l with
    | [] => None
    | g :: r => if g =? f then Some 0 else option_map S (index_in r f)
    end.

  (** parse (199-264): one array goes to the matrix or remains; [unsnoc] splits off the last component *)
  Fixpoint unsnoc {A} (l : list A) : option (list A * A) :=
    match l with
    | [] => None
    | a :: r => match unsnoc r with
                | None => Some ([], a)
                | Some (b, x) => Some (a :: b, x)
                end
    end.
  Definition parse_term (targets : list nat) (i : nat) (st : list (list entry) * list entry) (x : sgn * arr)
    : option (list (list entry) * list entry) :=
    let '(bm, rest) := st in
    let '(s, a) := x in
    match unsnoc (a_comps a) with
    | None => None
    | Some (cs, (r, tr)) =>
        match r, tr with
        | Vec f, false =>
            match index_in targets f with
            | Some k => match add_mat bm i k s (mkArr (a_factor a) cs) with Some bm' => Some (bm', rest) | None => None end
            | None => match add_vec rest i s a with Some rest' => Some (bm, rest') | None => None end
            end
        | _, _ => match add_vec rest i s a with Some rest' => Some (bm, rest') | None => None end
        end
    end.
  Fixpoint parse_entry (targets : list nat) (i : nat) (st : list (list entry) * list entry) (e : entry) :=
    match e with
    | [] => Some st
    | x :: r => match parse_term targets i st x with Some st' => parse_entry targets i st' r | None => None end
    end.
  Fixpoint parse_rows (targets : list nat) (i : nat) (st : list (list entry) * list entry) (v : list entry) :=
    match v with
    | [] => Some st
    | e :: r => match parse_entry targets i st e with Some st' => parse_rows targets (S i) st' r | None => None end
    end.
  Definition parse_side (targets : list nat) (mvs : list (list (list entry) * list nat)) (v : list entry) :=
    let n := length v in
    match parse_rows targets 0 (empty_mat n (length targets), empty_vec n) v with
    | Some (bm, rest) => Some (if mat_is_empty bm then mvs else mvs ++ [(bm, targets)], rest)
    | None => None
    end.
  (** the vector bb has as many rows as there are equations *)
  Definition parse (targets : list nat) (m : mp) : option mp :=
    if length targets <=? length (m_lbv m) then
      match parse_side targets (m_left m) (m_lbv m), parse_side targets (m_right m) (m_rbv m) with
      | Some (l, lbv), Some (r, rbv) => Some (mkMp l r lbv rbv (m_lnon m) (m_rnon m))
      | _, _ => None
      end
    else None.

  (** wf.mp(): AlgebraicProxy (wf/ap/main.py 29-99), then MatrixProxy; an equation has its sides
      and its test form.  The sign of a proxy is always '+'. *)
  Fixpoint side_ap (dual : nat -> bool) (test : nat) (l : list (sgn * pterm)) : option (list (sgn * ap)) :=
    match l with
    | [] => Some []
    | (s, t) :: r => match term_ap dual test t, side_ap dual test r with
                     | Some a, Some l' => Some ((times Plus s, a) :: l')
                     | _, _ => None
                     end
    end.
  Definition sides_ap (dual : nat -> bool) (eqs : list (list (sgn * pterm) * nat)) : option (list (list (sgn * ap) * nat)) :=
    map_opt (fun e => option_map (fun l => (l, snd e)) (side_ap dual (snd e) (fst e))) eqs.
  Definition new_mp (dual : nat -> bool) (eqs : list (list (sgn * pterm) * list (sgn * pterm) * nat)) (unknowns : list nat) : option mp :=
    match sides_ap dual (map (fun e => (fst (fst e), snd e)) eqs), sides_ap dual (map (fun e => (snd (fst e), snd e)) eqs) with
    | Some ls, Some rs =>
        match sort_all ls, sort_all rs with
        | Some (lbv, lnon), Some (rbv, rnon) => parse unknowns (mkMp [] [] lbv rbv lnon rnon)
        | _, _ => None
        end
    | _, _ => None
    end.

  (* -------------------------------------------------------------- A x = b *)

  (** LinearSystem (algebra/linear_system.py 192-250): x are the vectors of forms, hence fit *)
  Record ls := mkLs { l_A : list (list entry); l_x : list nat; l_b : list entry }.
  Definition col_ok (a : arr) : bool := match shape a with Some (Some (_, Unit)) => true | _ => false end.
  Definition rows_of (a : arr) : option dim := match shape a with Some (Some (p, _)) => Some p | _ => None end.
  (** every array of the row has the same number of rows, and there is one *)
  Definition same_rows (l : list (option dim)) : bool :=
    match l with
    | Some p :: r => forallb (fun q => match q with Some q => dim_eqb p q | None => false end) r
    | _ => false
    end.
  Definition new_ls (A : list (list entry)) (x : list nat) (b : list entry) : option ls :=
    if (length A =? length x) && (length b =? length A) &&
       forallb (fun e => forallb (fun t => col_ok (snd t)) e) b &&
       forallb (fun p => same_rows (map (fun t => rows_of (snd t)) (fst p) ++ map (fun t => rows_of (snd t)) (concat (snd p))))
               (combine b A)
    then Some (mkLs A x b) else None.

  (** _parse_ls (wf/mp/main.py 508-543) *)
  Fixpoint add_products (f : nat) (l : entry) (e : entry) : option entry :=
    match l with
    | [] => Some e
    | (s, m) :: r =>
        match matmul m (vec f) with
        | Some mv => match add_to e (times Plus s) mv with Some e' => add_products f r e' | None => None end
        | None => None
        end
    end.
  Fixpoint add_row (targets : list nat) (row : list entry) (e : entry) : option entry :=
    match targets, row with
    | [], [] => Some e
    | f :: fs, l :: ls => match add_products f l e with Some e' => add_row fs ls e' | None => None end
    | _, _ => None
    end.
  Fixpoint add_block (targets : list nat) (bm : list (list entry)) (b : list entry) : option (list entry) :=
    match bm, b with
    | [], [] => Some []
    | row :: rows, e :: es =>
        match add_row targets row e, add_block targets rows es with
        | Some e', Some es' => Some (e' :: es')
        | _, _ => None
        end
    | _, _ => None
    end.
  Fixpoint add_blocks (mvs : list (list (list entry) * list nat)) (b : list entry) : option (list entry) :=
    match mvs with
    | [] => Some b
    | (bm, targets) :: r => match add_block targets bm b with Some b' => add_blocks r b' | None => None end
    end.
  Fixpoint add_list (l : entry) (e : entry) : option entry :=
    match l with
    | [] => Some e
    | (s, a) :: r => match add_to e s a with Some e' => add_list r e' | None => None end
    end.
  Fixpoint add_vecs (v b : list entry) : option (list entry) :=
    match v, b with
    | [], [] => Some []
    | l :: ls, e :: es => match add_list l e, add_vecs ls es with
                          | Some e', Some es' => Some (e' :: es')
                          | _, _ => None
                          end
    | _, _ => None
    end.
  Definition parse_ls (m : mp) : option ls :=
    if vec_is_empty (m_lbv m) then
      match m_left m with
      | [(A, x)] =>
          match add_blocks (m_right m) (empty_vec (length (m_rbv m))) with
          | Some b => match add_vecs (m_rbv m) b with Some b' => new_ls A x b' | None => None end
          | None => None
          end
      | _ => None
      end
    else None.
  Definition no_terms {A} (l : list (list A)) : bool := forallb (fun x => match x with [] => true | _ => false end) l.
  (** mp.ls() (545-556) *)
  Definition to_ls (m : mp) : option ls :=
    if no_terms (m_lnon m) && no_terms (m_rnon m) then parse_ls m else None.
  (** mp.nls() (558-580): the linear system and the nonlinear terms on the left *)
  Definition to_nls (m : mp) : option (ls * list (list (sgn * nat))) :=
    if no_terms (m_lnon m) && no_terms (m_rnon m) then None
    else match parse_ls m with
         | Some l => if no_terms (m_rnon m) then Some (l, m_lnon m) else None
         | None => None
         end.
End Shapes.

(* ---------------------------------------------------------------- text *)

(** sep in s, s.split(sep), for a nonempty sep *)
Fixpoint has (sep s : string) : bool :=
  String.prefix sep s || match s with EmptyString => false | String _ r => has sep r end.
Fixpoint split_from (skip : nat) (sep s : string) : list string :=
  match s with
  | EmptyString => [EmptyString]
  | String a r =>
      match skip with
      | S k => split_from k sep r
      | 0 => if String.prefix sep s then EmptyString :: split_from (String.length sep - 1) sep r
             else match split_from 0 sep r with
                  | h :: t => String a h :: t
                  | [] => [String a EmptyString]
                  end
      end
  end.
Definition split_on (sep s : string) : list string := split_from 0 sep s.

(** config.py 379-382, 386, 398, 327-334 *)
Definition factor_sep : string := "\{*\}".
Definition connector : string := "\{@\}".
Definition transpose_text : string := "-transpose".
Definition division_text : string := " \emph{divided by} ".
Definition plus_text : string := " $+$ ".

Section Text.
  (** the pure_lin_repr of arrays and of scalar parameters *)
  Context (array_name : root -> string) (scalar_name : nat -> string).

  Definition root_lin (r : root) : string := String.append "\textbf{" (String.append (array_name r) "}").
  Definition par_lin (c : nat) : string := String.append "\textsc{" (String.append (scalar_name c) "}").
  Fixpoint scalar_lin (f : scalar) : string :=
    match f with
    | One => "\textsc{1}"
    | Par c => par_lin c
    | Plus_ a b => String.append (scalar_lin a) (String.append plus_text (scalar_lin b))
    | Over a b => String.append (scalar_lin a) (String.append division_text (scalar_lin b))
    end.
  Definition comp_lin (c : root * bool) : string :=
    if snd c then String.append (root_lin (fst c)) transpose_text else root_lin (fst c).
  Fixpoint join (sep : string) (l : list string) : string :=
    match l with
    | [] => EmptyString
    | [x] => x
    | x :: r => String.append x (String.append sep (join sep r))
    end.
  (** AbstractArray._lin_repr (array.py 109-133) *)
  Definition arr_lin (a : arr) : string :=
    String.append (if is_one (a_factor a) then EmptyString else String.append (scalar_lin (a_factor a)) factor_sep)
                  (join connector (map comp_lin (a_comps a))).

  (** _parse_matrix_block and _parse_vector_block (dynamic/main.py 76-133), one array: the text of
      the factor (none for _cs1) and of the components; unpacking wants one separator *)
  Definition read_lin (s : string) : option (option string * list string) :=
    if has factor_sep s then
      match split_on factor_sep s with
      | [f; c] => Some (Some f, split_on connector c)
      | _ => None
      end
    else Some (None, split_on connector s).

  (** the scalars and arrays that are known, by their lin_repr *)
  Context (scalars : list nat) (arrays : list root).
  (** _find_root_scalar_parameter (parameters.py 226-233); _cs1 is always known *)
  Definition find_scalar (s : string) : option scalar :=
    if String.eqb s "\textsc{1}" then Some One
    else option_map Par (find (fun c => String.eqb (par_lin c) s) scalars).
  (** _factor_parser (236-253); dividing by an unknown parameter fails when it is called *)
  Definition factor_parser (s : string) : option scalar :=
    match find_scalar s with
    | Some f => Some f
    | None =>
        match split_on division_text s with
        | [a; b] => match find_scalar a, find_scalar b with
                    | Some x, Some y => Some (Over x y)
                    | _, _ => None
                    end
        | _ => None
        end
    end.
  Definition ends_text (t s : string) : bool :=
    String.eqb (substring (String.length s - String.length t) (String.length t) s) t && (String.length t <=? String.length s).
  Definition cut (t s : string) : string := substring 0 (String.length s - String.length t) s.
  (** msehtt_root_array_parser (dynamic/array_parser.py 20-199): transposed or not, and which array *)
  Definition read_comp (s : string) : option (root * bool) :=
    let '(s, tr) := if ends_text transpose_text s then (cut transpose_text s, true) else (s, false) in
    match find (fun r => String.eqb (root_lin r) s) arrays with
    | Some r =>
        match r, tr with
        | Vec _, true => None
        | _, _ => Some (r, tr)
        end
    | None => None
    end.
  (** DynamicTerm (dynamic/main.py 558-627): factor and components *)
  Definition read_arr (a : arr) : option arr :=
    match read_lin (arr_lin a) with
    | Some (f, cs) =>
        match (match f with None => Some One | Some f => factor_parser f end), map_opt read_comp cs with
        | Some f, Some cs => Some (mkArr f cs)
        | _, _ => None
        end
    | None => None
    end.
  Definition read_entry (e : list (sgn * arr)) : option (list (sgn * arr)) :=
    map_opt (fun x => option_map (pair (fst x)) (read_arr (snd x))) e.
End Text.

(* ---------------------------------------------------------------- evaluation *)

Section Evaluate.
  Local Open Scope R_scope.
  (** Matrices are entries by row and column; [size] the number of dofs; [value] the static arrays
      that the dynamic ones evaluate to, [par] the scalar parameters *)
  Context (size : dim -> nat) (dims : root -> dim * dim) (value : root -> nat -> nat -> R) (par : nat -> R).

  Fixpoint sumn (n : nat) (f : nat -> R) : R := match n with O => 0 | S n => sumn n f + f n end.
  (** a scalar when it is called; only root parameters and quotients of two of them get here *)
  Fixpoint scalar_value (f : scalar) : R :=
    match f with
    | One => 1
    | Par c => par c
    | Plus_ a b => scalar_value a + scalar_value b
    | Over a b => scalar_value a / scalar_value b
    end.
  Definition comp_value (c : root * bool) (i j : nat) : R := if snd c then value (fst c) j i else value (fst c) i j.
  Definition inner_dim (c : root * bool) : dim := if snd c then fst (dims (fst c)) else snd (dims (fst c)).
  (** DynamicTerm: ((c0 @ c1) @ c2) @ ... (dynamic/main.py 612-620) *)
  Fixpoint chain (acc : nat -> nat -> R) (last : dim) (l : list (root * bool)) : nat -> nat -> R :=
    match l with
    | [] => acc
    | c :: r => chain (fun i j => sumn (size last) (fun k => acc i k * comp_value c k j)) (inner_dim c) r
    end.
  Definition comps_value (l : list (root * bool)) : option (nat -> nat -> R) :=
    match l with
    | [] => None
    | c :: r => Some (chain (comp_value c) (inner_dim c) r)
    end.
  (** DynamicBlockEntry.__call__ (dynamic/main.py 430-556): the sum of the terms *)
  Definition term_static (x : sgn * arr) : option (nat -> nat -> R) :=
    match comps_value (a_comps (snd x)) with
    | Some m =>
        let factor := scalar_value (a_factor (snd x)) in
        Some (fun i j =>
          if Req_EM_T factor 1 then (match fst x with Minus => - m i j | Plus => m i j end)
          else (match fst x with Minus => (- factor) * m i j | Plus => factor * m i j end))
    | None => None
    end.
  Fixpoint entry_static (acc : nat -> nat -> R) (e : list (sgn * arr)) : option (nat -> nat -> R) :=
    match e with
    | [] => Some acc
    | x :: r => match term_static x with
                | Some m => entry_static (fun i j => acc i j + m i j) r
                | None => None
                end
    end.
  (** None blocks become zero (_get_raw_Axb, 340-375) *)
  Definition block_static (e : list (sgn * arr)) : option (nat -> nat -> R) :=
    match e with
    | [] => Some (fun _ _ => 0)
    | x :: r => match term_static x with Some m => entry_static m r | None => None end
    end.
End Evaluate.

(* ---------------------------------------------------------------- real constants *)

(** constant_scalar(q) + other (parameters.py 14-33, 160-170), for real numbers: the sum is made from
    float(sym_repr), and sym_repr is \frac{1}{n} if 1/q is an integer other than 1 *)
Definition whole (q : Q) : bool := (Zpos (Qden (Qred q)) =? 1)%Z.
Definition sym_is_fraction (q : Q) : bool :=
  negb (Qeq_bool q 1) && negb (Qeq_bool q 0) && whole (/ q).
Definition real_plus (q other : Q) : option Q := if sym_is_fraction q then None else Some (q + other)%Q.
