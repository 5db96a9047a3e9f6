(** Manipulating weak formulations: how they are read from expressions and how
    [wf.derive] and [wf.td] change them.

    Cites /repo/src/wf/main.py, /repo/src/wf/derive.py, /repo/src/wf/term/main.py,
    /repo/src/wf/td.py, /repo/src/pde.py, /repo/src/ode/main.py and /repo/src/ode/discretize.py.
    The dicts _term_dict and _sign_dict are kept together: an equation is its left and its
    right terms, each with its sign.  The meshes and spaces of the forms, the test forms, the
    boundary conditions and the printed representations are not modelled.  A raised exception
    is [None]. *)
From Coq Require Import Ascii String DecimalString Reals Bool Arith List.
Import ListNotations.
Local Open Scope string_scope.
Local Open Scope list_scope.
Local Open Scope nat_scope.

(* ---------------------------------------------------------------- python strings *)

(** s.replace(c, '') *)
Fixpoint remove_char (c : ascii) (s : string) : string :=
  match s with
  | EmptyString => EmptyString
  | String a r => if Ascii.eqb a c then remove_char c r else String a (remove_char c r)
  end.

(** s.split(c) *)
Fixpoint split (c : ascii) (s : string) : list string :=
  match s with
  | EmptyString => [EmptyString]
  | String a r =>
      if Ascii.eqb a c then EmptyString :: split c r
      else match split c r with
           | h :: t => String a h :: t
           | [] => [String a EmptyString]
           end
  end.

(** s.count(c) *)
Fixpoint count_char (c : ascii) (s : string) : nat :=
  match s with
  | EmptyString => 0
  | String a r => (if Ascii.eqb a c then 1 else 0) + count_char c r
  end.

(** s.replace('-', '+-') *)
Fixpoint plus_minus (s : string) : string :=
  match s with
  | EmptyString => EmptyString
  | String a r => if Ascii.eqb a "-" then String "+" (String "-" (plus_minus r)) else String a (plus_minus r)
  end.

Definition is_digit (a : ascii) : bool := (48 <=? nat_of_ascii a) && (nat_of_ascii a <=? 57).
Fixpoint all_digits (s : string) : bool :=
  match s with
  | EmptyString => true
  | String a r => is_digit a && all_digits r
  end.
(** s.isnumeric(), for ascii text *)
Definition is_numeric (s : string) : bool := negb (String.eqb s "") && all_digits s.

(** str(n) and int(s); int() is only modelled for digits *)
Definition dec (n : nat) : string := NilZero.string_of_uint (Nat.to_uint n).
Definition to_int (s : string) : option nat :=
  match NilZero.uint_of_string s with
  | Some d => Some (Nat.of_uint d)
  | None => None
  end.

Fixpoint map_opt {A B} (f : A -> option B) (l : list A) : option (list B) :=
  match l with
  | [] => Some []
  | a :: r => match f a, map_opt f r with
              | Some b, Some bs => Some (b :: bs)
              | _, _ => None
              end
  end.

Fixpoint sget {V} (k : string) (d : list (string * V)) : option V :=
  match d with
  | [] => None
  | (k', v) :: r => if String.eqb k k' then Some v else sget k r
  end.

(** list.sort() *)
Fixpoint ins (n : nat) (l : list nat) : list nat :=
  match l with
  | [] => [n]
  | m :: r => if n <=? m then n :: l else m :: ins n r
  end.
Definition sort (l : list nat) : list nat := fold_right ins [] l.

(* ---------------------------------------------------------------- equations *)

Inductive sgn := Plus | Minus.
(** WfDerive._switch_sign (derive.py 237-244) *)
Definition switch (s : sgn) : sgn := match s with Plus => Minus | Minus => Plus end.
(** OrdinaryDifferentialEquationDiscretize._parse_sign (ode/discretize.py 152-155) *)
Definition sgn_eqb (s t : sgn) : bool := match s, t with Plus, Plus | Minus, Minus => true | _, _ => false end.
Definition times (s t : sgn) : sgn := if sgn_eqb s t then Plus else Minus.

Notation side T := (list (sgn * T)).
Notation eqn T := (list (sgn * T) * list (sgn * T))%type.

(** A weak formulation: its equations, and the unknowns if they have been set *)
Record wf (T : Type) := mkWf { wf_eqs : list (eqn T); wf_unknowns : option (list nat) }.
Arguments mkWf {T}. Arguments wf_eqs {T}. Arguments wf_unknowns {T}.

Section Derive.
  (** [efs t]: the elementary forms of a term *)
  Context {T : Type} (efs : T -> list nat).

  Definition terms_of (eqs : list (eqn T)) : list T := flat_map (fun e => map snd (fst e ++ snd e)) eqs.

  (** WeakFormulation.__init__ (wf/main.py 306-361): _parse_meshes wants at least one term *)
  Definition new_wf (eqs : list (eqn T)) : option (wf T) :=
    match terms_of eqs with
    | [] => None
    | _ => Some (mkWf eqs None)
    end.

  (** the setter of unknowns (wf/main.py 653-675) *)
  Definition set_unknowns (w : wf T) (u : option (list nat)) : option (wf T) :=
    match wf_unknowns w, u with
    | Some _, _ => None
    | None, None => Some w
    | None, Some us =>
        if (length us =? length (wf_eqs w)) &&
           forallb (fun x => existsb (Nat.eqb x) (flat_map efs (terms_of (wf_eqs w)))) us
        then Some (mkWf (wf_eqs w) (Some us)) else None
    end.

  (** the end of every derivation (derive.py 51-55, 231-235, 277-282) *)
  Definition derived (w : wf T) (eqs : list (eqn T)) : option (wf T) :=
    match new_wf eqs with
    | Some w' => set_unknowns w' (wf_unknowns w)
    | None => None
    end.

  (** str(i) + '-' + str(k) *)
  Definition index_of (i k : nat) : string := String.append (dec i) (String "-" (dec k)).

  (** _parse_term_sign_dict (wf/main.py 363-384): the dict _indexing *)
  Fixpoint index_terms (i k : nat) (l : side T) : list (string * (sgn * T)) :=
    match l with
    | [] => []
    | t :: r => (index_of i k, t) :: index_terms i (S k) r
    end.
  Fixpoint indexing (i : nat) (eqs : list (eqn T)) : list (string * (sgn * T)) :=
    match eqs with
    | [] => []
    | e :: r => index_terms i 0 (fst e ++ snd e) ++ indexing (S i) r
    end.
  (** wf[index] (600-605) *)
  Definition getitem (w : wf T) (index : string) : option (sgn * T) := sget index (indexing 0 (wf_eqs w)).

  (** _parse_index (628-642): the equation, whether left, and the position there *)
  Definition parse_index (w : wf T) (index : string) : option (nat * bool * nat) :=
    match split "-" index with
    | [a; b] =>
        match to_int a, to_int b with
        | Some i, Some k =>
            match nth_error (wf_eqs w) i with
            | Some e => if k <? length (fst e) then Some (i, true, k) else Some (i, false, k - length (fst e))
            | None => None
            end
        | _, _ => None
        end
    | _ => None
    end.

  (** l[k] replaced by the list new *)
  Definition put {A} (l : list A) (k : nat) (new : list A) : list A := firstn k l ++ new ++ skipn (S k) l.

  (** WfDerive.replace (derive.py 16-55) with _parse_new_weak_formulation_dict (57-96) *)
  Definition replace (w : wf T) (index : string) (new : side T) : option (wf T) :=
    match parse_index w index with
    | Some (i, lft, k) =>
        match nth_error (wf_eqs w) i with
        | Some e =>
            let here := if lft then fst e else snd e in
            match nth_error here k with
            | Some (old, _) =>
                let new' := match old with
                            | Plus => new
                            | Minus => map (fun st => (switch (fst st), snd st)) new
                            end in
                let here' := put here k new' in
                let e' := if lft then (here', snd e) else (fst e, here') in
                derived w (put (wf_eqs w) i [e'])
            | None => None
            end
        | None => None
        end
    | None => None
    end.

  (** WfDerive.delete (derive.py 296-299) *)
  Definition delete (w : wf T) (index : string) : option (wf T) := replace w index [].

  (** integration_by_parts, split, commutation_wrt_inner_and_x, switch_to_duality_pairing
      (284-315): what the term makes of itself takes its place *)
  Definition derive_with (f : T -> option (side T)) (w : wf T) (index : string) : option (wf T) :=
    match getitem w index with
    | Some (_, t) => match f t with Some new => replace w index new | None => None end
    | None => None
    end.

  (** rearrange, the words of one equation with n terms (derive.py 126-184); [[]] stands for
      left_terms = 0 or right_terms = 0 *)
  Definition is_empty (l : list string) : bool := match l with [s] => String.eqb s "" | _ => false end.
  Definition rest_of (n : nat) (l : list string) : list string :=
    filter (fun s => negb (existsb (String.eqb s) l)) (map dec (seq 0 n)).
  Definition words (n : nat) (ri : string) : option (list string * list string) :=
    let ri := if 0 <? count_char "=" ri then ri else String.append ri "=" in
    match split "=" (remove_char " " ri) with
    | [l; r] =>
        if is_numeric (String.append (remove_char "," l) (remove_char "," r)) then
          let lt := split "," l in
          let rt := split "," r in
          let '(lt, rt) :=
            if is_empty rt && (length lt <? n) then (lt, rest_of n lt)
            else if is_empty lt && (length rt <? n) then (rest_of n rt, rt)
            else (lt, rt) in
          let lt := if is_empty lt then [] else lt in
          let rt := if is_empty rt then [] else rt in
          match map_opt to_int (lt ++ rt) with
          | Some ints =>
              if forallb (fun x => x <? n) ints then
                if list_eq_dec Nat.eq_dec (sort ints) (seq 0 n) then Some (lt, rt) else None
              else None
          | None => None
          end
        else None
    | _ => None
    end.

  (** 186-227: a term that comes to the other side switches its sign *)
  Definition fetch (w : wf T) (i : nat) (to_left : bool) (k : string) : option (sgn * T) :=
    let target := String.append (dec i) (String "-" k) in
    match getitem w target, parse_index w target with
    | Some (s, t), Some (_, is_left, _) => Some (if Bool.eqb to_left is_left then s else switch s, t)
    | _, _ => None
    end.
  Definition rearrange_eq (w : wf T) (i : nat) (e : eqn T) (ri : string) : option (eqn T) :=
    match words (length (fst e) + length (snd e)) ri with
    | Some (lt, rt) =>
        match map_opt (fetch w i true) lt, map_opt (fetch w i false) rt with
        | Some l, Some r => Some (l, r)
        | _, _ => None
        end
    | None => None
    end.

  (** the equations i, i+1, ...; those that are not mentioned stay (derive.py 222-229) *)
  Definition request (r : list (nat * option string)) (i : nat) : option string :=
    match find (fun e => fst e =? i) r with
    | Some (_, Some s) => if String.eqb s "" then None else Some s
    | _ => None
    end.
  Fixpoint rearrange_from (w : wf T) (r : list (nat * option string)) (i : nat) (eqs : list (eqn T)) : option (list (eqn T)) :=
    match eqs with
    | [] => Some []
    | e :: es =>
        match (match request r i with Some ri => rearrange_eq w i e ri | None => Some e end), rearrange_from w r (S i) es with
        | Some e', Some es' => Some (e' :: es')
        | _, _ => None
        end
    end.
  (** WfDerive.rearrange (98-235), with a dict *)
  Definition rearrange (w : wf T) (r : list (nat * option string)) : option (wf T) :=
    if forallb (fun e => fst e <? length (wf_eqs w)) r then
      match rearrange_from w r 0 (wf_eqs w) with
      | Some eqs => derived w eqs
      | None => None
      end
    else None.
  (** with a list *)
  Definition rearrange_list (w : wf T) (l : list (option string)) : option (wf T) :=
    if length l =? length (wf_eqs w) then rearrange w (combine (seq 0 (length l)) l) else None.

  (** WfDerive.switch_sign (246-282) *)
  Definition switch_side (l : side T) : side T := map (fun st => (switch (fst st), snd st)) l.
  Fixpoint switch_from (rows : list nat) (i : nat) (eqs : list (eqn T)) : list (eqn T) :=
    match eqs with
    | [] => []
    | e :: es => (if existsb (Nat.eqb i) rows then (switch_side (fst e), switch_side (snd e)) else e) :: switch_from rows (S i) es
    end.
  Definition switch_sign (w : wf T) (rows : list nat) : option (wf T) :=
    if forallb (fun row => row <? length (wf_eqs w)) rows then derived w (switch_from rows 0 (wf_eqs w)) else None.

  (** _merge_multiple_weak_formulations (wf/main.py 466-488); the unknowns are not passed on *)
  Definition merge_wfs (ws : list (wf T)) : option (wf T) := new_wf (flat_map wf_eqs ws).

  (* -------------------------------------------------------------- expressions *)

  (** one side of _parse_expression (wf/main.py 386-432, pde.py 250-296) *)
  Fixpoint read_terms (interpreter : list (string * T)) (l : list string) : option (side T) :=
    match l with
    | [] => Some []
    | x :: r =>
        if String.eqb x "" || String.eqb x "-" || String.eqb x "0" then read_terms interpreter r
        else
          let '(s, name) := match x with
                            | String a x' => if Ascii.eqb a "-" then (Minus, x') else (Plus, x)
                            | EmptyString => (Plus, x)
                            end in
          match sget name interpreter, read_terms interpreter r with
          | Some t, Some ts => Some ((s, t) :: ts)
          | _, _ => None
          end
    end.
  Definition read_side (interpreter : list (string * T)) (s : string) : option (side T) :=
    read_terms interpreter (split "+" s).

  (** one equation; a third side has no place in sign_dict[i] *)
  Definition read_equation (interpreter : list (string * T)) (equation : string) : option (eqn T) :=
    match map_opt (read_side interpreter) (split "=" (plus_minus (remove_char " " equation))) with
    | Some [] => Some ([], [])
    | Some [l] => Some (l, [])
    | Some (l :: r :: more) => if forallb (fun m => match m with [] => true | _ => false end) more then Some (l, r) else None
    | None => None
    end.
  (** WeakFormulation(test_forms, expression=..., interpreter=...) *)
  Definition read_wf (interpreter : list (string * T)) (expression : list string) : option (wf T) :=
    match map_opt (read_equation interpreter) expression with
    | Some eqs => new_wf eqs
    | None => None
    end.
  (** PartialDifferentialEquations: _check_expression (pde.py 221-237) first *)
  Definition read_pde (interpreter : list (string * T)) (expression : list string) : option (list (eqn T)) :=
    if forallb (fun s => negb (String.eqb s "") && (count_char "=" s =? 1)) expression
    then map_opt (read_equation interpreter) expression else None.
End Derive.

(* ---------------------------------------------------------------- terms *)

(** Forms by how they are made: a root form, f @ t, the operators the derivations look at, any
    other operator, f x g, f + g, f - g, f / c *)
Inductive form :=
| Root (a : nat)
| At (f : form) (t : nat)
| TimeDer (f : form)
| Ext (f : form)
| Codiff (f : form)
| Tr (f : form)
| Star (f : form)
| Op (o : nat) (f : form)
| Crossp (f g : form)
| Addf (f g : form)
| Subf (f g : form)
| Divf (f : form) (c : R).

Fixpoint form_efs (f : form) : list nat :=
  match f with
  | Root a => [a]
  | At f _ | TimeDer f | Ext f | Codiff f | Tr f | Star f | Op _ f | Divf f _ => form_efs f
  | Crossp f g | Addf f g | Subf f g => form_efs f ++ form_efs g
  end.

Inductive kind := Inner | Dual.
(** _WeakFormulationTerm (wf/term/main.py 38-73) *)
Record term := mkTerm { t_kind : kind; t_factor : R; t_f0 : form; t_f1 : form; t_restricted : bool }.
Definition term_efs (t : term) : list nat := form_efs (t_f0 t) ++ form_efs (t_f1 t).

(** L2InnerProductTerm._integration_by_parts (782-798), the pattern (cd,) *)
Definition by_parts (periodic drop_bi_term : bool) (t : term) : option (side term) :=
  match t_kind t, t_f0 t with
  | Inner, Codiff bf =>
      let term_manifold := mkTerm Inner (t_factor t) bf (Ext (t_f1 t)) false in
      if periodic || drop_bi_term then Some [(Plus, term_manifold)]
      else Some [(Plus, term_manifold);
                 (Minus, mkTerm Dual (t_factor t) (Tr (Star bf)) (Tr (t_f1 t)) false)]
  | _, _ => None
  end.

(** _WeakFormulationTerm.split (274-323); factors None is all ones *)
Definition split_term (of_f0 : bool) (into : list form) (signs : list sgn) (factors : option (list R)) (t : term) : option (side term) :=
  let factors := match factors with Some l => l | None => map (fun _ => 1%R) into end in
  if (1 <=? length into) && (length into =? length signs) && (length signs =? length factors) && negb (t_restricted t)
  then Some (map (fun e => (fst (fst e),
                            if of_f0 then mkTerm (t_kind t) (snd e) (snd (fst e)) (t_f1 t) false
                            else mkTerm (t_kind t) (snd e) (t_f0 t) (snd (fst e)) false))
                 (combine (combine signs into) factors))
  else None.

(** _switch_to_duality_pairing (1087-1135) *)
Definition to_duality (t : term) : option (side term) :=
  match t_kind t, t_f0 t, t_f1 t with
  | Inner, Star a, f1 => Some [(Plus, mkTerm Dual (t_factor t) a f1 false)]
  | Inner, f0, Star b => Some [(Plus, mkTerm Dual (t_factor t) f0 b false)]
  | _, _, _ => None
  end.

(* -------------------------------------------------------------- (A, B x C) *)

(** The formats of _commutation_wrt_inner_and_x (858-1085, 445-670): '(A,BxC)' or '<A|BxC>' *)
Definition open_of (k : kind) : ascii := match k with Inner => "("%char | Dual => "<"%char end.
Definition comma_of (k : kind) : ascii := match k with Inner => ","%char | Dual => "|"%char end.
Definition close_of (k : kind) : ascii := match k with Inner => ")"%char | Dual => ">"%char end.
Definition starts_with (c : ascii) (s : string) : bool := match s with String a _ => Ascii.eqb a c | _ => false end.
Fixpoint ends_with (c : ascii) (s : string) : bool :=
  match s with
  | EmptyString => false
  | String a EmptyString => Ascii.eqb a c
  | String _ r => ends_with c r
  end.

(** what a format says: whether the lone letter stands first, that letter, and the outer letters of the other part *)
Definition read_format (k : kind) (s : string) : option (bool * ascii * ascii * ascii) :=
  let s := remove_char " " s in
  if (String.length s =? 7) && starts_with (open_of k) s && ends_with (close_of k) s &&
     (count_char (comma_of k) s =? 1) && (count_char (open_of k) s =? 1) && (count_char (close_of k) s =? 1) &&
     (count_char "x" s =? 1) && (count_char "X" s =? 0) then
    match split (comma_of k) (substring 1 5 s) with
    | [String p EmptyString; String q (String m (String r EmptyString))] =>
        if Ascii.eqb p q || Ascii.eqb p m || Ascii.eqb p r then None else Some (true, p, q, r)
    | [String q (String m (String r EmptyString)); String p EmptyString] =>
        if Ascii.eqb p q || Ascii.eqb p m || Ascii.eqb p r then None else Some (false, p, q, r)
    | _ => None
    end
  else None.

Inductive letter := LA | LB | LC.
(** _dict: a key that is written twice keeps the last value *)
Definition letter_of (p q r c : ascii) : option letter :=
  if Ascii.eqb c r then Some LC else if Ascii.eqb c q then Some LB else if Ascii.eqb c p then Some LA else None.

(** check_format: the sign, or an exception *)
Definition triple_sign (x y z : letter) : option sgn :=
  match x, y, z with
  | LA, LB, LC | LB, LC, LA | LC, LA, LB => Some Plus
  | LA, LC, LB | LB, LA, LC | LC, LB, LA => Some Minus
  | _, _, _ => None
  end.

Definition commute (current target : string) (t : term) : option (side term) :=
  match read_format (t_kind t) current, read_format (t_kind t) target with
  | Some (alone_first, p, q, r), Some (first', p', q', r') =>
      match letter_of p q r p', letter_of p q r q', letter_of p q r r' with
      | Some x, Some y, Some z =>
          match triple_sign x y z with
          | Some sg =>
              match (if alone_first then (t_f0 t, t_f1 t) else (t_f1 t, t_f0 t)) with
              | (A, Crossp B C) =>
                  let pick l := match l with LA => A | LB => B | LC => C end in
                  let new := if first' then mkTerm (t_kind t) (t_factor t) (pick x) (Crossp (pick y) (pick z)) false
                             else mkTerm (t_kind t) (t_factor t) (Crossp (pick y) (pick z)) (pick x) false in
                  Some [(sg, new)]
              | _ => None
              end
          | None => None
          end
      | _, _, _ => None
      end
  | _, _ => None
  end.

(* -------------------------------------------------------------- temporal discretization *)

(** Form.replace(f, by, which='all') (form/main.py 729-792) for a root form f; there it works on
    the strings that represent the forms *)
Fixpoint subst (a : nat) (by_ : form) (f : form) : form :=
  match f with
  | Root b => if b =? a then by_ else f
  | At f t => At (subst a by_ f) t
  | TimeDer f => TimeDer (subst a by_ f)
  | Ext f => Ext (subst a by_ f)
  | Codiff f => Codiff (subst a by_ f)
  | Tr f => Tr (subst a by_ f)
  | Star f => Star (subst a by_ f)
  | Op o f => Op o (subst a by_ f)
  | Crossp f g => Crossp (subst a by_ f) (subst a by_ g)
  | Addf f g => Addf (subst a by_ f) (subst a by_ g)
  | Subf f g => Subf (subst a by_ f) (subst a by_ g)
  | Divf f c => Divf (subst a by_ f) c
  end.

(** _WeakFormulationTerm.replace (186-272) with which='all' *)
Definition term_replace (a : nat) (by_ : form) (t : term) : sgn * term :=
  (Plus, mkTerm (t_kind t) (t_factor t) (subst a by_ (t_f0 t)) (subst a by_ (t_f1 t)) (t_restricted t)).

(** What is asked of one equation: ode_d.differentiate(index, ks, ke) and
    ode_d.average(index, f, time_instants), for the k-th term *)
Inductive td_op :=
| Differentiate (k ks ke : nat)
| Average (k a : nat) (instants : list nat).

(** the average of f (ode/discretize.py 82-104) *)
Definition average_form (a : nat) (instants : list nat) : option form :=
  match instants with
  | [] => None
  | [t] => Some (At (Root a) t)
  | t :: t' :: r =>
      Some (Divf (fold_left (fun s u => Addf s (At (Root a) u)) r (Addf (At (Root a) t) (At (Root a) t')))
                 (INR (length instants)))
  end.

Section Td.
  (** the instants that are defined, and their times *)
  Context (defined : list nat) (time : nat -> R).

  (** one request; the state is _eq_terms, the terms that have been changed *)
  Definition td_step (e : eqn term) (st : list (nat * (sgn * term))) (o : td_op) : option (list (nat * (sgn * term))) :=
    let own k := option_map snd (nth_error (fst e ++ snd e) k) in
    match o with
    | Differentiate k ks ke =>
        (* 59-78 *)
        if existsb (Nat.eqb ks) defined && existsb (Nat.eqb ke) defined then
          match own k with
          | Some t =>
              match t_kind t, t_f0 t with
              | Inner, TimeDer (Root a) =>
                  let term0 := Divf (Subf (At (Root a) ke) (At (Root a) ks)) (time ke - time ks) in
                  Some ((k, (Plus, mkTerm Inner 1 term0 (t_f1 t) false)) :: st)
              | _, _ => None
              end
          | None => None
          end
        else None
    | Average k a instants =>
        (* 80-129 *)
        if forallb (fun t => existsb (Nat.eqb t) defined) instants then
          match average_form a instants with
          | Some f_ =>
              match find (fun x => fst x =? k) st with
              | None => match own k with
                        | Some t => Some ((k, term_replace a f_ t) :: st)
                        | None => None
                        end
              | Some (_, (old, t)) =>
                  let '(s, t') := term_replace a f_ t in
                  Some ((k, (times old s, t')) :: st)
              end
          | None => None
          end
        else None
    end.
  Fixpoint td_steps (e : eqn term) (st : list (nat * (sgn * term))) (l : list td_op) : option (list (nat * (sgn * term))) :=
    match l with
    | [] => Some st
    | o :: r => match td_step e st o with Some st' => td_steps e st' r | None => None end
    end.

  (** __call__ (131-150) *)
  Fixpoint td_side (st : list (nat * (sgn * term))) (k : nat) (l : side term) : side term :=
    match l with
    | [] => []
    | (s, t) :: r =>
        (match find (fun x => fst x =? k) st with
         | Some (_, (s', t')) => (times s s', t')
         | None => (s, t)
         end) :: td_side st (S k) r
    end.
  Definition td_call (e : eqn term) (l : list td_op) : option (eqn term) :=
    match td_steps e [] l with
    | Some st => Some (td_side st 0 (fst e), td_side st (length (fst e)) (snd e))
    | None => None
    end.
End Td.
