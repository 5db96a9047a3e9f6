(** Model of the memoising decorators /repo/tools/decorators/memoize/memoize_{1..5}.py and of frozen objects
    /repo/tools/frozen.py.
    Simplifications: arguments are integers, booleans, None, floats (rationals), texts and one-dimensional integer
    arrays; a decorated function is a function of its arguments (None: an exception). *)
From Coq Require Import List ZArith QArith Qcanon Bool String Ascii DecimalString.
From Verif Require Import Dict.
Import ListNotations.
Local Open Scope nat_scope.
Local Open Scope string_scope.

(** ** the common part: a table searched with [same] *)
Section Memo.
  Context {A R : Type}.
  Variable same : A -> A -> bool.
  Variable f : A -> option R.
  Fixpoint look (t : list (A * R)) (a : A) : option R := match t with [] => None | (b, r) :: q => if same b a then Some r else look q a end.
  (** memoize_1 21-26, memoize_2/5 [__call__], memoize_3/4 [__missing__]: the new table, the result, whether [f] was evaluated *)
  Definition memo_call (t : list (A * R)) (a : A) : list (A * R) * (option R * bool) :=
    match look t a with
    | Some r => (t, (Some r, false))
    | None => match f a with Some r => ((t ++ [(a, r)])%list, (Some r, true)) | None => (t, (None, true)) end
    end.
  Fixpoint memo_run (t : list (A * R)) (l : list A) : list (A * R) * list (option R * bool) :=
    match l with
    | [] => (t, [])
    | a :: q => let (t1, r) := memo_call t a in let (t2, rs) := memo_run t1 q in (t2, r :: rs)
    end.
End Memo.

(** ** python values *)
Inductive pv := PInt (z : Z) | PBool (b : bool) | PNone | PFloat (q : Qc) | PStr (s : string) | PArr (l : list Z).
(** [str] of integers, booleans, None *)
Definition str_z (z : Z) : string := NilZero.string_of_int (Z.to_int z).
Fixpoint join (sep : string) (l : list string) : string := match l with [] => "" | [s] => s | s :: r => s ++ sep ++ join sep r end.
(** [repr] of an integer array (columns padded: left out): more than 1000 entries are abbreviated *)
Definition str_arr (l : list Z) : string :=
  if (1000 <? List.length l)%nat
  then "array([" ++ join ", " (map str_z (firstn 3 l)) ++ ", ..., " ++ join ", " (map str_z (skipn (List.length l - 3) l)) ++ "])"
  else "array([" ++ join ", " (map str_z l) ++ "])".
(** [repr] of one argument; floats and texts are left out here *)
Definition str_pv (v : pv) : option string :=
  match v with
  | PInt z => Some (str_z z) | PBool true => Some "True" | PBool false => Some "False" | PNone => Some "None"
  | PArr l => Some (str_arr l) | PFloat _ => None | PStr _ => None
  end.
Fixpoint str_pvs (l : list pv) : option (list string) := match l with [] => Some [] | v :: r => match str_pv v, str_pvs r with Some s, Some t => Some (s :: t) | _, _ => None end end.
(** [str(args)]: a tuple *)
Definition str_tuple (l : list string) : string := match l with [s] => "(" ++ s ++ ",)" | _ => "(" ++ join ", " l ++ ")" end.
(** [str(kwargs)]: a dictionary *)
Definition str_dict (l : list (string * string)) : string := "{" ++ join ", " (map (fun kv => "'" ++ fst kv ++ "': " ++ snd kv) l) ++ "}".
Notation arguments := (list pv * list (string * pv))%type.
(** memoize_1 21: [str(args) + str(kwargs)] *)
Definition key1 (a : arguments) : option string :=
  match str_pvs (fst a), str_pvs (map snd (snd a)) with
  | Some xs, Some ys => Some (str_tuple xs ++ str_dict (combine (map fst (snd a)) ys))
  | _, _ => None
  end.
Definition same1 (a b : arguments) : bool := match key1 a, key1 b with Some x, Some y => String.eqb x y | _, _ => false end.
(** [==] of python: numbers of all types are compared by value *)
Definition number (v : pv) : option Qc :=
  match v with PInt z => Some (Q2Qc (inject_Z z)) | PBool b => Some (if b then 1%Qc else 0%Qc) | PFloat q => Some q | _ => None end.
Definition pv_eqb (a b : pv) : bool :=
  match number a, number b with
  | Some x, Some y => if Qc_eq_dec x y then true else false
  | None, None => match a, b with PNone, PNone => true | PStr s, PStr t => String.eqb s t | _, _ => false end
  | _, _ => false
  end.
Fixpoint pvs_eqb (a b : list pv) : bool := match a, b with [], [] => true | x :: r, y :: q => pv_eqb x y && pvs_eqb r q | _, _ => false end.
(** memoize_3, memoize_4: a dictionary keyed by the argument, by the tuple of arguments *)
Definition same3 := pv_eqb.
Definition same4 := pvs_eqb.
(** [frozenset(kw.items())] *)
Definition kw_in (x : string * pv) (l : list (string * pv)) : bool := existsb (fun y => String.eqb (fst x) (fst y) && pv_eqb (snd x) (snd y)) l.
Definition kws_eqb (a b : list (string * pv)) : bool := forallb (fun x => kw_in x b) a && forallb (fun x => kw_in x a) b.
(** memoize_2, memoize_5: the key (function, args[1:], frozenset) *)
Definition same2 (a b : nat * arguments) : bool := (fst a =? fst b)%nat && pvs_eqb (fst (snd a)) (fst (snd b)) && kws_eqb (snd (snd a)) (snd (snd b)).

(** ** memoised methods of objects: the table is an attribute of the object, made at the first call *)
Section Methods.
  Context {R : Type}.
  (** the methods; the state of the object does not change *)
  Variable f : nat -> nat * arguments -> option R.
  Record obj := { o_frozen : bool; o_table : option (list ((nat * arguments) * R)) }.
  Inductive mop := Freeze_obj (o : nat) | Melt_obj (o : nat) | Call_obj (o : nat) (a : nat * arguments).
  Inductive mout := FrozenErr | Value (r : option R) (evaluated : bool) | Silent.
  Notation objs := (nat -> obj).
  Definition set_obj (w : objs) (o : nat) (x : obj) : objs := fun i => if (i =? o)%nat then x else w i.
  (** memoize_2 [__call__] with frozen.py 15-19 *)
  Definition call_obj (w : objs) (o : nat) (a : nat * arguments) : objs * mout :=
    match o_table (w o) with
    | None => if o_frozen (w o) then (w, FrozenErr)
              else let (t, r) := memo_call same2 (f o) [] a in (set_obj w o {| o_frozen := o_frozen (w o); o_table := Some t |}, Value (fst r) (snd r))
    | Some t0 => let (t, r) := memo_call same2 (f o) t0 a in (set_obj w o {| o_frozen := o_frozen (w o); o_table := Some t |}, Value (fst r) (snd r))
    end.
  Definition mstep (w : objs) (p : mop) : objs * mout :=
    match p with
    | Freeze_obj o => (set_obj w o {| o_frozen := true; o_table := o_table (w o) |}, Silent)
    | Melt_obj o => (set_obj w o {| o_frozen := false; o_table := o_table (w o) |}, Silent)
    | Call_obj o a => call_obj w o a
    end.
  Fixpoint mrun (w : objs) (l : list mop) : objs * list mout :=
    match l with [] => (w, []) | p :: q => let (w1, r) := mstep w p in let (w2, rs) := mrun w1 q in (w2, r :: rs) end.
  Definition new_objs : objs := fun _ => {| o_frozen := false; o_table := None |}.
End Methods.
Arguments obj : clear implicits.
Arguments mout : clear implicits.

(** ** frozen objects: frozen.py *)
Section Frozen.
  (** values; names found by [dir] in the class, and which of them are read-only properties *)
  Context {V : Type} (T F : V) (truth : V -> bool).
  Variable class_names readonly : list string.
  Notation attrs := (dict string V).
  Definition FROZEN : string := "___FROZEN___".
  Definition sin (s : string) (l : list string) : bool := existsb (String.eqb s) l.
  (** [object.__setattr__] *)
  Definition raw_set (d : attrs) (k : string) (v : V) : option attrs := if sin k readonly then None else Some (put String.eqb d k v).
  (** 33-40: the property [___frozen___] *)
  Definition frozen_of (d : attrs) : attrs * bool :=
    match get String.eqb d FROZEN with Some v => (d, truth v) | None => (put String.eqb d FROZEN F, truth F) end.
  (** 15-19 *)
  Definition setattr (d : attrs) (k : string) (v : V) : attrs * bool :=
    let (d1, fr) := frozen_of d in
    if fr && negb (has String.eqb d1 k || sin k class_names) then (d1, false)
    else match raw_set d1 k v with Some d2 => (d2, true) | None => (d1, false) end.
  (** [del obj.k] *)
  Definition delattr (d : attrs) (k : string) : attrs * bool := if has String.eqb d k then (filter (fun kv => negb (String.eqb (fst kv) k)) d, true) else (d, false).
  Inductive fop := FSet (k : string) (v : V) | FDel (k : string) | FFreeze | FMelt.
  Definition fstep (d : attrs) (p : fop) : attrs * bool :=
    match p with
    | FSet k v => setattr d k v
    | FDel k => delattr d k
    | FFreeze => setattr d FROZEN T
    | FMelt => setattr d FROZEN F
    end.
  Fixpoint frun (d : attrs) (l : list fop) : attrs * list bool :=
    match l with [] => (d, []) | p :: q => let (d1, r) := fstep d p in let (d2, rs) := frun d1 q in (d2, r :: rs) end.
End Frozen.
