(** Model of the cache keyed by arrays: /repo/tools/miscellaneous/ndarray_cache.py, of its use in a cached function
    (for example /repo/msepy/tools/gathering_matrix.py 303-326), and of the finding of dofs there.
    Simplifications: entries of arrays are rationals; a result is one array; the three dictionaries [keys], [values],
    [check strings], which always have the same keys, are one dictionary; the record of attempts is kept per cache
    instead of per address of the cache. Arrays are stored by reference: they live in a heap and the cache holds
    addresses. *)
From Coq Require Import List ZArith QArith Qcanon Bool String.
From Verif Require Import Dict MetricKeyModel.
Import ListNotations.
Local Open Scope nat_scope.

(** ** arrays and [np.allclose] *)
Record arr := { shape : list nat; data : list Qc }.
Definition qabs (x : Qc) : Qc := if Qclt_le_dec x 0%Qc then (- x)%Qc else x.
Definition qle (a b : Qc) : bool := if Qclt_le_dec b a then false else true.
Definition atol : Qc := Q2Qc (1 # 100000000).
Definition rtol : Qc := Q2Qc (1 # 100000).
(** [|a - b| <= atol + rtol * |b|] *)
Definition close (a b : Qc) : bool := qle (qabs (a - b)%Qc) (atol + rtol * qabs b)%Qc.
Definition allclose (a b : arr) : bool := forallb (fun p => close (fst p) (snd p)) (combine (data a) (data b)).
Definition shape_eqb (a b : list nat) : bool := if list_eq_dec Nat.eq_dec a b then true else false.
(** 83-94: the loop over [zip(c_arrays, arrays)] *)
Fixpoint zip_match (cs xs : list arr) : bool :=
  match cs, xs with
  | c :: cr, x :: xr => if negb (shape_eqb (shape c) (shape x)) then false else if negb (allclose c x) then false else zip_match cr xr
  | _, _ => true
  end.
(** 72-97 *)
Definition matches (cstr str : string) (cs xs : list arr) : bool :=
  if String.eqb cstr str then if (List.length cs =? List.length xs) then zip_match cs xs else false else false.

(** ** the cache *)
Record entry := { e_arrays : list nat; e_value : nat; e_str : string }.
Record cache := { entries : list (nat * entry); attempts : nat; hits : nat; trying : bool }.
(** 16-21, 34-37 *)
Definition new_cache : cache := {| entries := []; attempts := 0; hits := 0; trying := true |}.
Notation heap := (list arr).
Fixpoint read_all (h : heap) (xs : list nat) : option (list arr) :=
  match xs with
  | [] => Some []
  | x :: r => match nth_error h x, read_all h r with Some a, Some l => Some (a :: l) | _, _ => None end
  end.
(** 71-102: the first key that matches; None if the cache holds a dangling address *)
Fixpoint lookup (h : heap) (es : list (nat * entry)) (xs : list arr) (str : string) : option (option entry) :=
  match es with
  | [] => Some None
  | (_, e) :: r => match read_all h (e_arrays e) with
                   | None => None
                   | Some cs => if matches (e_str e) str cs xs then Some (Some e) else lookup h r xs str
                   end
  end.
(** 10-135 [ndarray_key_comparer]: the new cache and the value found *)
Definition comparer (h : heap) (c : cache) (xs : list arr) (str : string) : option (cache * option nat) :=
  if negb (trying c) then Some (c, None) else
  match lookup h (entries c) xs str with
  | None => None
  | Some found =>
      let at' := attempts c + 1 in
      let hi := hits c + match found with Some _ => 1 | None => 0 end in
      let res := match found with Some e => Some (e_value e) | None => None end in
      if (100 <? at') && (20 * hi <? at')
      then Some ({| entries := []; attempts := at'; hits := hi; trying := false |}, res)
      else Some ({| entries := entries c; attempts := at'; hits := hi; trying := true |}, res)
  end.
(** [list.sort], [max], [del] *)
Fixpoint insert_n (i : nat) (l : list nat) : list nat := match l with [] => [i] | j :: r => if i <=? j then i :: l else j :: insert_n i r end.
Fixpoint sort_n (l : list nat) : list nat := match l with [] => [] | i :: r => insert_n i (sort_n r) end.
Definition max_n (l : list nat) : nat := fold_left Nat.max l 0.
Definition del {V} (d : dict nat V) (k : nat) : dict nat V := filter (fun kv => negb (fst kv =? k)) d.
(** 138-178 [add_to_ndarray_cache] *)
Definition add (c : cache) (xs : list nat) (r : nat) (str : string) (maximum : nat) : option cache :=
  if negb (trying c) then Some c else
  if (maximum =? 0) then None else
  let es := if (2 * maximum <? List.length (entries c))
            then fold_left del (firstn maximum (sort_n (keys (entries c)))) (entries c) else entries c in
  let k := match es with [] => 0 | _ => max_n (keys es) + 1 end in
  Some {| entries := put Nat.eqb es k {| e_arrays := xs; e_value := r; e_str := str |}; attempts := attempts c; hits := hits c; trying := trying c |}.

(** ** a function cached in the usual way, and programs using it *)
Inductive outcome := Hit (r : nat) | Made (r : nat) | Raised.
Inductive op := New (a : arr) | Set_array (x : nat) (a : arr) | Call (xs : list nat) (str : string) (maximum : nat).
(** one call: arguments, their contents, the outcome, the contents of the result *)
Record logged := { l_args : list nat; l_str : string; l_arrays : list arr; l_out : outcome; l_value : option arr }.
Record state := { s_heap : heap; s_cache : cache }.
Definition start : state := {| s_heap := []; s_cache := new_cache |}.
Fixpoint set_nth (x : nat) (a : arr) (h : heap) : heap := match h, x with [], _ => [] | _ :: r, 0 => a :: r | b :: r, S n => b :: set_nth n a r end.

Section Cached.
  (** what is cached; None: an exception *)
  Variable F : string -> list arr -> option arr.
  Definition call (st : state) (xs : list nat) (str : string) (maximum : nat) : option (state * logged) :=
    match read_all (s_heap st) xs with
    | None => None
    | Some ys =>
        match comparer (s_heap st) (s_cache st) ys str with
        | None => None
        | Some (c, Some r) => Some ({| s_heap := s_heap st; s_cache := c |}, {| l_args := xs; l_str := str; l_arrays := ys; l_out := Hit r; l_value := nth_error (s_heap st) r |})
        | Some (c, None) =>
            match F str ys with
            | None => Some ({| s_heap := s_heap st; s_cache := c |}, {| l_args := xs; l_str := str; l_arrays := ys; l_out := Raised; l_value := None |})
            | Some v =>
                let r := List.length (s_heap st) in
                match add c xs r str maximum with
                | None => None
                | Some c' => Some ({| s_heap := s_heap st ++ [v]; s_cache := c' |}, {| l_args := xs; l_str := str; l_arrays := ys; l_out := Made r; l_value := Some v |})
                end
            end
        end
    end.
  Definition step (st : state) (o : op) : option (state * list logged) :=
    match o with
    | New a => Some ({| s_heap := s_heap st ++ [a]; s_cache := s_cache st |}, [])
    | Set_array x a => if x <? List.length (s_heap st) then Some ({| s_heap := set_nth x a (s_heap st); s_cache := s_cache st |}, []) else None
    | Call xs str m => match call st xs str m with Some (st', l) => Some (st', [l]) | None => None end
    end.
  Fixpoint run (st : state) (ops : list op) : option (state * list logged) :=
    match ops with
    | [] => Some (st, [])
    | o :: r => match step st o with
                | None => None
                | Some (st', l) => match run st' r with Some (st'', l') => Some (st'', l ++ l') | None => None end
                end
    end.
End Cached.

(** ** finding dofs: /repo/msepy/tools/gathering_matrix.py 303-326, for dofs numbered in the rows [gm], without
    redundant settings; places are written into one array as triples dof, element, local dof *)
Definition qz (z : Z) : Qc := Q2Qc (inject_Z z).
Definition places (gm : list (list Z)) (i : Z) : list Z :=
  flat_map (fun er => flat_map (fun jd => if (snd jd =? i)%Z then [i; Z.of_nat (fst er); Z.of_nat (fst jd)] else []) (combine (seq 0 (List.length (snd er))) (snd er)))
    (combine (seq 0 (List.length gm)) gm).
Definition int_array (l : list Z) : arr := {| shape := [List.length l]; data := map qz l |}.
Definition to_int (q : Qc) : option Z := if (Zpos (Qden (this q)) =? 1)%Z then Some (Qnum (this q)) else None.
Fixpoint ints (l : list Qc) : option (list Z) := match l with [] => Some [] | q :: r => match to_int q, ints r with Some z, Some zs => Some (z :: zs) | _, _ => None end end.
Definition find_places (gm : list (list Z)) (num_dofs : Z) (_ : string) (xs : list arr) : option arr :=
  match xs with
  | [a] => match ints (data a) with
           | Some l => if forallb (fun i => (0 <=? i)%Z && (i <? num_dofs)%Z) l then Some (int_array (flat_map (places gm) l)) else None
           | None => None
           end
  | _ => None
  end.
