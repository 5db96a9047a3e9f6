(** Model of the iterator with its cache file: /repo/tools/iterator/main.py.
    Simplifications: one rank; inputs are rationals (every float is one) instead of python numbers; the text
    ["%.5f" % i] is replaced by its sign and its value in units of 1e-5; cached objects are one state; monitor, log
    and progress bar are left out; when the file is written (606-637 depends on the clock) is a given list of
    decisions; a write is atomic. *)
From Coq Require Import List ZArith QArith Qabs Qcanon Bool.
From Verif Require Import Dict MetricKeyModel.
Import ListNotations.
Local Open Scope Z_scope.

(** ** keys of inputs *)
Inductive ikey := IInt (z : Z) | IStr (negative : bool) (u : Z).
Definition ikey_eqb (a b : ikey) : bool :=
  match a, b with IInt x, IInt y => x =? y | IStr s x, IStr t y => Bool.eqb s t && (x =? y) | _, _ => false end.
(** 328-343 [_make_inputs_key] of one input *)
Definition make_key (i : Qc) : ikey :=
  if (Zpos (Qden (this i)) =? 1) then IInt (Qnum (this i)) else IStr (Qnum (this i) <? 0) (rnd (Qabs (this i) * 100000)).

(** ** the record of computed inputs: ranges, integers, texts *)
Record computed := { c_ranges : list (Z * Z); c_ints : list Z; c_strs : list (bool * Z) }.
Definition no_computed : computed := {| c_ranges := []; c_ints := []; c_strs := [] |}.
(** [i in range(lo, hi)] *)
Definition in_range (i : Z) (r : Z * Z) : bool := (fst r <=? i) && (i <? snd r).
Definition in_ints (i : Z) (l : list Z) : bool := existsb (Z.eqb i) l.
Definition in_strs (s : bool) (u : Z) (l : list (bool * Z)) : bool := existsb (fun x => Bool.eqb s (fst x) && (u =? snd x)) l.
(** 345-362 [_check_input_cache] *)
Definition check_input (c : computed) (k : ikey) : bool :=
  match k with
  | IInt i => if in_ints i (c_ints c) then true else existsb (in_range i) (c_ranges c)
  | IStr s u => in_strs s u (c_strs c)
  end.
(** 364-390 [_update_computed_inputs] *)
Definition update_input (c : computed) (k : ikey) : computed :=
  match k with
  | IInt i => if in_ints i (c_ints c) then c else if existsb (in_range i) (c_ranges c) then c
              else {| c_ranges := c_ranges c; c_ints := c_ints c ++ [i]; c_strs := c_strs c |}
  | IStr s u => if in_strs s u (c_strs c) then c else {| c_ranges := c_ranges c; c_ints := c_ints c; c_strs := c_strs c ++ [(s, u)] |}
  end.
(** [list.sort], [list.remove] (None: ValueError) *)
Fixpoint insert_z (i : Z) (l : list Z) : list Z := match l with [] => [i] | j :: r => if i <=? j then i :: l else j :: insert_z i r end.
Fixpoint sort_z (l : list Z) : list Z := match l with [] => [] | i :: r => insert_z i (sort_z r) end.
Fixpoint remove_z (i : Z) (l : list Z) : option (list Z) :=
  match l with [] => None | j :: r => if i =? j then Some r else option_map (cons j) (remove_z i r) end.
Fixpoint remove_all (xs l : list Z) : option (list Z) :=
  match xs with [] => Some l | x :: r => match remove_z x l with Some l' => remove_all r l' | None => None end end.
(** 403-412: the inner loop over the ranges *)
Fixpoint absorb (i : Z) (rs : list (Z * Z)) : option (list (Z * Z)) :=
  match rs with
  | [] => None
  | (lo, hi) :: r => if i =? hi then Some ((lo, i + 1) :: r) else if i =? lo - 1 then Some ((i, hi) :: r)
                     else option_map (cons (lo, hi)) (absorb i r)
  end.
(** 401-412: ranges and [to_be_removed] *)
Fixpoint absorb_all (ints : list Z) (rs : list (Z * Z)) : list (Z * Z) * list Z :=
  match ints with
  | [] => (rs, [])
  | i :: r => match absorb i rs with
              | Some rs' => let (rs2, rm) := absorb_all r rs' in (rs2, i :: rm)
              | None => absorb_all r rs
              end
  end.
(** 392-429 [_compress_computed_input_list] *)
Definition compress (c : computed) : option computed :=
  let ints := sort_z (c_ints c) in
  let (rs, rm) := absorb_all ints (c_ranges c) in
  match remove_all rm ints with
  | None => None
  | Some ints =>
      match find (fun i => in_ints (i + 1) ints) ints with
      | None => Some {| c_ranges := rs; c_ints := ints; c_strs := c_strs c |}
      | Some i => match remove_all [i; i + 1] ints with
                  | Some ints' => Some {| c_ranges := rs ++ [(i, i + 2)]; c_ints := ints'; c_strs := c_strs c |}
                  | None => None
                  end
      end
  end.

(** ** running *)
Section Run.
  (** [St]: the state of the cached objects, [Out]: the outputs after exit code and message, [Dat]: what is
      written to the file.  [solve]: the solver, with its exit code *)
  Context {St Out Dat : Type}.
  Variable solve : St -> Qc -> St * (Z * Out).
  Variable code : St -> Dat.              (* 320-326 [_coding_objs_] *)
  Variable restore : St -> Dat -> St.     (* 299-318 [_decoding_objs_] *)
  Record file := { f_comp : computed; f_res : dict ikey (Z * Out); f_data : option Dat }.
  (** 241-252 *)
  Definition empty_file : file := {| f_comp := no_computed; f_res := []; f_data := None |}.
  (** the state, the record and results in memory, the file, [keep_checking] *)
  Record mem := { m_st : St; m_comp : computed; m_res : dict ikey (Z * Out); m_disk : file; m_check : bool }.
  Definition start (f : file) (s : St) : mem := {| m_st := s; m_comp := f_comp f; m_res := f_res f; m_disk := f; m_check := true |}.
  (** 559-570 and 600-680: after computing; [w]: the file is written *)
  Definition record (w : bool) (k : ikey) (s : St) (r : Z * Out) (m : mem) : option mem :=
    let res := if has ikey_eqb (m_res m) k then m_res m else put ikey_eqb (m_res m) k r in
    match compress (update_input (m_comp m) k) with
    | Some comp => Some {| m_st := s; m_comp := comp; m_res := res; m_check := false;
                           m_disk := if w then {| f_comp := comp; f_res := res; f_data := Some (code s) |} else m_disk m |}
    | None => None
    end.
  (** one iteration, 499-560; [data]: the data loaded at the beginning; None: an exception *)
  Definition iteration (data : option Dat) (i : Qc) (w : bool) (m : mem) : option (mem * (Z * Out)) :=
    let k := make_key i in
    if m_check m then
      if check_input (m_comp m) k then match get ikey_eqb (m_res m) k with Some r => Some (m, r) | None => None end
      else let s := match data with Some d => restore (m_st m) d | None => m_st m end in
           let (s', r) := solve s i in option_map (fun m' => (m', r)) (record w k s' r m)
    else let (s', r) := solve (m_st m) i in option_map (fun m' => (m', r)) (record w k s' r m).
  (** 682-720; exit codes: 113-117; the rows of the results *)
  Inductive ending := Finished | Stopped | Raised.
  Fixpoint loop (data : option Dat) (is : list Qc) (ws : list bool) (m : mem) : mem * list Out * ending :=
    match is with
    | [] => (m, [], Finished)
    | i :: r =>
        match iteration data i (hd false ws) m with
        | None => (m, [], Raised)
        | Some (m', (c, o)) =>
            if c =? 0 then let '(m2, rows, en) := loop data r (tl ws) m' in (m2, o :: rows, en)
            else if c =? 1 then (m', [o], Stopped) else (m', [o], Raised)
        end
    end.
  (** 430- [run] with a cache; the objects are in state [s] *)
  Definition run (f : file) (s : St) (is : list Qc) (ws : list bool) : mem * list Out * ending := loop (f_data f) is ws (start f s).
  (** without cache, 502-503 *)
  Fixpoint plain_run (s : St) (is : list Qc) : St * list Out * ending :=
    match is with
    | [] => (s, [], Finished)
    | i :: r => let (s', co) := solve s i in
                if fst co =? 0 then let '(s2, rows, en) := plain_run s' r in (s2, snd co :: rows, en)
                else if fst co =? 1 then (s', [snd co], Stopped) else (s', [snd co], Raised)
    end.
End Run.
Arguments file : clear implicits. Arguments mem : clear implicits.
