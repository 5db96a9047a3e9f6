(** Model of the cochains of a form at time instants and of saving them to and reading them from files.

    /repo/msehtt/static/form/cochain/main.py, /repo/msehtt/static/form/main.py 235-450,
    /repo/msehtt/static/form/addons/ic.py, /repo/msehtt/static/form/cochain/instant.py,
    /repo/msepy/form/cochain/main.py, /repo/msehtt/static/mesh/great/elements/types/base.py 39-50 and 145-168.

    Simplifications: a time is, after [_parse_t], the integer number of 1e-8 (real
    times are parsed by [parse_t]); dicts are association lists in the order of
    insertion; [None] stands for an exception.  Cochains are of any type where only
    stored, lists of coefficients of one element where interpolated.  Lengths of
    local cochains are not checked.  MPI: gather, bcast and scatter as lists over ranks;
    the times on all ranks are those of the first one.  Not modelled: the non-base forms,
    which delegate to the base form, pickle, cochains set as callables. *)
From Coq Require Import List ZArith Reals Bool Arith Lia.
From Verif Require Import MappingModel SignatureModel.
Import ListNotations.

(** * dicts *)
Section Dict.
Context {K V : Type} (keq : forall a b : K, {a = b} + {a <> b}).
Fixpoint get (d : list (K * V)) (k : K) : option V :=
  match d with
  | [] => None
  | (k', v) :: r => if keq k' k then Some v else get r k
  end.
(** d[k] = v *)
Fixpoint put (d : list (K * V)) (k : K) (v : V) : list (K * V) :=
  match d with
  | [] => [(k, v)]
  | (k', v') :: r => if keq k' k then (k', v) :: r else (k', v') :: put r k v
  end.
(** d.update(e) *)
Definition update (d e : list (K * V)) : list (K * V) := fold_left (fun d kv => put d (fst kv) (snd kv)) e d.
(** del d[k] *)
Definition del (d : list (K * V)) (k : K) : list (K * V) := filter (fun kv => if keq (fst kv) k then false else true) d.
End Dict.

(** list.sort() *)
Fixpoint insert (x : Z) (l : list Z) : list Z :=
  match l with
  | [] => [x]
  | y :: r => if (x <=? y)%Z then x :: l else y :: insert x r
  end.
Fixpoint sorted_times (l : list Z) : list Z := match l with [] => [] | x :: r => insert x (sorted_times r) end.
(** l[-k:] for k > 0 *)
Definition last_ones {A} (k : nat) (l : list A) : list A := skipn (length l - k) l.

(** main.py 25-30: round(t, 8) *)
Definition parse_t (t : R) : Z := text 8 t.

Section Store.
Context {C : Type}.
(** _tcd and _newest_t *)
Record store := Store { tcd : list (Z * C); newest : option Z }.
Definition empty_store : store := Store [] None.
Definition times_of (s : store) : list Z := map fst (tcd s).
(** the dict of the keys [ks] of [d]; [None]: KeyError *)
Fixpoint pick (d : list (Z * C)) (ks : list Z) : option (list (Z * C)) :=
  match ks with
  | [] => Some []
  | k :: r => match get Z.eq_dec d k, pick d r with
              | Some c, Some e => Some ((k, c) :: e)
              | _, _ => None
              end
  end.
Fixpoint zmax (l : list Z) : option Z :=
  match l with [] => None | x :: r => match zmax r with None => Some x | Some y => Some (Z.max x y) end end.

(** ** msehtt, main.py 52-141 *)
(** clean(): 107-113, 134-140 *)
Definition clean_newest (s : store) : option store :=
  match newest s with
  | None => Some (Store [] None)
  | Some t => match get Z.eq_dec (tcd s) t with
              | None => None
              | Some c => Some (Store [(t, c)] (Some t))
              end
  end.
(** clean(-k): 115-127; 0 raises *)
Definition clean_last (k : nat) (s : store) : option store :=
  match k with
  | 0%nat => None
  | _ => let keys := sorted_times (times_of s) in
         match (if length keys <=? k then Some (tcd s) else pick (tcd s) (last_ones k keys)) with
         | None => None
         | Some d => Some (Store d (zmax (map fst d)))
         end
  end.
(** clean('all'): 129-130 *)
Definition clean_all (s : store) : option store := Some (Store [] None).
(** clean(t=t): 142-148 *)
Definition clean_at (t : Z) (s : store) : option store := Some (Store (del Z.eq_dec (tcd s) t) (newest s)).
(** 78-85 *)
Definition add_time (t : Z) (c : C) (s : store) : store :=
  Store (put Z.eq_dec (tcd s) t c) (match newest s with None => Some t | Some u => Some (Z.max u t) end).
(** _set: 52-85; [limit]: None if auto_cleaning is off (3 if it is True) *)
Definition set_cochain (limit : option nat) (t : Z) (c : C) (s : store) : option store :=
  match limit with
  | None => Some (add_time t c s)
  | Some k =>
      if 2 <=? k then
        if k <=? length (tcd s) then
          match clean_last (k - 1) s with
          | None => None
          | Some s' => if length (tcd s') =? k - 1 then Some (add_time t c s') else None
          end
        else Some (add_time t c s)
      else None
  end.
(** __getitem__: 153-165, for a parsed time; None: the newest *)
Definition get_cochain (t : option Z) (s : store) : option C :=
  match t with
  | Some t => get Z.eq_dec (tcd s) t
  | None => match newest s with None => None | Some t => get Z.eq_dec (tcd s) t end
  end.
(** times: 42-50 *)
Definition times (s : store) : list Z := sorted_times (times_of s).

Inductive op :=
| Set_ (limit : option nat) (t : Z) (c : C)
| CleanNewest
| CleanLast (k : nat)
| CleanAll
| CleanAt (t : Z).
Definition do_op (o : op) (s : store) : option store :=
  match o with
  | Set_ l t c => set_cochain l t c s
  | CleanNewest => clean_newest s
  | CleanLast k => clean_last k s
  | CleanAll => clean_all s
  | CleanAt t => clean_at t s
  end.
Fixpoint run (os : list op) (s : store) : option store :=
  match os with
  | [] => Some s
  | o :: r => match do_op o s with None => None | Some s' => run r s' end
  end.

(** ** msepy, main.py 37-131 *)
(** clean(): 95-101 *)
Definition py_clean_newest (s : store) : option store :=
  match newest s with
  | None => None
  | Some t => match get Z.eq_dec (tcd s) t with
              | None => None
              | Some c => Some (Store [(t, c)] (newest s))
              end
  end.
(** clean(-k): 103-119 *)
Definition py_clean_last (k : nat) (s : store) : option store :=
  match k with
  | 0%nat => None
  | _ => let keys := sorted_times (times_of s) in
         match (if length keys <=? k then Some (tcd s) else pick (tcd s) (last_ones k keys)) with
         | None => None
         | Some d => Some (Store d (newest s))
         end
  end.
(** _set: 37-73; [limit] is 10 if auto_cleaning is True *)
Definition py_set (limit : option nat) (t : Z) (c : C) (s : store) : option store :=
  match limit with
  | None => Some (add_time t c s)
  | Some k =>
      if 2 <=? k then
        if 2 * k <? length (tcd s) then option_map (add_time t c) (py_clean_last k s) else Some (add_time t c s)
      else None
  end.
Inductive py_op :=
| PySet (limit : option nat) (t : Z) (c : C)
| PyCleanNewest
| PyCleanLast (k : nat).
Definition py_do (o : py_op) (s : store) : option store :=
  match o with
  | PySet l t c => py_set l t c s
  | PyCleanNewest => py_clean_newest s
  | PyCleanLast k => py_clean_last k s
  end.
Fixpoint py_run (os : list py_op) (s : store) : option store :=
  match os with
  | [] => Some s
  | o :: r => match py_do o s with None => None | Some s' => py_run r s' end
  end.

(** ** saveto: form/main.py 369-386: the times to be saved; [what]: None, or a positive integer *)
Definition time_range (what : option nat) (s : store) : option (list Z) :=
  match what with
  | None => Some (times_of s)
  | Some 0%nat => None
  | Some n => let ts := sorted_times (times_of s) in
              Some (if length ts <=? n then ts else last_ones n ts)
  end.
End Store.
Arguments store : clear implicits.
Arguments op : clear implicits.
Arguments py_op : clear implicits.

(** * interpolation in time *)
Local Open Scope R_scope.
Definition vplus (u v : list R) : list R := map (fun p => fst p + snd p) (combine u v).
Definition vminus (u v : list R) : list R := map (fun p => fst p - snd p) (combine u v).
Definition vscale (a : R) (u : list R) : list R := map (Rmult a) u.
(** (t - lb) / (ub - lb) *)
Definition fraction (t lb ub : Z) : R := (IZR t - IZR lb) / (IZR ub - IZR lb).
Definition between (lb ub t : Z) (s : store (list R)) : option (list R) :=
  match get Z.eq_dec (tcd s) lb, get Z.eq_dec (tcd s) ub with
  | Some a, Some b => Some (vplus a (vscale (fraction t lb ub) (vminus b a)))
  | _, _ => None
  end.
(** ic.py 33-39: the first pair of consecutive times around t *)
Fixpoint segment (ts : list Z) (t : Z) : option (Z * Z) :=
  match ts with
  | lb :: ((ub :: _) as r) => if ((lb <=? t) && (t <=? ub))%Z%bool then Some (lb, ub) else segment r t
  | _ => None
  end.
(** ic.py 19-48; extrapolation raises in any case *)
Definition interpolate (t : Z) (s : store (list R)) : option (list R) :=
  let ts := sorted_times (times_of s) in
  if (length ts <=? 1)%nat then None
  else if (t <? hd 0%Z ts)%Z then None
  else if (last ts 0 <? t)%Z then None
  else match segment ts t with
       | None => None
       | Some (lb, ub) => between lb ub t s
       end.
(** msepy main.py 177-188: the loop stops at the first time that is not later than t *)
Fixpoint py_segment (ts : list Z) (t : Z) : option (Z * Z) :=
  match ts with
  | [] => None
  | lb :: r => if (lb <=? t)%Z then match r with ub :: _ => Some (lb, ub) | [] => None end else py_segment r t
  end.
(** msepy main.py 147-194 *)
Definition py_interpolate (t : Z) (s : store (list R)) : option (list R) :=
  match get Z.eq_dec (tcd s) t with
  | Some c => Some c
  | None =>
      if (length (tcd s) <? 2)%nat then None
      else let ts := sorted_times (times_of s) in
           if (t <? hd 0%Z ts)%Z then None
           else if (last ts 0 <? t)%Z then None
           else match py_segment ts t with
                | None => None
                | Some (lb, ub) => between lb ub t s
                end
  end.

(** * signatures of elements, base.py 39-50, 145-168 *)
Definition three : list R := [-1; 0; 1].
(** meshgrid(indexing='ij') and ravel('F'): the first coordinate runs first *)
Definition points2 : list (R * R) := flat_map (fun et => map (fun xi => (xi, et)) three) three.
Definition points3 : list (R * R * R) := flat_map (fun sg => flat_map (fun et => map (fun xi => (xi, et, sg)) three) three) three.
(** "{:.nf}".format(round(x, n)): the sign is written for negative numbers that are rounded to zero, too *)
Definition signed_text (n : nat) (x : R) : bool * Z := (if Rlt_dec x 0 then true else false, text n x).
Definition signature2 (etype : nat) (phi : R * R -> R * R) : nat * list (list (bool * Z)) :=
  (etype, map (fun q => let p := phi q in [signed_text 4 (fst p); signed_text 4 (snd p)]) points2).
Definition signature3 (etype : nat) (phi : R * R * R -> R * R * R) : nat * list (list (bool * Z)) :=
  (etype, map (fun q => let p := phi q in [signed_text 3 (fst (fst p)); signed_text 3 (snd (fst p)); signed_text 3 (snd p)]) points3).

(** * files *)
Section Files.
Context {Sg V : Type} (seq_dec : forall a b : Sg, {a = b} + {a <> b}).
(** what one rank knows about the mesh: the elements of the composition of the mesh of the form with their signatures, and the
    elements of the gathering matrix (all local elements of the great mesh, cochain/main.py 197-210) *)
Record rank_mesh := RankMesh { composition : list (nat * Sg); gm : list nat }.
(** the element signature dict of a rank: 364-367 (345-351); the later element wins *)
Definition signature_dict (m : rank_mesh) : list (Sg * nat) := update seq_dec [] (map (fun es => (snd es, fst es)) (composition m)).
(** the gathered one: 394-400 (331-342) *)
Definition gathered {K W} (keq : forall a b : K, {a = b} + {a <> b}) (ds : list (list (K * W))) : list (K * W) := fold_left (update keq) ds [].
Record file := File { f_cochain : list (Z * list (nat * V)); f_signatures : list (Sg * nat) }.
Fixpoint all_some {A} (l : list (option A)) : option (list A) :=
  match l with
  | [] => Some []
  | Some a :: r => match all_some r with Some q => Some (a :: q) | None => None end
  | None :: _ => None
  end.
(** _merge_to: instant.py 197-210, for the local cochains at one time *)
Definition merged (ls : list (list (nat * V))) : list (nat * V) := gathered Nat.eq_dec ls.
(** saveto: 353-408; a rank has its mesh and its store of local cochains (element -> coefficients) *)
Definition saveto (what : option nat) (ranks : list (rank_mesh * store (list (nat * V)))) : option file :=
  match ranks with
  | [] => None
  | (_, s0) :: _ =>
      match time_range what s0 with
      | None => None
      | Some ts =>
          match all_some (map (fun t => match all_some (map (fun r => get_cochain (Some t) (snd r)) ranks) with
                                        | None => None
                                        | Some ls => Some (t, merged ls)
                                        end) ts) with
          | None => None
          | Some c => Some (File c (gathered seq_dec (map (fun r => signature_dict (fst r)) ranks)))
          end
      end
  end.
(** _receive: instant.py 33-49; [nothing e]: the form has no dofs in the element *)
Definition receive (nothing : nat -> bool) (m : rank_mesh) (c : list (nat * V)) : option (list (nat * V)) :=
  if forallb (fun ev => existsb (Nat.eqb (fst ev)) (gm m)) c && forallb (fun e => match get Nat.eq_dec c e with None => nothing e | Some _ => true end) (gm m)
  then Some c else None.
(** read, one time: 432-441 *)
Definition read_local (m : rank_mesh) (f : file) (total : list (nat * V)) : option (list (nat * V)) :=
  let signatures := update Nat.eq_dec [] (composition m) in
  all_some (map (fun e => match get Nat.eq_dec signatures e with
                          | None => None
                          | Some sg => match get seq_dec (f_signatures f) sg with
                                       | None => None
                                       | Some i => match get Nat.eq_dec total i with None => None | Some v => Some (e, v) end
                                       end
                          end) (gm m)).
Fixpoint set_all (limit : option nat) (nothing : nat -> bool) (m : rank_mesh) (cs : list (Z * list (nat * V))) (s : store (list (nat * V))) : option (store (list (nat * V))) :=
  match cs with
  | [] => Some s
  | (t, c) :: r => match receive nothing m c with
                   | None => None
                   | Some c' => match set_cochain limit t c' s with None => None | Some s' => set_all limit nothing m r s' end
                   end
  end.
(** read: 410-450, one rank *)
Definition read (limit : option nat) (nothing : nat -> bool) (m : rank_mesh) (f : file) (s : store (list (nat * V))) : option (store (list (nat * V))) :=
  match all_some (map (fun tc => match read_local m f (snd tc) with None => None | Some c => Some (fst tc, c) end) (f_cochain f)) with
  | None => None
  | Some cs => set_all limit nothing m cs s
  end.
(** _read_cache_data: 235-285, one rank *)
Definition read_cache_local (m : rank_mesh) (f : file) (total : list (nat * V)) : option (list (nat * V)) :=
  all_some (map (fun se => match get seq_dec (f_signatures f) (fst se) with
                           | None => None
                           | Some i => match get Nat.eq_dec total i with None => None | Some v => Some (snd se, v) end
                           end) (signature_dict m)).
Definition read_cache (limit : option nat) (nothing : nat -> bool) (m : rank_mesh) (f : file) (s : store (list (nat * V))) : option (store (list (nat * V))) :=
  match all_some (map (fun tc => match read_cache_local m f (snd tc) with None => None | Some c => Some (fst tc, c) end) (f_cochain f)) with
  | None => None
  | Some cs => set_all limit nothing m cs s
  end.
End Files.
Arguments rank_mesh : clear implicits.
Arguments file : clear implicits.
