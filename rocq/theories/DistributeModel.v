(** Model of how the elements of a msehtt great mesh are given to the ranks and renumbered.
    msehtt/static/mesh/great/main.py 696-864 and 1459-1558, config/vtu.py 100-176 and 198-318.
    None stands for an exception.  One call on the master rank is modelled; COMM.scatter hands the r-th entry of a list to
    rank r.  Distances are rational numbers (floating point numbers are), given by any function of two elements. *)
From Coq Require Import List Arith QArith Bool.
From Verif Require Import Dict.
Import ListNotations.
Local Open Scope nat_scope.

(** ** ___split___ (config/vtu.py 295-318) *)
(** x % 0 raises ZeroDivisionError *)
Definition split (x n : nat) : option (list nat) :=
  if x <? n then Some (rev (repeat 1 x ++ repeat 0 (n - x)))
  else if n =? 0 then None
  else if x mod n =? 0 then Some (repeat (x / n) n)
  else let zp := n - x mod n in let pp := x / n in Some (map (fun i => if zp <=? i then pp + 1 else pp) (seq 0 n)).

(** rank_element_numbers (main.py 1484-1502, vtu.py 200-218); MASTER_RANK is 0 (src/config.py 47) *)
Definition shares (size n : nat) : option (list nat) :=
  match split n size with
  | None => None
  | Some rn =>
    if n <? 4 * size then Some rn
    else match rn with
         | [] => None
         | r0 :: rs =>
           let m := r0 / 2 in
           match split (r0 - m) (size - 1) with
           | None => None
           | Some ex => Some (m :: map (fun p => fst p + snd p) (combine rs ex))
           end
         end
  end.

(** list.sort() of the distances *)
Fixpoint insert (x : Q) (l : list Q) : list Q :=
  match l with [] => [x] | y :: r => if Qle_bool x y then x :: l else y :: insert x r end.
Fixpoint sort (l : list Q) : list Q := match l with [] => [] | x :: r => insert x (sort r) end.

Section Ranks.
  Context {K : Type} (eqb : K -> K -> bool) (dist : K -> K -> Q).

  (** main.py 1513-1533: everything not further from the first remaining element than the n-th distance *)
  Definition ball (n : nat) (rem : list K) : list K :=
    match rem with
    | [] => []
    | c :: _ =>
      let ds := sort (map (fun e => dist e c) rem) in
      let ref := if length ds <=? n then (last ds 0 + 1)%Q else nth n ds 0%Q in
      filter (fun e => Qle_bool (dist e c) ref) rem
    end.
  (** list.remove(e): the first entry equal to e (there is one when it is called) *)
  Fixpoint remove1 (e : K) (l : list K) : list K :=
    match l with [] => [] | x :: r => if eqb e x then r else x :: remove1 e r end.
  Definition remove_all (rem taken : list K) : list K := fold_left (fun r e => remove1 e r) taken rem.
  (** main.py 1509-1536, vtu.py 237-264: ranks in order; what is left at the end *)
  Fixpoint balls (sh : list nat) (rem : list K) : list (list K) * list K :=
    match sh with
    | [] => ([], rem)
    | n :: t => let tk := ball n rem in let '(ds, r) := balls t (remove_all rem tk) in (tk :: ds, r)
    end.

  Definition is_empty (d : list K) : bool := length d =? 0.
  (** main.py 1540-1545 *)
  Definition empties (ds : list (list K)) : list nat :=
    map fst (filter (fun p => is_empty (snd p)) (combine (seq 0 (length ds)) ds)).
  (** main.py 1549-1551: list.pop() of the first rank with more than one element *)
  Fixpoint pop_first (ds : list (list K)) : option (K * list (list K)) :=
    match ds with
    | [] => None
    | d :: t =>
      if 1 <? length d then match rev d with [] => None | x :: r => Some (x, rev r :: t) end
      else match pop_first t with None => None | Some (x, t') => Some (x, d :: t') end
    end.
  Fixpoint set_rank (r : nat) (d : list K) (ds : list (list K)) : list (list K) :=
    match ds with [] => [] | x :: t => match r with 0 => d :: t | S r' => x :: set_rank r' d t end end.
  Definition fill (ds : list (list K)) (er : nat) : list (list K) :=
    match pop_first ds with None => ds | Some (x, ds') => set_rank er [x] ds' end.

  Definition total (ds : list (list K)) : nat := length (concat ds).
  (** vtu.py 198-268: ___master_rank_distribute___ *)
  Definition vtu_balls (size : nat) (ks : list K) : option (list (list K)) :=
    match shares size (length ks) with
    | None => None
    | Some sh =>
      if list_sum sh =? length ks then
        let '(ds, rem) := balls sh ks in
        if (length rem =? 0) && (total ds =? length ks) then Some ds else None
      else None
    end.
  (** main.py 1459-1558: ___Naive_element_distribution___ *)
  Definition naive (size : nat) (ks : list K) : option (list (list K)) :=
    match vtu_balls size ks with
    | None => None
    | Some ds =>
      let ds' := fold_left fill (empties ds) ds in
      if (total ds' =? length ks) && forallb (fun d => negb (is_empty d)) ds' then Some ds' else None
    end.

  Definition slice (low upper : nat) (l : list K) : list K := firstn (upper - low) (skipn low l).
  (** np.array_split(range(n), size) and main.py 791-795: the first n % size ranks get one more.  min([]) raises *)
  Definition array_split (size n : nat) : list nat := repeat (n / size + 1) (n mod size) ++ repeat (n / size) (size - n mod size).
  Fixpoint cut (sizes : list nat) (start : nat) (ks : list K) : option (list (list K)) :=
    match sizes with
    | [] => Some []
    | s :: t => if s =? 0 then None
                else match cut t (start + s) ks with None => None | Some r => Some (slice start (start + s) ks :: r) end
    end.
  (** main.py 797-804: int(start + take * (n / num_piles)) + 1, with exact division *)
  Fixpoint piles (takes : list nat) (start n np : nat) (ks : list K) : list (list K) :=
    match takes with
    | [] => []
    | t :: r => let e := (start * np + t * n) / np + 1 in slice start e ks :: piles r e n np ks
    end.
  (** main.py 790-807 *)
  Definition manifold_ranks (size : nat) (ks : list K) : option (list (list K)) :=
    let n := length ks in
    let ds := if n <=? 4 * size then cut (array_split size n) 0 ks
              else Some (piles (1 :: repeat 3 (size - 1)) 0 n (3 * (size - 1) + 1) ks) in
    match ds with
    | None => None
    | Some ds => if forallb (fun d => negb (is_empty d)) ds then Some ds else None
    end.

  (** main.py 778-812: the ranks' elements; raise of a str is a TypeError.  [mks]: keys of the map dict *)
  Definition ranks (size : nat) (manifold : bool) (ks mks : list K) : option (list (list K)) :=
    let n := length ks in
    if n <? size then None
    else if n =? size then Some (map (fun e => [e]) ks)
    else if manifold then manifold_ranks size ks
    else naive size mks.

  (** main.py 818-825: the entries of one rank, put into an empty dict in turn.  A missing key raises KeyError *)
  Definition pick {V} (d : dict K V) (es : list K) : option (dict K V) :=
    fold_left (fun acc e => match acc, get eqb d e with Some t, Some v => Some (put eqb t e v) | _, _ => None end) es (Some []).
  Fixpoint all_some {A} (l : list (option A)) : option (list A) :=
    match l with [] => Some [] | None :: _ => None | Some x :: r => match all_some r with None => None | Some t => Some (x :: t) end end.
  (** set(...) *)
  Fixpoint distinct (l : list K) : list K :=
    match l with [] => [] | x :: r => if existsb (eqb x) r then distinct r else x :: distinct r end.

  Context {T P M : Type}.
  (** main.py 828-846; the entries are those of [d] *)
  Definition checked (ds : list (list K)) (parts : list (dict K T * dict K P * dict K M)) (ty : dict K T) (pa : dict K P) (mp : dict K M) : bool :=
    forallb (fun q => let '(d, (t, p, m)) := q in let s := distinct d in
               (length t =? length s) && (length p =? length s) && (length m =? length s) &&
               forallb (fun i => has eqb t i && has eqb p i && has eqb m i) s) (combine ds parts) &&
    (let u := distinct (concat ds) in
     forallb (fun i => has eqb ty i && has eqb pa i && has eqb mp i) u &&
     (length u =? length ty) && (length u =? length pa) && (length u =? length mp)).

  (** main.py 757-864: _distribute_elements_to_ranks, method='naive'; what the ranks get and _element_distribution *)
  Definition distribute (size : nat) (manifold : bool) (ty : dict K T) (pa : dict K P) (mp : dict K M)
    : option (list (list K) * list (dict K T * dict K P * dict K M)) :=
    if size =? 1 then Some ([keys ty], [(ty, pa, mp)])
    else match ranks size manifold (keys ty) (keys mp) with
         | None => None
         | Some ds =>
           match all_some (map (fun d => match pick ty d, pick pa d, pick mp d with Some t, Some p, Some m => Some (t, p, m) | _, _, _ => None end) ds) with
           | None => None
           | Some parts => if checked ds parts ty pa mp then Some (ds, parts) else None
           end
         end.

  (** config/vtu.py 100-147 and 150-170: the redistribution of a mesh read from a file (coordinates left out).  Here the ranks left
      without elements are an error *)
  Definition vtu_distribute (size : nat) (ty : dict K T) (mp : dict K M) : option (list (list K) * list (dict K T * dict K M)) :=
    let n := length ty in
    let ds := if n <? size then None
              else if size =? 1 then Some [keys ty]
              else if size =? n then Some (map (fun e => [e]) (keys mp))
              else vtu_balls size (keys mp) in
    match ds with
    | None => None
    | Some ds =>
      if forallb (fun d => negb (is_empty d)) ds then
        match all_some (map (fun d => match pick mp d, pick ty d with Some m, Some t => Some (t, m) | _, _ => None end) ds) with
        | None => None
        | Some parts => Some (ds, parts)
        end
      else None
    end.
End Ranks.

(** ** _renumbering_ (main.py 696-742), renumbering_indicator = True *)
Section Renumber.
  Context {K : Type} (eqb : K -> K -> bool).
  (** main.py 705-717: renumbering_dict *)
  Definition renumbering {T} (ty : dict K T) : dict K nat :=
    fst (fold_left (fun a kv => let '(d, c) := a in (put eqb d (fst kv) c, S c)) ty ([], 0)).
  (** main.py 712-716: the new global dicts; the map of e is looked up *)
  Definition new_global {T V} (ty : dict K T) (d : dict K V) : option (dict nat V) :=
    option_map fst
      (fold_left (fun a kv => match a, get eqb d (fst kv) with
                              | Some (g, c), Some v => Some (put Nat.eqb g c v, S c)
                              | _, _ => None
                              end) ty (Some ([], 0))).
  (** main.py 719-724 *)
  Definition new_ranks (r : dict K nat) (ds : list (list K)) : option (list (list nat)) :=
    all_some (map (fun d => all_some (map (get eqb r) d)) ds).
  (** main.py 734-740: the dicts of one rank; [ty]: its type dict *)
  Definition new_local {T V} (r : dict K nat) (ty : dict K T) (d : dict K V) : option (dict nat V) :=
    fold_left (fun a kv => match a, get eqb r (fst kv), get eqb d (fst kv) with
                           | Some g, Some i, Some v => Some (put Nat.eqb g i v)
                           | _, _, _ => None
                           end) ty (Some []).
End Renumber.
