(** Model of the structured multi-region mesh of msepy.
    /repo/msepy/mesh/elements/main.py, /repo/msepy/manifold/regions/main.py

    A layout is reduced to its distribution: how many elements a region has along
    each axis ([_distribution], main.py:181-184).  The lengths of the elements are
    only used for metrics, see [key_of] below. *)
From Coq Require Import Arith List Bool.
From Verif Require Import NdArray IncidenceModel.
Import ListNotations.

(** ** numbering: main.py:187-204 [_generate_element_numbering_from_layout] *)
Fixpoint gen_numbering (cur : nat) (diss : list (list nat))
  : option (list arr * nat * list nat) :=
  match diss with
  | [] => Some ([], cur, [])
  | dis :: rest =>
      let n := prodl dis in
      match arange_reshape cur (cur + n) dis, gen_numbering (cur + n) rest with
      | Some a, Some (l, num, acc) => Some (a :: l, num, cur :: acc)
      | _, _ => None
      end
  end.

(** ** element -> (region, local indices): main.py:269-317
    [_find_region_and_local_indices_of_element] *)
Fixpoint find_region (j num_regions : nat) (acc : list nat) (i : nat) : option nat :=
  match acc with
  | [] => None                                    (* in_region stays -1: assert *)
  | na :: rest =>
      if S j =? num_regions then Some j
      else match rest with
           | nx :: _ => if (na <=? i) && (i <? nx) then Some j
                        else find_region (S j) num_regions rest i
           | [] => None                           (* IndexError *)
           end
  end.

(** the loop [n = ndim-1 .. 1]; appended then reversed = consed *)
Fixpoint idx_loop (dis : list nat) (n ln : nat) (tail : list nat) : list nat :=
  match n with
  | 0 => ln :: tail
  | S m => let layer := prodl (firstn n dis) in
           idx_loop dis m (ln mod layer) (ln / layer :: tail)
  end.

Definition find_element (diss : list (list nat)) (i : nat) : option (nat * list nat) :=
  match gen_numbering 0 diss with
  | Some (_, num, acc) =>
      if i <? num then
        match find_region 0 (length diss) acc i with
        | Some r => match nth_error acc r, nth_error diss r with
                    | Some a, Some dis => Some (r, idx_loop dis (length dis - 1) (i - a) [])
                    | _, _ => None
                    end
        | None => None
        end
      else None
  | None => None
  end.

(** ** region map and its check: regions/main.py:56-81 (map_type 0).
    [map[i][j]]: neighbour of region i on side j = 2*axis + (0: minus, 1: plus) *)
Definition rmap := list (list (option nat)).
Definition opp (j : nat) : nat := let m := j / 2 in let n := j mod 2 in
  m * 2 + (if n =? 0 then 1 else 0).
Definition check_entry (M : rmap) (i j : nat) (t : option nat) : bool :=
  match t with
  | None => true
  | Some mp => match nth_error M mp with
               | Some row => match nth_error row (opp j) with
                             | Some (Some i') => i' =? i
                             | _ => false
                             end
               | None => false
               end
  end.
Definition check_map (M : rmap) : bool :=
  forallb (fun i => match nth_error M i with
                    | Some row => forallb (fun jt => check_entry M i (fst jt) (snd jt))
                                          (combine (seq 0 (length row)) row)
                    | None => false
                    end) (seq 0 (length M)).

(** ** slices: [numbering.take(indices=layer, axis=axis)], main.py:399-413 *)
Fixpoint remove_at {A} (n : nat) (l : list A) : list A :=
  match n, l with
  | _, [] => []
  | 0, _ :: r => r
  | S m, a :: r => a :: remove_at m r
  end.
Fixpoint insert_at {A} (n : nat) (v : A) (l : list A) : list A :=
  match n, l with
  | 0, _ => v :: l
  | S m, a :: r => a :: insert_at m v r
  | S m, [] => [v]
  end.

Definition take (a : arr) (axis layer : nat) : option comp :=
  match nth_error (a_shape a) axis with
  | Some n => if layer <? n
              then Some (remove_at axis (a_shape a), fun ix => aget a (insert_at axis layer ix))
              else None
  | None => None
  end.
(** [take(indices=-1, axis=axis)] *)
Definition take_last (a : arr) (axis : nat) : option comp :=
  match nth_error (a_shape a) axis with
  | Some (S n) => take a axis n
  | _ => None
  end.

(** numpy broadcasting of an index for equal dimensions *)
Fixpoint bcast (src tgt ix : list nat) : option (list nat) :=
  match src, tgt, ix with
  | [], [], [] => Some []
  | s :: src', t :: tgt', i :: ix' =>
      match bcast src' tgt' ix' with
      | Some r => if s =? t then Some (i :: r) else if s =? 1 then Some (0 :: r) else None
      | None => None
      end
  | _, _, _ => None
  end.

(** [element_map[for_elements, col] = side_elements] *)
Definition assign_col (tgt src : comp) (col : nat) : option (list (nat * nat * nat)) :=
  mapM (fun ix => match snd tgt ix, bcast (fst src) (fst tgt) ix with
                  | Some e, Some ix' => match snd src ix' with
                                        | Some v => Some (e, col, v)
                                        | None => None
                                        end
                  | _, _ => None
                  end) (indices (fst tgt)).

(** ** neighbours: main.py:334-398 [_generate_element_map_for_structured_regions] *)
Definition find_region_on (M : rmap) (i axis side : nat) : option (option nat) :=
  match nth_error M i with Some row => nth_error row (2 * axis + side) | None => None end.

Definition side_slice (arrs : list arr) (M : rmap) (i axis layer side : nat) (a : arr)
  : option (option comp) :=
  let n := nth axis (a_shape a) 0 in
  if side =? 0 then
    match layer with
    | S l => option_map Some (take a axis l)
    | 0 => match find_region_on M i axis 0 with
           | Some None => Some None
           | Some (Some r) => match nth_error arrs r with
                              | Some b => option_map Some (take_last b axis)
                              | None => None
                              end
           | None => None
           end
    end
  else
    if n <=? S layer then
      match find_region_on M i axis 1 with
      | Some None => Some None
      | Some (Some r) => match nth_error arrs r with
                         | Some b => option_map Some (take b axis 0)
                         | None => None
                         end
      | None => None
      end
    else option_map Some (take a axis (S layer)).

Definition assign_opt (tgt : comp) (src : option comp) (col : nat) :=
  match src with Some s => assign_col tgt s col | None => Some [] end.

Definition do_layer (arrs : list arr) (M : rmap) (i axis layer : nat)
  : option (list (nat * nat * nat)) :=
  match nth_error arrs i with
  | Some a =>
      match take a axis layer, side_slice arrs M i axis layer 0 a, side_slice arrs M i axis layer 1 a with
      | Some tgt, Some m, Some p =>
          match assign_opt tgt m (2 * axis), assign_opt tgt p (2 * axis + 1) with
          | Some wm, Some wp => Some (wm ++ wp)
          | _, _ => None
          end
      | _, _, _ => None
      end
  | None => None
  end.

Definition layers (ndim : nat) (arrs : list arr) : list (nat * nat * nat) :=
  flat_map (fun ia => flat_map (fun axis =>
      map (fun layer => (fst ia, axis, layer)) (seq 0 (nth axis (a_shape (snd ia)) 0)))
      (seq 0 ndim)) (combine (seq 0 (length arrs)) arrs).

Definition gen_map (ndim : nat) (diss : list (list nat)) (M : rmap)
  : option (list (nat * nat * nat)) :=
  match gen_numbering 0 diss with
  | Some (arrs, _, _) =>
      if forallb (fun dis => length dis =? ndim) diss then
        option_map (@concat _)
          (mapM (fun t => let '(i, axis, layer) := t in do_layer arrs M i axis layer) (layers ndim arrs))
      else None
  | None => None
  end.

(** [element_map = -ones(...)] then the assignments in order; [None] is -1 *)
Fixpoint emap_get (w : list (nat * nat * nat)) (e col : nat) (acc : option nat) : option nat :=
  match w with
  | [] => acc
  | (e', c', v) :: w' => emap_get w' e col (if (e =? e') && (col =? c') then Some v else acc)
  end.
Definition neighbour (w : list (nat * nat * nat)) (e col : nat) : option nat := emap_get w e col None.

(** ** layout check of 2-D meshes: main.py:126-157 [_check_layouts].  Only the
    consequence used here: equal numbers of elements along the interface.  *)
Definition check_layouts2 (diss : list (list nat)) (M : rmap) : bool :=
  forallb (fun i => match nth_error M i, nth_error diss i with
    | Some row, Some di =>
        forallb (fun jt => match snd jt with
                 | None => true
                 | Some t => match nth_error diss t with
                             | Some dt => let ax := 1 - fst jt / 2 in
                                          match nth_error di ax, nth_error dt ax with
                                          | Some x, Some y => x =? y
                                          | _, _ => false
                                          end
                             | None => false
                             end
                 end) (combine (seq 0 (length row)) row)
    | _, _ => false
    end) (seq 0 (length M)).

(** ** index mapping: main.py:509-660 *)

(** [dict] with list values: [if key in d: d[key].extend(v) else d[key] = v] *)
Section Dict.
  Context {K : Type} (eqk : K -> K -> bool).
  Fixpoint dict_extend (d : list (K * list nat)) (k : K) (v : list nat) : list (K * list nat) :=
    match d with
    | [] => [(k, v)]
    | (k', v') :: r => if eqk k k' then (k', v' ++ v) :: r else (k', v') :: dict_extend r k v
    end.

  (** regions/standard/ct.py:84-158 [_distribute_to_element]: loops i fastest;
      [key ix] stands for the string built from the rounded element lengths *)
  Definition distribute (a : arr) (key : list nat -> K) : option (list (K * list nat)) :=
    fold_left (fun od ix => match od, aget a ix with
                            | Some d, Some e => Some (dict_extend d (key ix) [e])
                            | _, _ => None
                            end) (indices (a_shape a)) (Some []).

  (** main.py:228-247: all regions, then [sort] of every group *)
  Fixpoint insert_sorted (x : nat) (l : list nat) : list nat :=
    match l with
    | [] => [x]
    | y :: r => if x <=? y then x :: l else y :: insert_sorted x r
    end.
  Definition sort (l : list nat) : list nat := fold_right insert_sorted [] l.

  Definition gen_groups (arrs : list arr) (keys : list (list nat -> K))
    : option (list (K * list nat)) :=
    option_map (map (fun kv => (fst kv, sort (snd kv))))
      (fold_left (fun od ak => match od, distribute (fst ak) (snd ak) with
                               | Some d, Some r => Some (fold_left (fun d kv => dict_extend d (fst kv) (snd kv)) r d)
                               | _, _ => None
                               end) (combine arrs keys) (Some [])).
End Dict.

(** main.py:512-557: [ei_ci_map = zeros(total); for i, indices: ei_ci_map[indices] = i];
    an index out of range raises *)
Fixpoint update {A} (l : list A) (i : nat) (v : A) : option (list A) :=
  match l, i with
  | [], _ => None
  | _ :: r, 0 => Some (v :: r)
  | a :: r, S j => option_map (cons a) (update r j v)
  end.
Fixpoint update_all {A} (l : list A) (ivs : list (nat * A)) : option (list A) :=
  match ivs with
  | [] => Some l
  | (i, v) :: r => match update l i v with Some l' => update_all l' r | None => None end
  end.
Definition make_e2c (total : nat) (c2e : list (list nat)) : option (list nat) :=
  update_all (repeat 0 total)
    (flat_map (fun ce => map (fun e => (e, fst ce)) (snd ce)) (combine (seq 0 (length c2e)) c2e)).

(** main.py:590-604 [split] along the element axis (other axes ride along) *)
Definition split {A} (c2e : list (list nat)) (num : nat) (x : list A) : option (list (list A)) :=
  if length x =? num
  then mapM (fun es => mapM (fun e => nth_error x e) es) c2e else None.

(** main.py:606-624 [merge]; a batch must have as many slices as the group
    (broadcasting of batches with one slice is left out) *)
Definition merge {A} (zero : A) (c2e : list (list nat)) (num : nat) (b : list (list A)) : option (list A) :=
  match mapM (fun eb => if length (fst eb) =? length (snd eb) then Some (combine (fst eb) (snd eb)) else None)
             (combine c2e b) with
  | Some ws => if length c2e <=? length b then update_all (repeat zero num) (concat ws) else None
  | None => None
  end.

(** main.py:512-557, 651-657: data of element i = data of its group's first element *)
Definition ref_elements (c2e : list (list nat)) : option (list nat) :=
  mapM (fun es => nth_error es 0) c2e.
Definition data_of_element {A} (dd : nat -> option A) (c2e : list (list nat)) (e2c : list nat) (i : nat)
  : option A :=
  match ref_elements c2e, nth_error e2c i with
  | Some re, Some c => match nth_error re c with Some r => dd r | None => None end
  | _, _ => None
  end.
