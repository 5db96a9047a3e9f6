(** Model of the global numberings (gathering matrices) of msepy:
    /repo/msepy/space/gathering_matrix/Lambda.py

    The loops of [_m1_n1_k0] (1409-1434), [_m2_n2_k0] (1065-1163), [_m2_n2_k1_inner]
    (1165-1251), [_m2_n2_k1_outer] (1253-1339) and [_m3_n3_k2] (49-209) all go through
    the elements and, for every element, through a fixed sequence of places: the
    interior, a side, or a corner.  The sequence and the array slices are parameters
    of one loop below; every function is an instance with its own slices, its own
    sequence and its own rule for sides.

    Element maps are functions [mp e s]: the neighbour of element e through side s
    (x-, x+, y-, y+, z-, z+), [None] is the code's -1.  The map is the one of
    MeshModel ([neighbour ws]).  A numbering array is the list of its writes, the most
    recent first; a position is an element with (component :: multi-index). *)
From Coq Require Import Arith List ZArith Bool.
From Verif Require Import NdArray IncidenceModel.
Import ListNotations.

Definition slot := list nat.
Fixpoint slot_eqb (a b : slot) : bool :=
  match a, b with
  | [], [] => true
  | x :: a', y :: b' => (x =? y) && slot_eqb a' b'
  | _, _ => false
  end.

Definition writes := list (nat * slot * Z).
(** [d] is the initial value of the array *)
Fixpoint look (d : Z) (w : writes) (e : nat) (a : slot) : Z :=
  match w with
  | [] => d
  | (e', a', v) :: r => if (e =? e') && slot_eqb a a' then v else look d r e a
  end.
(** assignment of a list of values to a slice of element [e]; a slice has no
    repeated position, so the order inside does not matter *)
Definition write (w : writes) (e : nat) (avs : list (slot * Z)) : writes :=
  map (fun av => (e, fst av, snd av)) avs ++ w.
(** [np.arange(cur, cur + len(slice))] *)
Definition fresh (sl : list slot) (cur : nat) : list (slot * Z) :=
  combine sl (map Z.of_nat (seq cur (length sl))).

Inductive task :=
| Side (s : nat)                 (* dofs on side s *)
| Inner (l : list slot)          (* interior dofs *)
| Group (g : nat).               (* dofs of corner g *)

(** what to do at a side, given the neighbour: number it, or take the numbers from an element *)
Inductive decision := New | From (m : nat) | Fail.

Section Loop.
  Context (d : Z) (mp : nat -> nat -> option nat) (rule : nat -> option nat -> decision).
  Context (sl : nat -> list slot) (op : nat -> nat).          (* slices of sides, opposite side *)
  Context (bs : nat -> list slot) (attach : nat -> nat -> list (nat * nat)). (* corners *)

  Definition do_task (e : nat) (t : task) (s : writes * nat) : option (writes * nat) :=
    let (w, cur) := s in
    match t with
    | Inner l => Some (write w e (fresh l cur), cur + length l)
    | Side i => match rule e (mp e i) with
                | New => Some (write w e (fresh (sl i) cur), cur + length (sl i))
                | From m => Some (write w e (combine (sl i) (map (look d w m) (sl (op i)))), cur)
                | Fail => None
                end
    | Group g =>
        match bs g with
        | [] => Some (w, cur)
        | a0 :: _ =>
            if (look d w e a0 =? -1)%Z
            then Some (fold_left (fun w eg => write w (fst eg) (fresh (bs (snd eg)) cur)) (attach e g) w,
                       cur + length (bs g))
            else Some (w, cur)
        end
    end.

  Fixpoint do_tasks (e : nat) (ts : list task) (s : writes * nat) : option (writes * nat) :=
    match ts with
    | [] => Some s
    | t :: r => match do_task e t s with Some s' => do_tasks e r s' | None => None end
    end.
  Fixpoint do_elements (es : list nat) (ts : list task) (s : writes * nat) : option (writes * nat) :=
    match es with
    | [] => Some s
    | e :: r => match do_tasks e ts s with Some s' => do_elements r ts s' | None => None end
    end.
End Loop.

(** the rows: [np.concatenate([gm[j][i].ravel('F') for j ...])], 1247-1250 and alike;
    [shs] the shapes of the components *)
Definition grow (f : slot -> Z) (shs : list (list nat)) : list Z :=
  concat (map (fun cs => map (fun ix => f (fst cs :: ix)) (indices (snd cs)))
              (combine (seq 0 (length shs)) shs)).
Definition rows_of (N : nat) (d : Z) (shs : list (list nat)) (s : option (writes * nat))
  : option (list (list Z)) :=
  match s with
  | Some (w, _) => Some (map (fun e => grow (look d w e) shs) (seq 0 N))
  | None => None
  end.

(** 1-D and 2-D: [if mp == -1 or mp > e: number else: copy], 1418-1433 and 1195-1235 *)
Definition rule_id (e : nat) (n : option nat) : decision :=
  match n with
  | None => New
  | Some m => if e <? m then New else From m
  end.
(** 3-D 2-forms, 65-86 and alike: the boundary is looked for with [isinstance(.., str)]
    but the map holds -1, which is [< n], and row -1 is the last element *)
Definition rule_m3n3k2 (N : nat) (e : nat) (n : option nat) : decision :=
  match n with
  | None => From (N - 1)
  | Some m => if m <? e then From m else if e <? m then New else Fail
  end.

(** slices of 2 and 3 indices *)
Definition ap2 (f : nat -> nat -> slot) (ix : list nat) : slot := match ix with [i; j] => f i j | _ => [] end.
Definition ap3 (f : nat -> nat -> nat -> slot) (ix : list nat) : slot := match ix with [i; j; k] => f i j k | _ => [] end.
Definition op_side (s : nat) : nat := if Nat.even s then s + 1 else s - 1.
Definition no_groups : nat -> list slot := fun _ => [].
Definition no_attach : nat -> nat -> list (nat * nat) := fun _ _ => [].

(** ** 1-D 0-forms, 1409-1434 *)
Definition sl_m1n1k0 (p : nat) (s : nat) : list slot :=
  match s with 0 => [[0; 0]] | _ => [[0; p]] end.
Definition ts_m1n1k0 (p : nat) : list task :=
  [Side 0; Inner (map (fun i => [0; S i]) (seq 0 (p - 1))); Side 1].
Definition gm_m1n1k0 (N : nat) (mp : nat -> nat -> option nat) (p : nat) : option (list (list Z)) :=
  rows_of N (-1) [[p + 1]]
    (do_elements (-1) mp rule_id (sl_m1n1k0 p) op_side no_groups no_attach (seq 0 N) (ts_m1n1k0 p) ([], 0)).

(** ** 2-D inner 1-forms, 1165-1251: component 0 is dx, shape (p0, p1+1); component 1 is dy *)
Definition sl_m2n2k1 (cx cy px py : nat) (s : nat) : list slot :=
  match s with
  | 0 => map (fun j => [cy; 0; j]) (seq 0 py)          (* U: gm_dy[i][0, :] *)
  | 1 => map (fun j => [cy; px; j]) (seq 0 py)         (* D: gm_dy[i][-1, :] *)
  | 2 => map (fun i => [cx; i; 0]) (seq 0 px)          (* L: gm_dx[i][:, 0] *)
  | _ => map (fun i => [cx; i; py]) (seq 0 px)         (* R: gm_dx[i][:, -1] *)
  end.
Definition in_dx (cx px py : nat) : list slot :=       (* gm_dx[i][:, 1:-1] *)
  map (ap2 (fun i j => [cx; i; S j])) (indices [px; py - 1]).
Definition in_dy (cy px py : nat) : list slot :=       (* gm_dy[i][1:-1, :] *)
  map (ap2 (fun i j => [cy; S i; j])) (indices [px - 1; py]).

Definition gm_m2n2k1_inner (N : nat) (mp : nat -> nat -> option nat) (px py : nat) : option (list (list Z)) :=
  rows_of N (-1) [[px; py + 1]; [px + 1; py]]
    (do_elements (-1) mp rule_id (sl_m2n2k1 0 1 px py) op_side no_groups no_attach (seq 0 N)
       [Side 2; Inner (in_dx 0 px py); Side 3; Side 0; Inner (in_dy 1 px py); Side 1] ([], 0)).

(** ** 2-D outer 1-forms, 1253-1339: component 0 is dy, component 1 is dx *)
Definition gm_m2n2k1_outer (N : nat) (mp : nat -> nat -> option nat) (px py : nat) : option (list (list Z)) :=
  rows_of N (-1) [[px + 1; py]; [px; py + 1]]
    (do_elements (-1) mp rule_id (sl_m2n2k1 1 0 px py) op_side no_groups no_attach (seq 0 N)
       [Side 0; Inner (in_dy 0 px py); Side 1; Side 2; Inner (in_dx 1 px py); Side 3] ([], 0)).

(** ** 2-D 0-forms, 1065-1163; [attach e c] is [gac[ngc[e][c]]] *)
Definition sl_m2n2k0 (px py : nat) (s : nat) : list slot :=
  match s with
  | 0 => map (fun j => [0; 0; S j]) (seq 0 (py - 1))
  | 1 => map (fun j => [0; px; S j]) (seq 0 (py - 1))
  | 2 => map (fun i => [0; S i; 0]) (seq 0 (px - 1))
  | _ => map (fun i => [0; S i; py]) (seq 0 (px - 1))
  end.
Definition corner_m2n2k0 (px py : nat) (c : nat) : list slot :=
  match c with
  | 0 => [[0; 0; 0]]       (* UL *)
  | 1 => [[0; px; 0]]      (* DL *)
  | 2 => [[0; 0; py]]      (* UR *)
  | _ => [[0; px; py]]     (* DR *)
  end.
Definition in_m2n2k0 (px py : nat) : list slot :=
  map (ap2 (fun i j => [0; S i; S j])) (indices [px - 1; py - 1]).
Definition gm_m2n2k0 (N : nat) (mp : nat -> nat -> option nat) (attach : nat -> nat -> list (nat * nat))
    (px py : nat) : option (list (list Z)) :=
  rows_of N (-1) [[px + 1; py + 1]]
    (do_elements (-1) mp rule_id (sl_m2n2k0 px py) op_side (corner_m2n2k0 px py) attach (seq 0 N)
       [Group 0; Side 2; Group 1; Side 0; Inner (in_m2n2k0 px py); Side 1; Group 2; Side 3; Group 3] ([], 0)).

(** ** 3-D 2-forms, 49-209 *)
Definition sl_m3n3k2 (px py pz : nat) (s : nat) : list slot :=
  match s with
  | 0 => map (ap2 (fun j k => [0; 0; j; k])) (indices [py; pz])
  | 1 => map (ap2 (fun j k => [0; px; j; k])) (indices [py; pz])
  | 2 => map (ap2 (fun i k => [1; i; 0; k])) (indices [px; pz])
  | 3 => map (ap2 (fun i k => [1; i; py; k])) (indices [px; pz])
  | 4 => map (ap2 (fun i j => [2; i; j; 0])) (indices [px; py])
  | _ => map (ap2 (fun i j => [2; i; j; pz])) (indices [px; py])
  end.
Definition in_m3n3k2 (px py pz : nat) (a : nat) : list slot :=
  match a with
  | 0 => map (ap3 (fun i j k => [0; S i; j; k])) (indices [px - 1; py; pz])
  | 1 => map (ap3 (fun i j k => [1; i; S j; k])) (indices [px; py - 1; pz])
  | _ => map (ap3 (fun i j k => [2; i; j; S k])) (indices [px; py; pz - 1])
  end.
Definition ts_m3n3k2 (px py pz : nat) : list task :=
  [Side 0; Inner (in_m3n3k2 px py pz 0); Side 1; Side 2; Inner (in_m3n3k2 px py pz 1); Side 3;
   Side 4; Inner (in_m3n3k2 px py pz 2); Side 5].
Definition gm_m3n3k2 (N : nat) (mp : nat -> nat -> option nat) (px py pz : nat) : option (list (list Z)) :=
  rows_of N 0 [[px + 1; py; pz]; [px; py + 1; pz]; [px; py; pz + 1]]
    (do_elements 0 mp (rule_m3n3k2 N) (sl_m3n3k2 px py pz) op_side no_groups no_attach (seq 0 N)
       (ts_m3n3k2 px py pz) ([], 0)).

(** ** top forms: 1436-1445 (1-D), 1399-1407 (2-D), 39-47 (3-D):
    [np.arange(0, N * nd).reshape((N, nd), order='C')] *)
Definition gm_top (N nd : nat) : list (list Z) :=
  map (fun e => map Z.of_nat (seq (e * nd) nd)) (seq 0 N).
