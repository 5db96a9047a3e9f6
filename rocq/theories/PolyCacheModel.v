(** Model of the memory of the nodal polynomials: /repo/msepy/tools/polynomials.py, lines 66-73 (the text of the
    nodes) and 108-126 (lagrange_basis).  Nodes and points are rationals; the memory [_cache_nodes] is shared by all
    node sets and is the cache of NdCacheModel.v.  The memory of the edge polynomials works in the same way and is
    not modelled. *)
From Coq Require Import List ZArith QArith Qcanon Bool String.
From Verif Require Import Dict MetricKeyModel MemoModel MiscModel NdCacheModel.
Import ListNotations.
Local Open Scope string_scope.

(** ["%.5f" % q] *)
Definition fmt5 (q : Qc) : string :=
  let m := rnd (qabs q * 100000)%Q in
  (if Qclt_le_dec q 0%Qc then "-" else "") ++ str_z (m / 100000) ++ "." ++ pad 5 (m mod 100000).
(** 68-72; [str(node)] of the floats -1.0 and 1.0 *)
Definition node_text (q : Qc) : string :=
  if Qc_eq_dec q (Q2Qc (-1)) then "-1.0" else if Qc_eq_dec q 1%Qc then "1.0" else fmt5 q.
(** 73 *)
Fixpoint join_bar (l : list string) : string :=
  match l with [] => "" | [s] => s | s :: r => s ++ "|" ++ join_bar r end.
Definition str_nodes_key (ns : list Qc) : string := join_bar (map node_text ns).

(** 118-122 for rationals *)
Definition lagrange_q (ns : list Qc) (i : nat) (x : Qc) : Qc :=
  fold_left (fun b j => if Nat.eqb i j then b
                        else (b * ((x - nth j ns 0) / (nth i ns 0 - nth j ns 0)))%Qc)
            (seq 0 (List.length ns)) 1%Qc.
(** the returned matrix, row by row *)
Definition lagrange_array (ns : list Qc) (xs : list arr) : option arr :=
  match xs with
  | [x] => Some {| shape := [List.length ns; List.length (data x)];
                   data := flat_map (fun i => map (lagrange_q ns i) (data x)) (seq 0 (List.length ns)) |}
  | _ => None
  end.
(** one call of lagrange_basis of the polynomials on [ns] with the array at address [x] *)
Definition evaluate (st : state) (ns : list Qc) (x : nat) : option (state * logged) :=
  call (fun _ => lagrange_array ns) st [x] (str_nodes_key ns) 10.

(** programs: make an array of points, evaluate polynomials at an array *)
Inductive pop := Points (a : arr) | Eval (ns : list Qc) (x : nat).
Definition pstep (st : state) (o : pop) : option (state * list (list Qc * logged)) :=
  match o with
  | Points a => Some ({| s_heap := s_heap st ++ [a]; s_cache := s_cache st |}, [])
  | Eval ns x => match evaluate st ns x with Some (st', l) => Some (st', [(ns, l)]) | None => None end
  end.
Fixpoint prun (st : state) (ops : list pop) : option (state * list (list Qc * logged)) :=
  match ops with
  | [] => Some (st, [])
  | o :: r => match pstep st o with
              | None => None
              | Some (st', l) => match prun st' r with Some (st'', l') => Some (st'', (l ++ l')%list) | None => None end
              end
  end.
