(** Model of the local numberings and dof counts of scalar valued form spaces.

    msepy:   /repo/msepy/space/local_numbering/Lambda.py
             /repo/msepy/space/num_local_dofs/Lambda.py
             /repo/msepy/space/num_local_dof_components/Lambda.py
    msehtt:  /repo/msehtt/static/space/local_numbering/Lambda/ln_*.py
             /repo/msehtt/static/space/num_local_dofs/Lambda/*.py
    The memo dictionaries keyed by the degree tuple are not modelled here. *)
From Coq Require Import Arith List.
From Verif Require Import NdArray.
Import ListNotations.

(** sequence a tuple of reshapes, any failing one raises *)
Fixpoint tuple_of (l : list (option arr)) : option (list arr) :=
  match l with
  | [] => Some []
  | None :: _ => None
  | Some x :: r => match tuple_of r with Some y => Some (x :: y) | None => None end
  end.

(** ** 1-D : local_numbering/Lambda.py:118-130, num_local_dofs/Lambda.py:73-83 *)
Definition ln_m1n1k0 (p : nat) := tuple_of [arange_reshape 0 (p+1) [p+1]].
Definition ln_m1n1k1 (p : nat) := tuple_of [arange_reshape 0 p [p]].
Definition nd_m1n1k0 (p : nat) := p + 1.
Definition nd_m1n1k1 (p : nat) := p.
(** num_local_dof_components/Lambda.py:97-107 *)
Definition ndc_m1n1k0 (p : nat) := [p + 1].
Definition ndc_m1n1k1 (p : nat) := [p].

(** ** 2-D quadrilaterals *)

(** local_numbering/Lambda.py:82-87 ; msehtt ln_m2n2k0.py:27-37 *)
Definition ln_m2n2k0 (px py : nat) :=
  tuple_of [arange_reshape 0 ((px+1) * (py+1)) [px+1; py+1]].

(** local_numbering/Lambda.py:89-99 ; msehtt ln_m2n2k1.py:28-42 *)
Definition ln_m2n2k1_outer (px py : nat) :=
  let Px := (px+1) * py in
  let Py := px * (py+1) in
  tuple_of [arange_reshape 0 Px [px+1; py]; arange_reshape Px (Px + Py) [px; py+1]].

(** local_numbering/Lambda.py:101-109 ; msehtt ln_m2n2k1.py:111-125 *)
Definition ln_m2n2k1_inner (px py : nat) :=
  let Px := px * (py+1) in
  let Py := (px+1) * py in
  tuple_of [arange_reshape 0 Px [px; py+1]; arange_reshape Px (Px + Py) [px+1; py]].

(** local_numbering/Lambda.py:111-116 ; msehtt ln_m2n2k2.py:24-34 *)
Definition ln_m2n2k2 (px py : nat) :=
  tuple_of [arange_reshape 0 (px * py) [px; py]].

(** num_local_dofs/Lambda.py:53-71 *)
Definition nd_m2n2k0 (px py : nat) := (px+1) * (py+1).
Definition nd_m2n2k1 (px py : nat) := (px+1) * py + px * (py+1).
Definition nd_m2n2k2 (px py : nat) := px * py.

(** num_local_dof_components/Lambda.py:69-95 *)
Definition ndc_m2n2k0 (px py : nat) := [(px+1) * (py+1)].
Definition ndc_m2n2k1_inner (px py : nat) := [px * (py+1); (px+1) * py].
Definition ndc_m2n2k1_outer (px py : nat) := [(px+1) * py; px * (py+1)].
Definition ndc_m2n2k2 (px py : nat) := [px * py].

(** msehtt num_local_dofs_m2n2k1.py:18-29 (inner) and 44-55 (outer):
    the pair (total, components) *)
Definition htt_nd_m2n2k1_inner (px py : nat) :=
  let Px := px * (py+1) in let Py := (px+1) * py in (Px + Py, [Px; Py]).
Definition htt_nd_m2n2k1_outer (px py : nat) :=
  let Px := px * (py+1) in let Py := (px+1) * py in (Px + Py, [Px; Py]).

(** ** 3-D *)

(** local_numbering/Lambda.py:75-80 ; msehtt ln_m3n3k0.py *)
Definition ln_m3n3k0 (px py pz : nat) :=
  tuple_of [arange_reshape 0 ((px+1) * (py+1) * (pz+1)) [px+1; py+1; pz+1]].

(** local_numbering/Lambda.py:63-73 ; msehtt ln_m3n3k1.py *)
Definition ln_m3n3k1 (px py pz : nat) :=
  let Px := px * (py+1) * (pz+1) in
  let Py := (px+1) * py * (pz+1) in
  let Pz := (px+1) * (py+1) * pz in
  tuple_of [arange_reshape 0 Px [px; py+1; pz+1];
            arange_reshape Px (Px + Py) [px+1; py; pz+1];
            arange_reshape (Px + Py) (Px + Py + Pz) [px+1; py+1; pz]].

(** local_numbering/Lambda.py:48-61 ; msehtt ln_m3n3k2.py *)
Definition ln_m3n3k2 (px py pz : nat) :=
  let Px := (px+1) * py * pz in
  let Py := px * (py+1) * pz in
  let Pz := px * py * (pz+1) in
  tuple_of [arange_reshape 0 Px [px+1; py; pz];
            arange_reshape Px (Px + Py) [px; py+1; pz];
            arange_reshape (Px + Py) (Px + Py + Pz) [px; py; pz+1]].

(** local_numbering/Lambda.py:41-46 ; msehtt ln_m3n3k3.py *)
Definition ln_m3n3k3 (px py pz : nat) :=
  tuple_of [arange_reshape 0 (px * py * pz) [px; py; pz]].

(** num_local_dofs/Lambda.py:23-51 *)
Definition nd_m3n3k0 (px py pz : nat) := (px+1) * (py+1) * (pz+1).
Definition nd_m3n3k1 (px py pz : nat) :=
  px * (py+1) * (pz+1) + (px+1) * py * (pz+1) + (px+1) * (py+1) * pz.
Definition nd_m3n3k2 (px py pz : nat) :=
  (px+1) * py * pz + px * (py+1) * pz + px * py * (pz+1).
Definition nd_m3n3k3 (px py pz : nat) := px * py * pz.

(** num_local_dof_components/Lambda.py:39-67 *)
Definition ndc_m3n3k0 (px py pz : nat) := [(px+1) * (py+1) * (pz+1)].
Definition ndc_m3n3k1 (px py pz : nat) :=
  [px * (py+1) * (pz+1); (px+1) * py * (pz+1); (px+1) * (py+1) * pz].
Definition ndc_m3n3k2 (px py pz : nat) :=
  [(px+1) * py * pz; px * (py+1) * pz; px * py * (pz+1)].
Definition ndc_m3n3k3 (px py pz : nat) := [px * py * pz].

(** ** Triangles (vtu type 5): the x- side is collapsed into one node *)

(** msehtt ln_m2n2k0.py:43-67 : zeros((px+1,py+1)); rows 1.. are numbered 1.. *)
Definition ln_m2n2k0_tri (px py : nat) (ix : list nat) : option nat :=
  match ix with
  | [0; j] => if j <? py + 1 then Some 0 else None
  | [S i; j] => match ravelF [px; py+1] [i; j] with Some r => Some (1 + r) | None => None end
  | _ => None
  end.

(** msehtt ln_m2n2k1.py:48-87 *)
Definition ln_m2n2k1_outer_tri (px py : nat) :=
  let Px := px * py in
  let Py := px * (py+1) in
  tuple_of [arange_reshape 0 Px [px; py]; arange_reshape Px (Px + Py) [px; py+1]].

(** msehtt ln_m2n2k1.py:131-162 *)
Definition ln_m2n2k1_inner_tri (px py : nat) :=
  let Px := px * (py+1) in
  let Py := px * py in
  tuple_of [arange_reshape 0 Px [px; py+1]; arange_reshape Px (Px + Py) [px; py]].
