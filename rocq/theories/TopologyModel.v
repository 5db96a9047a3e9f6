(** Model of the corner topology of 2-D meshes: /repo/msepy/mesh/topology/main.py
    Corners: 0 = UL, 1 = DL, 2 = UR, 3 = DR ([c_i2n], line 96); sides: 0 = U, 1 = D,
    2 = L, 3 = R ([e_n2i], line 208).  The strings "element-corner" are pairs. *)
From Coq Require Import Arith List ZArith Bool.
From Verif Require Import NdArray IncidenceModel GatherModel.
Import ListNotations.

(** [seek_sequence_1], 194-199: the sides to cross and the corner reached *)
Definition seek1 (c : nat) : list (nat * nat) :=
  match c with
  | 0 => [(2, 2); (0, 3); (3, 1)]      (* 'UL': '[L=UR]->[U=DR]->[R=DL]' *)
  | 1 => [(2, 3); (1, 2); (3, 0)]      (* 'DL': '[L=DR]->[D=UR]->[R=UL]' *)
  | 2 => [(0, 3); (3, 1); (1, 0)]      (* 'UR': '[U=DR]->[R=DL]->[D=UL]' *)
  | _ => [(3, 1); (1, 0); (2, 2)]      (* 'DR': '[R=DL]->[D=UL]->[L=UR]' *)
  end.
(** [seek_sequence_2], 201-206 *)
Definition seek2 (c : nat) : list (nat * nat) :=
  match c with
  | 0 => [(0, 1); (2, 3); (1, 2)]      (* 'UL': '[U=DL]->[L=DR]->[D=UR]' *)
  | 1 => [(1, 0); (2, 2); (0, 3)]      (* 'DL': '[D=UL]->[L=UR]->[U=DR]' *)
  | 2 => [(3, 0); (0, 1); (2, 3)]      (* 'UR': '[R=UL]->[U=DL]->[L=DR]' *)
  | _ => [(1, 2); (3, 0); (0, 1)]      (* 'DR': '[D=UR]->[R=UL]->[U=DL]' *)
  end.

Definition pair_eqb (a b : nat * nat) : bool := (fst a =? fst b) && (snd a =? snd b).
(** 215-224: stop at a boundary, append what is not yet there *)
Fixpoint seek (mp : nat -> nat -> option nat) (i : nat) (ss : list (nat * nat)) (out : list (nat * nat))
  : list (nat * nat) :=
  match ss with
  | [] => out
  | (side, corner) :: r =>
      match mp i side with
      | None => out
      | Some j => seek mp j r (if existsb (pair_eqb (j, corner)) out then out else out ++ [(j, corner)])
      end
  end.
(** 170-225 [_find_the_elements_sharing_corner] *)
Definition sharing_corner (mp : nat -> nat -> option nat) (i c : nat) : list (nat * nat) :=
  seek mp i (seek2 c) (seek mp i (seek1 c) [(i, c)]).

(** 94-123: corner numbers and their attachments *)
Definition topo := (writes * list (list (nat * nat)))%type.
Definition do_corner (mp : nat -> nat -> option nat) (i k : nat) (t : topo) : topo :=
  let (w, att) := t in
  if (look (-1) w i [k] =? -1)%Z
  then let out := sharing_corner mp i k in
       (fold_left (fun w ec => write w (fst ec) [([snd ec], Z.of_nat (length att))]) out w, att ++ [out])
  else t.
Definition corners (mp : nat -> nat -> option nat) (N : nat) : topo :=
  fold_left (fun t i => fold_left (fun t k => do_corner mp i k t) [0; 1; 2; 3] t) (seq 0 N) ([], []).
(** [gac[ngc[e][c]]]; a KeyError is not possible, see [attachments_total] *)
Definition corner_attachment (mp : nat -> nat -> option nat) (N : nat) (e c : nat) : option (list (nat * nat)) :=
  let (w, att) := corners mp N in
  let v := look (-1) w e [c] in
  if (v <? 0)%Z then None else nth_error att (Z.to_nat v).

(** the whole of [_m2_n2_k0]: numbering with these attachments *)
Definition gm_m2n2k0_mesh (N : nat) (mp : nat -> nat -> option nat) (px py : nat) : option (list (list Z)) :=
  gm_m2n2k0 N mp (fun e c => match corner_attachment mp N e c with Some l => l | None => [] end) px py.
