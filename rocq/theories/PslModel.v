(** Model of the periodic slice, /repo/msehtt/static/mesh/great/config/specific_meshes/periodic_slice.py, and of
    the check of the faces of a mesh, /repo/msehtt/static/mesh/great/main.py:1377-1438
    (`_check_global_element_map_dict`), for meshes of orthogonal hexahedra.
    Numbers are rationals without rounding errors. *)
From Coq Require Import Arith ZArith QArith List Bool.
From Verif Require Import Dict GmModel UnModel.
Import ListNotations.
Local Open Scope nat_scope.

(** element_layout: a number or a list of numbers (periodic_slice.py:30-36) *)
Inductive layout := One (k : Z) | Many (l : list Z).
(** the entry of a mesh: `origin`, `delta`, and the element map *)
Record brick := { b_origin : Q * Q * Q; b_delta : Q * Q * Q; b_map : list nat }.

(** np.linspace(a, b, n + 1)[i] *)
Definition linspace (a b : Q) (n i : nat) : Q :=
  (a + inject_Z (Z.of_nat i) * ((b - a) / inject_Z (Z.of_nat n)))%Q.

(** an integer array of two or three axes; it is read only inside its shape *)
Definition lt2 (i j ni nj : nat) : bool := (i <? ni) && (j <? nj).
(** periodic_slice.py:58-62; part_numbering[i, j] = i + j * nx (order 'F') *)
Definition nodes2 (nx ny : nat) : nat -> nat -> Z :=
  let part i j := Z.of_nat (i + j * nx) in
  let a0 := fun _ _ : nat => (-1)%Z in
  let a1 := fun i j => if lt2 i j nx ny then part i j else a0 i j in
  let a2 := fun i j => if (i =? nx) && (j <? ny) then part 0 j else a1 i j in
  fun i j => if j =? ny then a2 i 0 else a2 i j.
(** 93-101 *)
Definition nodes3 (nx ny nz : nat) : nat -> nat -> nat -> Z :=
  let part i j k := Z.of_nat (i + j * nx + k * (nx * ny)) in
  let a0 := fun _ _ _ : nat => (-1)%Z in
  let a1 := fun i j k => if lt2 i j nx ny && (k <? nz) then part i j k else a0 i j k in
  let a2 := fun i j k => if (i =? nx) && (j <? ny) && (k <? nz) then part 0 j k else a1 i j k in
  let a3 := fun i j k => if (j =? ny) && (k <? nz) then a2 i 0 k else a2 i j k in
  fun i j k => if k =? nz then a3 i j 0 else a3 i j k.
(** 64, 103: `-1 not in nodes_numbering` *)
Definition full2 (nx ny : nat) (a : nat -> nat -> Z) : bool :=
  forallb (fun i => forallb (fun j => negb (Z.eqb (a i j) (-1))) (seq 0 (ny + 1))) (seq 0 (nx + 1)).
Definition full3 (nx ny nz : nat) (a : nat -> nat -> nat -> Z) : bool :=
  forallb (fun i => forallb (fun j => forallb (fun k => negb (Z.eqb (a i j k) (-1))) (seq 0 (nz + 1))) (seq 0 (ny + 1))) (seq 0 (nx + 1)).

Section Elements.
  Context (x0 x1 y0 y1 th : Q) (nx ny nz : nat).
  Definition sx := linspace x0 x1 nx.
  Definition sy := linspace y0 y1 ny.
  (** 52: np.linspace(-thickness / 2, thickness / 2, levels + 1) *)
  Definition sz := linspace (- th / 2)%Q (th / 2)%Q nz.
  (** 70-91 *)
  Definition elements2 (a : nat -> nat -> Z) : list (nat * brick) :=
    flat_map (fun j => map (fun i =>
      (i + j * nx,
       {| b_origin := (sx i, sy j, (- th / 2)%Q);
          b_delta := ((sx (i + 1) - sx i)%Q, (sy (j + 1) - sy j)%Q, th);
          b_map := map Z.to_nat [a i j; a (i + 1) j; a i (j + 1); a (i + 1) (j + 1);
                                 a i j; a (i + 1) j; a i (j + 1); a (i + 1) (j + 1)] |}))
      (seq 0 nx)) (seq 0 ny).
  (** 109-136 *)
  Definition elements3 (a : nat -> nat -> nat -> Z) : list (nat * brick) :=
    flat_map (fun k => flat_map (fun j => map (fun i =>
      (i + j * nx + k * nx * ny,
       {| b_origin := (sx i, sy j, sz k);
          b_delta := ((sx (i + 1) - sx i)%Q, (sy (j + 1) - sy j)%Q, (sz (k + 1) - sz k)%Q);
          b_map := map Z.to_nat [a i j k; a (i + 1) j k; a i (j + 1) k; a (i + 1) (j + 1) k;
                                 a i j (k + 1); a (i + 1) j (k + 1); a i (j + 1) (k + 1); a (i + 1) (j + 1) (k + 1)] |}))
      (seq 0 nx)) (seq 0 ny)) (seq 0 nz).
End Elements.

(** 7-139; None: an assertion fails or an exception is raised.  The dictionaries of types ('orthogonal
    hexahedron' everywhere), parameters and maps have the same keys and are one dictionary here. *)
Definition Qltb (a b : Q) : bool := negb (Qle_bool b a).
Definition periodic_slice (lay : layout) (x0 x1 y0 y1 th : Q) (levels : Z) : option (list (nat * brick)) :=
  if Qltb 0 th && Qltb x0 x1 && Qltb y0 y1 && (1 <=? levels)%Z then
    match (match lay with One k => [k; k] | Many l => l end) with
    | [k0; k1] =>
        if (0 <? k0)%Z && (0 <? k1)%Z then
          let nx := Z.to_nat k0 in let ny := Z.to_nat k1 in let nz := Z.to_nat levels in
          if nz =? 1 then
            if full2 nx ny (nodes2 nx ny) then Some (elements2 x0 x1 y0 y1 th nx ny (nodes2 nx ny)) else None
          else
            if full3 nx ny nz (nodes3 nx ny nz) then Some (elements3 x0 x1 y0 y1 th nx ny nz (nodes3 nx ny nz)) else None
        else None
    | _ => None
    end
  else None.

(** what the numberings see of the mesh: types and element maps; the whole mesh is numbered *)
Definition hexes_of (m : list (nat * brick)) : list (nat * elem) :=
  map (fun eb => (fst eb, {| e_type := EOrthHex; e_map := b_map (snd eb); e_in := true |})) m.

(** ** the check of faces *)
(** orthogonal_hexahedron.py:101-110 *)
Definition face_setting : list (nat * list nat) :=
  [(0, [0; 2; 4; 6]); (1, [1; 3; 5; 7]); (2, [0; 1; 4; 5]); (3, [2; 3; 6; 7]); (4, [0; 1; 2; 3]); (5, [4; 5; 6; 7])].
Fixpoint ins (x : nat) (l : list nat) : list nat :=
  match l with [] => [x] | y :: r => if x <=? y then x :: l else y :: ins x r end.
Fixpoint sort (l : list nat) : list nat := match l with [] => [] | x :: r => ins x (sort r) end.
(** main.py:1401-1413: one face; a position is an element and a face of it *)
Notation facepool := (dict (list nat) (list (nat * nat))).
Definition add_face (p : facepool) (key : list nat) (pos : nat * nat) : facepool :=
  match get sig_eqb p key with
  | Some l => put sig_eqb p key (l ++ [pos])
  | None => put sig_eqb p key [pos]
  end.
Definition faces_of (eb : nat * brick) : list (list nat * (nat * nat)) :=
  map (fun f => (sort (map (fun i => nth i (b_map (snd eb)) 0) (snd f)), (fst eb, fst f))) face_setting.
(** 1384-1413 *)
Definition face_pool (m : list (nat * brick)) : facepool :=
  fold_left (fun p eb => fold_left (fun p kp => add_face p (fst kp) (snd kp)) (faces_of eb) p) m [].
(** 1415-1438: whether the warning is printed *)
Definition warns (m : list (nat * brick)) : bool := existsb (fun kv => negb (length (snd kv) <=? 2)) (face_pool m).
