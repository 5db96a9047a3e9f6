(** Model of the incidence matrices.

    msepy:  /repo/msepy/space/incidence_matrix/Lambda.py
    msehtt: /repo/msehtt/static/space/incidence_matrix/Lambda/IM_*.py

    A matrix starts as [np.zeros((nr, nc))] and is filled by assignments
    [E[row, col] = value] executed in loop order; a later assignment to the same
    position overwrites an earlier one.  Row and column numbers are looked up in
    numbering arrays; looking outside an array or assigning outside the matrix
    raises (model: [None]).  The per-degree caches and the conversion to csr are
    not modelled. *)
From Coq Require Import Arith List ZArith.
From Verif Require Import NdArray LocalNumberingModel.
Import ListNotations.

Record mat := mk_mat { m_rows : nat; m_cols : nat; m_writes : list (nat * nat * Z) }.

(** value after all assignments: the last write wins, zero otherwise *)
Fixpoint last_write (w : list (nat * nat * Z)) (r c : nat) (acc : Z) : Z :=
  match w with
  | [] => acc
  | (r', c', v) :: w' =>
      last_write w' r c (if (r =? r') && (c =? c') then v else acc)
  end%bool.
Definition entry (m : mat) (r c : nat) : Z := last_write (m_writes m) r c 0%Z.

(** a component of a numbering: its shape and its lookup *)
Definition comp := (list nat * (list nat -> option nat))%type.
Definition of_arr (a : arr) : comp := (a_shape a, aget a).

(** one assignment inside the loop body: column component, column index, value *)
Definition term := (nat * list nat * Z)%type.
Definition body := list nat -> list term.

Definition do_term (nr nc : nat) (sn : list comp) (r : nat) (t : term)
  : option (nat * nat * Z) :=
  let '(c, ix, v) := t in
  match nth_error sn c with
  | Some (_, look) =>
      match look ix with
      | Some col => if (r <? nr) && (col <? nc) then Some (r, col, v) else None
      | None => None
      end
  | None => None
  end%bool.

Fixpoint mapM {A B} (f : A -> option B) (l : list A) : option (list B) :=
  match l with
  | [] => Some []
  | a :: r => match f a, mapM f r with Some b, Some s => Some (b :: s) | _, _ => None end
  end.

Definition do_cell (nr nc : nat) (sn : list comp) (look : list nat -> option nat)
    (b : body) (ix : list nat) : option (list (nat * nat * Z)) :=
  match look ix with
  | Some r => mapM (do_term nr nc sn r) (b ix)
  | None => None
  end.

(** nested loops over one component *)
Definition do_comp (nr nc : nat) (sn : list comp) (db : comp * body)
  : option (list (nat * nat * Z)) :=
  let '((sh, look), b) := db in
  option_map (@concat _) (mapM (do_cell nr nc sn look b) (indices sh)).

Definition fill (nr nc : nat) (dn : list comp) (sn : list comp) (bs : list body)
  : option mat :=
  option_map (fun w => mk_mat nr nc (concat w))
             (mapM (do_comp nr nc sn) (combine dn bs)).

Definition fill_arr (nr nc : nat) (dn sn : option (list arr)) (bs : list body) : option mat :=
  match dn, sn with
  | Some d, Some s => fill nr nc (map of_arr d) (map of_arr s) bs
  | _, _ => None
  end.

Definition b1 (f : nat -> list term) : body :=
  fun ix => match ix with [i] => f i | _ => [] end.
Definition b2 (f : nat -> nat -> list term) : body :=
  fun ix => match ix with [i; j] => f i j | _ => [] end.
Definition b3 (f : nat -> nat -> nat -> list term) : body :=
  fun ix => match ix with [i; j; k] => f i j k | _ => [] end.

Local Open Scope Z_scope.
Local Notation "c # l := v" := ((c%nat, l, v) : term) (at level 70, l at level 0).

(** Lambda.py:227-239.  The code indexes with the loop variable directly; the
    1-D numberings are the identity, which the model looks up. *)
Definition E_m1n1k0 (p : nat) : option mat :=
  fill_arr (nd_m1n1k1 p) (nd_m1n1k0 p) (ln_m1n1k1 p) (ln_m1n1k0 p)
    [b1 (fun i => [0 # [i] := -1; 0 # [(i+1)%nat] := 1])].

(** Lambda.py:141-162 ; IM_m2n2k0.py:251-290 *)
Definition E_m2n2k0_inner (px py : nat) : option mat :=
  fill_arr (nd_m2n2k1 px py) (nd_m2n2k0 px py) (ln_m2n2k1_inner px py) (ln_m2n2k0 px py)
    [b2 (fun i j => [0 # [i; j] := -1; 0 # [(i+1)%nat; j] := 1]);
     b2 (fun i j => [0 # [i; j] := -1; 0 # [i; (j+1)%nat] := 1])].

(** Lambda.py:164-182 ; IM_m2n2k1.py:242-278 *)
Definition E_m2n2k1_inner (px py : nat) : option mat :=
  fill_arr (nd_m2n2k2 px py) (nd_m2n2k1 px py) (ln_m2n2k2 px py) (ln_m2n2k1_inner px py)
    [b2 (fun i j => [1 # [i; j] := -1; 1 # [(i+1)%nat; j] := 1;
                     0 # [i; j] := 1; 0 # [i; (j+1)%nat] := -1])].

(** Lambda.py:184-205 ; IM_m2n2k0.py:54-92 *)
Definition E_m2n2k0_outer (px py : nat) : option mat :=
  fill_arr (nd_m2n2k1 px py) (nd_m2n2k0 px py) (ln_m2n2k1_outer px py) (ln_m2n2k0 px py)
    [b2 (fun i j => [0 # [i; j] := -1; 0 # [i; (j+1)%nat] := 1]);
     b2 (fun i j => [0 # [i; j] := 1; 0 # [(i+1)%nat; j] := -1])].

(** Lambda.py:207-225 ; IM_m2n2k1.py:50-85 *)
Definition E_m2n2k1_outer (px py : nat) : option mat :=
  fill_arr (nd_m2n2k2 px py) (nd_m2n2k1 px py) (ln_m2n2k2 px py) (ln_m2n2k1_outer px py)
    [b2 (fun i j => [0 # [i; j] := -1; 0 # [(i+1)%nat; j] := 1;
                     1 # [i; j] := -1; 1 # [i; (j+1)%nat] := 1])].

(** Lambda.py:106-139 ; IM_m3n3k0.py:41-97 *)
Definition E_m3n3k0 (px py pz : nat) : option mat :=
  fill_arr (nd_m3n3k1 px py pz) (nd_m3n3k0 px py pz) (ln_m3n3k1 px py pz) (ln_m3n3k0 px py pz)
    [b3 (fun i j k => [0 # [i; j; k] := -1; 0 # [(i+1)%nat; j; k] := 1]);
     b3 (fun i j k => [0 # [i; j; k] := -1; 0 # [i; (j+1)%nat; k] := 1]);
     b3 (fun i j k => [0 # [i; j; k] := -1; 0 # [i; j; (k+1)%nat] := 1])].

(** Lambda.py:65-104 ; IM_m3n3k1.py:41-107 *)
Definition E_m3n3k1 (px py pz : nat) : option mat :=
  fill_arr (nd_m3n3k2 px py pz) (nd_m3n3k1 px py pz) (ln_m3n3k2 px py pz) (ln_m3n3k1 px py pz)
    [b3 (fun i j k => [1 # [i; j; k] := 1; 1 # [i; j; (k+1)%nat] := -1;
                       2 # [i; j; k] := -1; 2 # [i; (j+1)%nat; k] := 1]);
     b3 (fun i j k => [0 # [i; j; k] := -1; 0 # [i; j; (k+1)%nat] := 1;
                       2 # [i; j; k] := 1; 2 # [(i+1)%nat; j; k] := -1]);
     b3 (fun i j k => [0 # [i; j; k] := 1; 0 # [i; (j+1)%nat; k] := -1;
                       1 # [i; j; k] := -1; 1 # [(i+1)%nat; j; k] := 1])].

(** Lambda.py:41-63 ; IM_m3n3k2.py:41-80 *)
Definition E_m3n3k2 (px py pz : nat) : option mat :=
  fill_arr (nd_m3n3k3 px py pz) (nd_m3n3k2 px py pz) (ln_m3n3k3 px py pz) (ln_m3n3k2 px py pz)
    [b3 (fun i j k => [0 # [i; j; k] := -1; 0 # [(i+1)%nat; j; k] := 1;
                       1 # [i; j; k] := -1; 1 # [i; (j+1)%nat; k] := 1;
                       2 # [i; j; k] := -1; 2 # [i; j; (k+1)%nat] := 1])].

(** ** triangles *)

Definition tri0 (px py : nat) : comp := ([(px+1)%nat; (py+1)%nat], ln_m2n2k0_tri px py).

(** IM_m2n2k0.py:126-216 (without reversed faces); the matrix sizes are the
    code's: num_local_dof_0f = px*(py+1)+1, num_local_dof_1f = px*py + px*(py+1) *)
Definition E_tri_k0_outer (px py : nat) : option mat :=
  match ln_m2n2k1_outer_tri px py with
  | Some d =>
    fill (px*py + px*(py+1))%nat (px*(py+1) + 1)%nat (map of_arr d) [tri0 px py]
    [b2 (fun i j => [0 # [(i+1)%nat; j] := -1; 0 # [(i+1)%nat; (j+1)%nat] := 1]);
     b2 (fun i j => [0 # [i; j] := 1; 0 # [(i+1)%nat; j] := -1])]
  | None => None
  end.

(** IM_m2n2k1.py:119-209 *)
Definition E_tri_k1_outer (px py : nat) : option mat :=
  fill_arr (px*py)%nat (px*py + px*(py+1))%nat (ln_m2n2k2 px py) (ln_m2n2k1_outer_tri px py)
    [b2 (fun i j => (match i with O => [] | S i' => [0 # [i'; j] := -1] end) ++
                    [0 # [i; j] := 1; 1 # [i; j] := -1; 1 # [i; (j+1)%nat] := 1])].

(** IM_m2n2k0.py:325-416 ; num_local_dof_1f = (px+1)*py + px*py as in the code *)
Definition E_tri_k0_inner (px py : nat) : option mat :=
  match ln_m2n2k1_inner_tri px py with
  | Some d =>
    fill ((px+1)*py + px*py)%nat (px*(py+1) + 1)%nat (map of_arr d) [tri0 px py]
    [b2 (fun i j => [0 # [i; j] := -1; 0 # [(i+1)%nat; j] := 1]);
     b2 (fun i j => [0 # [(i+1)%nat; j] := -1; 0 # [(i+1)%nat; (j+1)%nat] := 1])]
  | None => None
  end.

(** IM_m2n2k1.py:312-402 *)
Definition E_tri_k1_inner (px py : nat) : option mat :=
  fill_arr (px*py)%nat ((px+1)*py + px*py)%nat (ln_m2n2k2 px py) (ln_m2n2k1_inner_tri px py)
    [b2 (fun i j => (match i with O => [] | S i' => [1 # [i'; j] := -1] end) ++
                    [1 # [i; j] := 1; 0 # [i; j] := 1; 0 # [i; (j+1)%nat] := -1])].

(** reversed faces (IM_m2n2k0.py:104-120, IM_m2n2k1.py:97-113 and alike):
    [new_E = E.copy(); for fi in faces: new_E[dofs, :] = -1 * E[dofs, :]] *)
Definition inb (x : nat) (l : list nat) : bool := existsb (Nat.eqb x) l.
Definition reversed (dofs_of_faces : list (list nat)) (d : nat) : bool :=
  existsb (inb d) dofs_of_faces.
Definition reverse_rows (fs : list (list nat)) (E : nat -> nat -> Z) (r c : nat) : Z :=
  fold_left (fun acc f => if inb r f then -1 * E r c else acc) fs (E r c).
Definition reverse_cols (fs : list (list nat)) (E : nat -> nat -> Z) (r c : nat) : Z :=
  fold_left (fun acc f => if inb c f then -1 * E r c else acc) fs (E r c).
