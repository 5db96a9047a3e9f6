(** Model of the evaluation of a form on one element with the reference
    coordinates as physical coordinates.

    basis functions: /repo/msepy/space/basis_functions/Lambda.py 51-213,
                     /repo/msehtt/static/space/basis_function/Lambda/bf_*.py
    reconstruction:  /repo/msepy/space/reconstruct/Lambda.py (one element, the
                     Jacobian matrix is the identity), einsum and reshape.

    A numpy matrix is its shape and its entries as a function.  The caches of
    the basis functions are not modelled here.  The transformations with the
    inverse Jacobian matrix are in JacobianModel.v. *)
From Coq Require Import List Arith Reals.
From Verif Require Import PolyModel LocalNumberingModel.
Import ListNotations.
Local Open Scope R_scope.

Record fm := mk_fm { fm_rows : nat; fm_cols : nat; fm_at : nat -> nat -> R }.

(** np.kron(A, B)[i * rows(B) + k, j * cols(B) + l] = A[i, j] * B[k, l] *)
Definition kron (A B : fm) : fm :=
  mk_fm (fm_rows A * fm_rows B) (fm_cols A * fm_cols B)
        (fun r c => fm_at A (r / fm_rows B) (c / fm_cols B) * fm_at B (r mod fm_rows B) (c mod fm_cols B)).

(** node_basis(x), edge_basis(x) as matrices *)
Definition node_m (xs pts : list R) : fm := mk_fm (length xs) (length pts) (fun i c => lagrange xs i (nth c pts 0)).
Definition edge_m (xs pts : list R) : fm := mk_fm (length xs - 1) (length pts) (fun i c => edge xs i (nth c pts 0)).

(** the matrices of basis functions, one per component *)
(** Lambda.py:205-208 *)
Definition bf_m1n1k1 (sx xi : list R) : list fm := [edge_m sx xi].
(** 210-213 *)
Definition bf_m1n1k0 (sx xi : list R) : list fm := [node_m sx xi].
(** 195-203 ; bf_m2n2k0.py *)
Definition bf_m2n2k0 (sx sy xi et : list R) : list fm := [kron (node_m sy et) (node_m sx xi)].
(** 141-152 ; bf_m2n2k1.py *)
Definition bf_m2n2k1_inner (sx sy xi et : list R) : list fm :=
  [kron (node_m sy et) (edge_m sx xi); kron (edge_m sy et) (node_m sx xi)].
(** 154-165 ; bf_m2n2k1.py *)
Definition bf_m2n2k1_outer (sx sy xi et : list R) : list fm :=
  [kron (edge_m sy et) (node_m sx xi); kron (node_m sy et) (edge_m sx xi)].
(** 131-139 ; bf_m2n2k2.py *)
Definition bf_m2n2k2 (sx sy xi et : list R) : list fm := [kron (edge_m sy et) (edge_m sx xi)].
(** 118-129 ; bf_m3n3k0.py *)
Definition bf_m3n3k0 (sx sy sz xi et sg : list R) : list fm :=
  [kron (kron (node_m sz sg) (node_m sy et)) (node_m sx xi)].
(** 94-116 ; bf_m3n3k1.py *)
Definition bf_m3n3k1 (sx sy sz xi et sg : list R) : list fm :=
  [kron (kron (node_m sz sg) (node_m sy et)) (edge_m sx xi);
   kron (kron (node_m sz sg) (edge_m sy et)) (node_m sx xi);
   kron (kron (edge_m sz sg) (node_m sy et)) (node_m sx xi)].
(** 68-92 ; bf_m3n3k2.py *)
Definition bf_m3n3k2 (sx sy sz xi et sg : list R) : list fm :=
  [kron (kron (edge_m sz sg) (edge_m sy et)) (node_m sx xi);
   kron (kron (edge_m sz sg) (node_m sy et)) (edge_m sx xi);
   kron (kron (node_m sz sg) (edge_m sy et)) (edge_m sx xi)].
(** 51-66 ; bf_m3n3k3.py *)
Definition bf_m3n3k3 (sx sy sz xi et sg : list R) : list fm :=
  [kron (kron (edge_m sz sg) (edge_m sy et)) (edge_m sx xi)].

(** np.einsum('ij, i -> j', bf, c): raises unless the sizes match *)
Definition einsum (bf : fm) (c : list R) : option (list R) :=
  if Nat.eqb (length c) (fm_rows bf)
  then Some (map (fun j => np_sum (fm_rows bf) (fun i => fm_at bf i j * nth i c 0)) (seq 0 (fm_cols bf)))
  else None.

(** python slices c[a:b] with 0 <= a, b, and c[-n:] *)
Definition slice (a b : nat) (c : list R) : list R := firstn (b - a) (skipn a c).
Definition slice_last (n : nat) (c : list R) : list R :=
  match n with O => c | _ => skipn (length c - n) c end.

(** the local cochains of the components, reconstruct/Lambda.py:
    1 component: all;  2: 96-98;  3: 329-332 *)
Definition split_cochain (nc : list nat) (c : list R) : list (list R) :=
  match nc with
  | [n0; n1] => [slice 0 n0 c; slice n0 (length c) c]
  | [n0; n1; n2] => [slice 0 n0 c; slice n0 (n0 + n1) c; slice_last n2 c]
  | _ => [c]
  end.

Fixpoint einsums (bfs : list fm) (cs : list (list R)) : option (list (list R)) :=
  match bfs, cs with
  | b :: br, c :: cr => match einsum b c, einsums br cr with Some v, Some r => Some (v :: r) | _, _ => None end
  | _, _ => Some []
  end.

(** the values of all components at all points of the grid, ravelled *)
Definition reconstruct (bfs : list fm) (nc : list nat) (c : list R) : option (list (list R)) :=
  einsums bfs (split_cochain nc c).

(** reshape(shape, order='F')[a, b] and [a, b, k]: the position in the ravelled array *)
Definition at_2d (v : list R) (na a b : nat) : R := nth (a + na * b) v 0.
Definition at_3d (v : list R) (na nb a b k : nat) : R := nth (a + na * (b + nb * k)) v 0.

Definition rc_m1n1k0 (sx xi c : list R) := reconstruct (bf_m1n1k0 sx xi) (ndc_m1n1k0 (degree sx)) c.
Definition rc_m1n1k1 (sx xi c : list R) := reconstruct (bf_m1n1k1 sx xi) (ndc_m1n1k1 (degree sx)) c.
Definition rc_m2n2k0 (sx sy xi et c : list R) :=
  reconstruct (bf_m2n2k0 sx sy xi et) (ndc_m2n2k0 (degree sx) (degree sy)) c.
Definition rc_m2n2k1_inner (sx sy xi et c : list R) :=
  reconstruct (bf_m2n2k1_inner sx sy xi et) (ndc_m2n2k1_inner (degree sx) (degree sy)) c.
Definition rc_m2n2k1_outer (sx sy xi et c : list R) :=
  reconstruct (bf_m2n2k1_outer sx sy xi et) (ndc_m2n2k1_outer (degree sx) (degree sy)) c.
Definition rc_m2n2k2 (sx sy xi et c : list R) :=
  reconstruct (bf_m2n2k2 sx sy xi et) (ndc_m2n2k2 (degree sx) (degree sy)) c.
Definition rc_m3n3k0 (sx sy sz xi et sg c : list R) :=
  reconstruct (bf_m3n3k0 sx sy sz xi et sg) (ndc_m3n3k0 (degree sx) (degree sy) (degree sz)) c.
Definition rc_m3n3k1 (sx sy sz xi et sg c : list R) :=
  reconstruct (bf_m3n3k1 sx sy sz xi et sg) (ndc_m3n3k1 (degree sx) (degree sy) (degree sz)) c.
Definition rc_m3n3k2 (sx sy sz xi et sg c : list R) :=
  reconstruct (bf_m3n3k2 sx sy sz xi et sg) (ndc_m3n3k2 (degree sx) (degree sy) (degree sz)) c.
Definition rc_m3n3k3 (sx sy sz xi et sg c : list R) :=
  reconstruct (bf_m3n3k3 sx sy sz xi et sg) (ndc_m3n3k3 (degree sx) (degree sy) (degree sz)) c.
