(** Model of the basis functions on triangles, seen as squares whose side x- is one point.

    /repo/msehtt/static/space/basis_function/Lambda/bf_m2n2k0.py 50-94,
    bf_m2n2k1.py 60-98 and 148-186; numbers of dofs: num_local_dofs/Lambda/*.py.
    Matrices as in TensorModel.v. *)
From Coq Require Import List Arith Reals.
From Verif Require Import PolyModel LocalNumberingModel TensorModel.
Import ListNotations.
Local Open Scope R_scope.

(** A[1:, :] *)
Definition rows_from_1 (A : fm) : fm := mk_fm (fm_rows A - 1) (fm_cols A) (fun i c => fm_at A (S i) c).
(** total_index[0, j] and total_index[1:, :].ravel('F')[q] for total_index = arange((px+1)*(py+1)).reshape((px+1, py+1), order='F') *)
Definition first_row (px j : nat) : nat := (0 + (px + 1) * j)%nat.
Definition other_rows (px q : nat) : nat := (S (q mod px) + (px + 1) * (q / px))%nat.
(** np.vstack([np.sum(bf[sum_index, :], axis=0), bf[other_indices, :]]) *)
Definition bf_tri_m2n2k0 (sx sy xi et : list R) : list fm :=
  let px := degree sx in let py := degree sy in
  let bf := kron (node_m sy et) (node_m sx xi) in
  [mk_fm (1 + px * (py + 1)) (fm_cols bf)
         (fun r c => match r with
                     | O => np_sum (py + 1) (fun j => fm_at bf (first_row px j) c)
                     | S q => fm_at bf (other_rows px q) c
                     end)].
Definition bf_tri_m2n2k1_outer (sx sy xi et : list R) : list fm :=
  [kron (edge_m sy et) (rows_from_1 (node_m sx xi)); kron (node_m sy et) (edge_m sx xi)].
Definition bf_tri_m2n2k1_inner (sx sy xi et : list R) : list fm :=
  [kron (node_m sy et) (edge_m sx xi); kron (edge_m sy et) (rows_from_1 (node_m sx xi))].

(** reconstruction on one element with the identity as Jacobian matrix, as for quadrilaterals *)
Definition rc_tri_m2n2k0 (sx sy xi et c : list R) :=
  reconstruct (bf_tri_m2n2k0 sx sy xi et) [(1 + degree sx * (degree sy + 1))%nat] c.
Definition rc_tri_m2n2k1_outer (sx sy xi et c : list R) :=
  reconstruct (bf_tri_m2n2k1_outer sx sy xi et) [(degree sx * degree sy)%nat; (degree sx * (degree sy + 1))%nat] c.
Definition rc_tri_m2n2k1_inner (sx sy xi et c : list R) :=
  reconstruct (bf_tri_m2n2k1_inner sx sy xi et) [(degree sx * (degree sy + 1))%nat; (degree sx * degree sy)%nat] c.
