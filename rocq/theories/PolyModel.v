(** Model of the one-dimensional basis polynomials.

    /repo/msepy/tools/polynomials.py, class _OneDimPolynomial (used by msepy and
    msehtt for every space).

    Scalars are the real numbers: rounding of floating point numbers is not
    modelled.  A numpy matrix is a function of the row and column number; the
    code only touches rows and columns below the sizes.  The memory of earlier
    evaluations (ndarray caches) is added separately at the end of this file. *)
From Coq Require Import List Arith Reals Bool.
Import ListNotations.
Local Open Scope R_scope.

(** [nodes[i]]; the theorems only look at i < size *)
Definition node (xs : list R) (i : nat) : R := nth i xs 0.

(** numpy reductions over range(n) *)
Definition np_sum (n : nat) (f : nat -> R) : R := fold_left (fun a j => a + f j) (seq 0 n) 0.
Definition np_prod (n : nat) (f : nat -> R) : R := fold_left (fun a j => a * f j) (seq 0 n) 1.

Definition Rltb (a b : R) : bool := if Rlt_dec a b then true else false.
Definition Reqb (a b : R) : bool := if Req_EM_T a b then true else false.

(** np.all(np.diff(nodes) > 0), line 64 *)
Fixpoint diffs_positive (xs : list R) : bool :=
  match xs with
  | a :: ((b :: _) as r) => Rltb 0 (b - a) && diffs_positive r
  | _ => true
  end.
(** np.max, np.min: an error for an empty array, lines 64 *)
Definition np_max (xs : list R) : option R :=
  match xs with [] => None | a :: r => Some (fold_left Rmax r a) end.
Definition np_min (xs : list R) : option R :=
  match xs with [] => None | a :: r => Some (fold_left Rmin r a) end.

(** _OneDimPolynomial.__init__, lines 58-76: [None] = assertion error or error *)
Definition one_dim_polynomial (xs : list R) : option (list R) :=
  if diffs_positive xs then
    match np_max xs, np_min xs with
    | Some a, Some b => if Reqb a 1 && Reqb b (-1) then Some xs else None
    | _, _ => None
    end
  else None.

(** p, lines 74 and 88-91 *)
Definition degree (xs : list R) : nat := length xs - 1.

(** lagrange_basis, lines 116-122: basis[i, :] at one point x.  The loop over j
    multiplies into basis[i, :], which starts as one. *)
Definition lagrange (xs : list R) (i : nat) (x : R) : R :=
  fold_left (fun b j => if Nat.eqb i j then b
                        else b * ((x - node xs j) / (node xs i - node xs j)))
            (seq 0 (length xs)) 1.

(** __derivative_poly_nodes__, lines 195-210 *)
Definition xi_xj (xs : list R) (i j : nat) : R :=
  if Nat.eqb i j then 1 else node xs i - node xs j.
Definition c_i (p : nat) (xs : list R) (i : nat) : R := np_prod (p + 1) (fun j => xi_xj xs i j).
Definition transpose (m : nat -> nat -> R) (i j : nat) : R := m j i.
Definition c_i_div_cj (p : nat) (xs : list R) : nat -> nat -> R :=
  transpose (fun i j => c_i p xs j / c_i p xs i).
Definition offdiagonal (p : nat) (xs : list R) (i j : nat) : R :=
  if Nat.eqb i j then 0 else c_i_div_cj p xs i j / xi_xj xs i j.
Definition nodal_derivative (p : nat) (xs : list R) (i j : nat) : R :=
  if Nat.eqb i j then - np_sum (p + 1) (fun k => offdiagonal p xs i k)
  else offdiagonal p xs i j.

(** _derivative_poly_, lines 212-216: row j of (nodal_derivative)^T @ polynomials *)
Definition derivative_poly (p : nat) (xs : list R) (j : nat) (x : R) : R :=
  np_sum (p + 1) (fun k => transpose (nodal_derivative p xs) j k * lagrange xs k x).

(** edge_basis, lines 135-140: edge_poly[i] at one point x *)
Definition edge (xs : list R) (i : nat) (x : R) : R :=
  let p := (length xs - 1)%nat in
  fold_left (fun e j => e - derivative_poly p xs j x) (seq 0 (i + 1)) 0.

(** the two returned matrices: one row per basis function, one column per point *)
Definition lagrange_basis (xs pts : list R) : list (list R) :=
  map (fun i => map (lagrange xs i) pts) (seq 0 (length xs)).
Definition edge_basis (xs pts : list R) : list (list R) :=
  map (fun i => map (edge xs i) pts) (seq 0 (length xs - 1)).
