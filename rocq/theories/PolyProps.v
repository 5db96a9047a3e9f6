(** C45: one-dimensional nodal and edge polynomials. *)
From Coq Require Import List ZArith QArith Qcanon Reals Lia Lra Qreals Qabs.
From Coquelicot Require Import Coquelicot.
From Verif Require Import NdCacheModel NdCacheSpec PolyCacheModel PolyModel PolySpec PolyProofs PolyCalc PolyCacheThms PolyTextThms.
Import ListNotations.
Local Open Scope R_scope.

(** Exactly the increasing sequences from -1 to 1 are accepted as nodes. *)
Theorem poly_accepted_nodes xs ys :
  one_dim_polynomial xs = Some ys <->
  ys = xs /\ (2 <= length xs)%nat /\ increasing xs /\ nth 0 xs 0 = -1 /\ nth (length xs - 1) xs 0 = 1.
Proof. exact (@one_dim_polynomial_spec xs ys). Qed.
Print Assumptions poly_accepted_nodes.

(** Nodal polynomials are Kronecker deltas on the nodes. *)
Theorem poly_kronecker xs i k : increasing xs -> (i < length xs)%nat -> (k < length xs)%nat ->
  lagrange xs i (node xs k) = kronecker i k.
Proof. exact (@lagrange_node xs i k). Qed.
Print Assumptions poly_kronecker.

(** The nodal polynomials have degree at most p; the sum with the nodal values of a polynomial of degree at most p is this polynomial, so the nodal basis spans the polynomials of degree p. *)
Theorem poly_nodal_degree xs i : (i < length xs)%nat -> poly_of_size (length xs) (lagrange xs i).
Proof. exact (ps_lagrange xs i). Qed.
Print Assumptions poly_nodal_degree.

(** Interpolation in the nodes is exact for polynomials of degree at most p. *)
Theorem poly_nodal_exact xs f : increasing xs -> poly_of_size (length xs) f ->
  forall x, combine_basis (length xs) (lagrange xs) (fun j => f (node xs j)) x = f x.
Proof. exact (@interpolate xs f). Qed.
Print Assumptions poly_nodal_exact.

(** The nodal polynomials sum to one. *)
Theorem poly_partition_of_unity xs : increasing xs -> (1 <= length xs)%nat -> forall x, total (length xs) (fun j => lagrange xs j x) = 1.
Proof. exact (@partition_of_unity_lemma xs). Qed.
Print Assumptions poly_partition_of_unity.

(** The nodal values of a reconstruction are its coefficients. *)
Theorem poly_nodal_reduction xs c : increasing xs -> forall k, (k < length xs)%nat -> combine_basis (length xs) (lagrange xs) c (node xs k) = c k.
Proof. exact (@nodal_values xs c). Qed.
Print Assumptions poly_nodal_reduction.

(** Different coefficients give different functions. *)
Theorem poly_nodal_unique xs c d : increasing xs ->
  (forall x, combine_basis (length xs) (lagrange xs) c x = combine_basis (length xs) (lagrange xs) d x) ->
  forall k, (k < length xs)%nat -> c k = d k.
Proof. exact (@nodal_unique xs c d). Qed.
Print Assumptions poly_nodal_unique.

(** The computed derivative (nodal derivative matrix, diagonal by negative row sums) is the derivative. *)
Theorem poly_derivative xs j x : increasing xs -> (j < length xs)%nat ->
  is_derive (lagrange xs j) x (derivative_poly (degree xs) xs j x).
Proof. intros H Hj. exact (derivative_poly_derive xs H ltac:(lia) j x Hj). Qed.
Print Assumptions poly_derivative.

(** Edge polynomials have degree at most p - 1. *)
Theorem poly_edge_degree xs i : increasing xs -> (1 <= length xs)%nat -> (i < degree xs)%nat -> poly_of_size (length xs - 1) (edge xs i).
Proof. intros H L Hi. exact (ps_edge xs H L i Hi). Qed.
Print Assumptions poly_edge_degree.

(** Integrals of edge polynomials between neighbouring nodes are Kronecker deltas. *)
Theorem poly_edge_kronecker xs i k : increasing xs -> (1 <= length xs)%nat -> (i < degree xs)%nat -> (k < degree xs)%nat ->
  is_RInt (edge xs i) (nth k xs 0) (nth (S k) xs 0) (kronecker i k).
Proof. intros H L Hi Hk. exact (edge_integral xs H L i k Hi Hk). Qed.
Print Assumptions poly_edge_kronecker.

(** The derivative of the nodal reconstruction is the edge reconstruction of the differences. *)
Theorem poly_derivative_of_reconstruction xs c x : increasing xs -> (1 <= length xs)%nat ->
  is_derive (combine_basis (length xs) (lagrange xs) c) x (combine_basis (degree xs) (edge xs) (fun i => c (S i) - c i) x).
Proof. intros H L. exact (nodal_reconstruction_derive xs H L c x). Qed.
Print Assumptions poly_derivative_of_reconstruction.

(** The integrals of an edge reconstruction are its coefficients. *)
Theorem poly_edge_reduction xs c k : increasing xs -> (1 <= length xs)%nat -> (k < degree xs)%nat ->
  is_RInt (combine_basis (degree xs) (edge xs) c) (nth k xs 0) (nth (S k) xs 0) (c k).
Proof. intros H L Hk. exact (edge_reduction xs H L c k Hk). Qed.
Print Assumptions poly_edge_reduction.

(** Polynomials of degree at most p - 1 are reconstructed from their integrals. *)
Theorem poly_edge_exact xs f c : increasing xs -> (1 <= length xs)%nat -> poly_of_size (length xs - 1) f ->
  (forall k, (k < degree xs)%nat -> is_RInt f (nth k xs 0) (nth (S k) xs 0) (c k)) ->
  forall x, combine_basis (degree xs) (edge xs) c x = f x.
Proof. intros H L Hf Hc. exact (edge_exact xs H L f Hf c Hc). Qed.
Print Assumptions poly_edge_exact.

Theorem poly_edge_unique xs c d : increasing xs -> (1 <= length xs)%nat ->
  (forall x, combine_basis (degree xs) (edge xs) c x = combine_basis (degree xs) (edge xs) d x) -> forall k, (k < degree xs)%nat -> c k = d k.
Proof. intros H L. exact (edge_unique xs H L c d). Qed.
Print Assumptions poly_edge_unique.

(** The returned matrices have one row per polynomial and one column per point. *)
Theorem poly_nodal_matrix xs : increasing xs -> length (lagrange_basis xs xs) = length xs /\
  forall i k, (i < length xs)%nat -> (k < length xs)%nat -> nth k (nth i (lagrange_basis xs xs) []) 0 = kronecker i k.
Proof. exact (lagrange_basis_identity xs). Qed.
Print Assumptions poly_nodal_matrix.

Theorem poly_edge_matrix xs pts : increasing xs -> (1 <= length xs)%nat -> length (edge_basis xs pts) = (length xs - 1)%nat /\
  forall i c, (i < length xs - 1)%nat -> (c < length pts)%nat ->
    is_derive (fun x => - total (S i) (fun j => lagrange xs j x)) (nth c pts 0) (nth c (nth i (edge_basis xs pts) []) 0).
Proof. exact (edge_basis_entries xs pts). Qed.
Print Assumptions poly_edge_matrix.

(** The memory of evaluations: if different node sets have different texts (nodes rounded to five decimals) and
    nearby arrays of points are equal, every answer is the matrix of nodal polynomials. *)
Theorem poly_cached_exact U ops st log ns l : separated U -> (forall ns x, In (Eval ns x) ops -> In ns U) ->
  prun start ops = Some (st, log) ->
  (forall n1 l1 n2 l2, In (n1, l1) log -> In (n2, l2) log -> n1 = n2 -> Forall2 near_array (l_arrays l1) (l_arrays l2) -> l_arrays l1 = l_arrays l2) ->
  In (ns, l) log -> l_value l = lagrange_array ns (l_arrays l).
Proof. exact (evaluations_exact U ops st log ns l). Qed.
Print Assumptions poly_cached_exact.

(** The rational arithmetic of the cache model is the real arithmetic of the polynomial model. *)
Theorem poly_rational_is_real ns i x : NoDup ns -> (i < List.length ns)%nat ->
  q2r (lagrange_q ns i x) = lagrange (map q2r ns) i (q2r x).
Proof. exact (lagrange_q_real ns i x). Qed.
Print Assumptions poly_rational_is_real.

(** Entry (i, c) of a remembered matrix is the value of polynomial i at point c. *)
Theorem poly_matrix_entries ns x v : lagrange_array ns [x] = Some v ->
  forall i c, (i < List.length ns)%nat -> (c < List.length (data x))%nat ->
    nth (i * List.length (data x) + c) (data v) 0%Qc = lagrange_q ns i (nth c (data x) 0%Qc).
Proof. exact (array_entries ns x v). Qed.
Print Assumptions poly_matrix_entries.

(** Node sets with the same text have the same number of nodes and differ by at most 1e-5 in each. *)
Theorem poly_texts_near a b : str_nodes_key a = str_nodes_key b -> Forall2 (fun p q => (Qabs (this p - this q) <= 1 # 100000)%Q) a b.
Proof. exact (key_near a b). Qed.
Print Assumptions poly_texts_near.

(** Two node sets that agree to five decimals: the second gets the values of the first, and its nodal polynomial is not one at its own node. *)
Theorem poly_cached_refuted : exists ops st log l v, prun start ops = Some (st, log) /\ In (ns_b, l) log /\
  l_value l = Some v /\ l_arrays l = [{| shape := [1%nat]; data := [nth 1 ns_b 0%Qc] |}] /\ nth 1 (data v) 0%Qc <> 1%Qc /\ l_value l <> lagrange_array ns_b (l_arrays l).
Proof. exact shared_text. Qed.
Print Assumptions poly_cached_refuted.

(** * Examples *)
Example three_nodes : one_dim_polynomial [-1; 0; 1] = Some [-1; 0; 1].
Proof.
  apply one_dim_polynomial_spec. split; [reflexivity|]. cbn [length]. split; [lia|]. split; [|cbn; lra].
  intros i j H. cbn in H. destruct i as [|[|[|]]], j as [|[|[|]]]; cbn; try lia; lra.
Qed.
Example two_nodes_reversed : one_dim_polynomial [1; -1] = None.
Proof.
  destruct (one_dim_polynomial [1; -1]) as [ys|] eqn:E; [|reflexivity]. apply one_dim_polynomial_spec in E. destruct E as (_ & _ & _ & E & _). cbn in E. lra.
Qed.
Example three_nodes_quadratic x : lagrange [-1; 0; 1] 2 x = x * (x + 1) / 2.
Proof. unfold lagrange, node. cbn. field. Qed.
Example three_nodes_edge x : edge [-1; 0; 1] 0 x = 1 / 2 - x.
Proof.
  apply (is_derive_unique_R (fun x => - (lagrange [-1; 0; 1] 0 x)) x).
  - unfold edge. cbn -[derivative_poly]. replace (0 - derivative_poly 2 [-1; 0; 1] 0 x) with (- derivative_poly 2 [-1; 0; 1] 0 x) by ring.
    apply (is_derive_opp (lagrange [-1; 0; 1] 0)). destruct (proj1 (one_dim_polynomial_spec _ _) three_nodes) as (_ & _ & H & _).
    apply (poly_derivative [-1; 0; 1] 0 x H). cbn. lia.
  - unfold lagrange, node. cbn. auto_derive; [exact I|field].
Qed.
(** the hypotheses of [poly_cached_exact] are met by a program that uses the memory *)
Definition ns_c := [Q2Qc (-1); 0%Qc; 1%Qc].
Example cached_program : separated [ns_a; ns_c] /\
  exists st log, prun start [Points {| shape := [1%nat]; data := [Q2Qc (1#2)] |}; Eval ns_a 0; Eval ns_c 0; Eval ns_a 0] = Some (st, log) /\ List.length log = 3%nat.
Proof.
  split.
  - intros a b [<-|[<-|[]]] [<-|[<-|[]]]; intros E; try reflexivity; vm_compute in E; discriminate.
  - destruct (prun start _) as [[st log]|] eqn:E; [|vm_compute in E; discriminate]. exists st, log. split; [reflexivity|].
    assert (C : match prun start [Points {| shape := [1%nat]; data := [Q2Qc (1#2)] |}; Eval ns_a 0; Eval ns_c 0; Eval ns_a 0] with Some (_, lg) => List.length lg | None => 0%nat end = 3%nat) by (vm_compute; reflexivity).
    rewrite E in C. exact C.
Qed.
