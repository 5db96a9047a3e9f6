(** C82: Lobatto nodes and weights belong together; tensor products integrate axis by axis; custom nodes. *)
From Coq Require Import Reals List Arith.
From Coquelicot Require Import Coquelicot.
From Verif Require Import QdModel QdSpec QdLeg QdThms QdTensor QdMore QdExamples.
Import ListNotations.
Local Open Scope R_scope.

(** the function whose roots are the inner nodes is the derivative of the Legendre polynomial; nan only at +-1 *)
Theorem qd_prime x n v : legendre_prime x n = Some v -> is_derive (legendre n) x v.
Proof. exact (prime_deriv x n v). Qed.
Print Assumptions qd_prime.
Theorem qd_prime_defined x n : x ^ 2 <> 1 ->
  legendre_prime x n = Some (Derive (legendre n) x) /\
  legendre_double_prime x n = Some ((1 - x ^ 2) ^ 2 * Derive_n (legendre n) 2 x).
Proof. exact (prime_defined x n). Qed.
Print Assumptions qd_prime_defined.

(** its roots are simple, and a root is kept by the method of Newton; weights at roots are positive *)
Theorem qd_simple n x : (1 <= n)%nat -> Derive (legendre n) x = 0 -> Derive_n (legendre n) 2 x <> 0.
Proof. exact (roots_simple n x). Qed.
Print Assumptions qd_simple.
Theorem qd_root n n_max x eps : (2 <= n)%nat -> 0 < eps -> -1 < x < 1 -> Derive (legendre n) x = 0 ->
  newton_method (fun x => legendre_prime_lobatto x n) (fun x => legendre_double_prime x n) x n_max eps = Some x.
Proof. exact (root_kept n n_max x eps). Qed.
Print Assumptions qd_root.
Theorem qd_positive p x : (1 <= p)%nat -> Derive (legendre p) x = 0 -> 0 < 2 / (INR p * (INR p + 1) * legendre p x ^ 2).
Proof. exact (weight_positive p x). Qed.
Print Assumptions qd_positive.

(** nodes from -1 to 1, symmetric; every weight belongs to the node of its place, although only the nodes are
    reversed; inner nodes come from the steps of Newton for the derivative, which stop at small steps or after 99 *)
Theorem qd_lobatto eps p nodes weights : compute_Lobatto eps p = Some (nodes, weights) ->
  length nodes = S p /\ length weights = S p /\ nth 0 nodes 0 = -1 /\ nth p nodes 0 = 1 /\
  (forall i, (i <= p)%nat -> nth (p - i) nodes 0 = - nth i nodes 0) /\
  (forall i, (i <= p)%nat -> nth i weights 0 = 2 / (INR p * (INR p + 1) * legendre p (nth i nodes 0) ^ 2)) /\
  (forall i, (i <= p)%nat -> nth (p - i) weights 0 = nth i weights 0) /\
  nth 0 weights 0 = 2 / (INR p * (INR p + 1)) /\
  (forall i, (1 <= i < p)%nat -> exists m z, (m <= 99)%nat /\ z 0%nat = cos (INR (p - i) / INR p * PI) /\ z m = nth i nodes 0 /\
     newton_steps (Derive (legendre p)) z m /\ (m = 99%nat \/ exists j, m = S j /\ Rabs (z m - z j) < eps)).
Proof. exact (lobatto_weights eps p nodes weights). Qed.
Print Assumptions qd_lobatto.
Example qd_simpson eps : 0 < eps -> compute_Lobatto eps 2 = Some ([-1; 0; 1], [1 / 3; 4 / 3; 1 / 3]).
Proof. exact (simpson eps). Qed.
Example qd_trapezoid eps : compute_Lobatto eps 1 = Some ([-1; 1], [1; 1]).
Proof. exact (trapezoid eps). Qed.
Example qd_order_three : let x := / sqrt 5 in -1 < x < 1 /\ Derive (legendre 3) x = 0.
Proof. exact order_three. Qed.

(** the points and weights of several axes: one-dimensional rules nested in each other, for every function *)
Theorem qd_tensor axes f : axes <> [] -> List.Forall (fun ax : axis => length (fst ax) = length (snd ax)) axes ->
  weighted (fst (quad_ndim_ravel axes)) (snd (quad_ndim_ravel axes)) f = nested axes f.
Proof. exact (ravel_quadrature axes f). Qed.
Print Assumptions qd_tensor.
Theorem qd_weights axes : axes <> [] -> List.Forall (fun ax : axis => length (fst ax) = length (snd ax)) axes ->
  quad_weights_ravel axes = snd (quad_ndim_ravel axes).
Proof. exact (ravel_weights axes). Qed.
Print Assumptions qd_weights.
(** the place of a point: the first axis runs first *)
Theorem qd_place2 (a b : axis) i j : (i < length (fst a))%nat -> (j < length (fst b))%nat ->
  let q := quad_ndim_ravel [a; b] in let m := (i + length (fst a) * j)%nat in
  (m < length (snd q))%nat /\ point (fst q) m = [nth i (fst a) 0; nth j (fst b) 0] /\ nth m (snd q) 0 = nth i (snd a) 0 * nth j (snd b) 0.
Proof. exact (place2 a b i j). Qed.
Print Assumptions qd_place2.
Theorem qd_place3 (a b c : axis) i j k : (i < length (fst a))%nat -> (j < length (fst b))%nat -> (k < length (fst c))%nat ->
  let q := quad_ndim_ravel [a; b; c] in let m := (i + length (fst a) * (j + length (fst b) * k))%nat in
  (m < length (snd q))%nat /\ point (fst q) m = [nth i (fst a) 0; nth j (fst b) 0; nth k (fst c) 0] /\
  nth m (snd q) 0 = nth i (snd a) 0 * nth j (snd b) 0 * nth k (snd c) 0.
Proof. exact (place3 a b c i j k). Qed.
Print Assumptions qd_place3.
Example qd_two_axes f : weighted (fst (quad_ndim_ravel [([-1; 1], [1; 1]); ([-1; 0; 1], [1 / 3; 4 / 3; 1 / 3])]))
    (snd (quad_ndim_ravel [([-1; 1], [1; 1]); ([-1; 0; 1], [1 / 3; 4 / 3; 1 / 3])])) f =
  (f [-1; -1] + 4 * f [-1; 0] + f [-1; 1] + f [1; -1] + 4 * f [1; 0] + f [1; 1]) / 3.
Proof. exact (two_axes f). Qed.

(** custom nodes: each lies after its parts, the last is 1; sums up to 4e-10 from 1 are accepted, over 6e-10 are not *)
Theorem qd_cus l n : cus_nodes l = Some n ->
  length n = S (length l) /\ (1 <= length l)%nat /\ (forall i, (i < length l)%nat -> nth i n 0 = after l i) /\ nth (length l) n 0 = 1 /\
  Rabs (rsum l - 1) <= 6 / 10 ^ 10.
Proof. exact (cus_spec l n). Qed.
Print Assumptions qd_cus.
Theorem qd_cus_defined l : Rabs (rsum l - 1) <= 4 / 10 ^ 10 -> exists n, cus_nodes l = Some n.
Proof. exact (cus_defined l). Qed.
Print Assumptions qd_cus_defined.
Theorem qd_cus_exact l : rsum l = 1 -> exists n, cus_nodes l = Some n /\ length n = S (length l) /\ nth 0 n 0 = -1 /\ nth (length l) n 0 = 1 /\
  forall i, (i < length l)%nat -> nth (S i) n 0 - nth i n 0 = 2 * nth i l 0.
Proof. exact (cus_exact l). Qed.
Print Assumptions qd_cus_exact.
Example qd_parts : exists n, cus_nodes [1 / 4; 1 / 2; 1 / 4] = Some n /\ n = [-1; - (1 / 2); 1 / 2; 1].
Proof. exact thirds. Qed.
(** REFUTED: abs_tol=1e-12 is the tolerance.  The default rel_tol=1e-9 rules; positive parts can give nodes
    beyond 1 that are followed by 1 *)
Theorem qd_cus_refuted : exists l n i, (forall x, In x l -> 0 < x) /\ cus_nodes l = Some n /\ (S i < length n)%nat /\ 1 < nth i n 0 /\ nth (S i) n 0 < nth i n 0.
Proof. exact cus_outside. Qed.
Print Assumptions qd_cus_refuted.
(** given nodes are kept as they are; their ends are +-1 up to 1.5e-7 *)
Theorem qd_nd nodes n : node_distribution nodes = Some n -> n = nodes /\ Rabs (nth 0 n 0 + 1) < 15 / 10 ^ 8 /\ Rabs (last n 0 - 1) < 15 / 10 ^ 8.
Proof. exact (nd_kept nodes n). Qed.
Print Assumptions qd_nd.
(** REFUTED: they increase *)
Theorem qd_nd_refuted : exists nodes, node_distribution nodes = Some nodes /\ nth 0 nodes 0 = -1 /\ nth 2 nodes 0 < nth 1 nodes 0.
Proof. exact nd_any. Qed.
Print Assumptions qd_nd_refuted.

(** arguments *)
Theorem qd_arguments (C : Type) (l : list nat) (c : C) (cs : list C) : quadrature (PTuple l) (CStr c) = Some (l, map (fun _ => c) l) /\
  (quadrature (PTuple l) (CTuple cs) = Some (l, cs) <-> length cs = length l) /\ (forall n, quadrature (PInt n) (CStr c) = Some ([n], [c])).
Proof. exact (tuple_args l c cs). Qed.
Print Assumptions qd_arguments.
(** REFUTED: lists of orders or categories are accepted; they are not hashable *)
Theorem qd_list_refuted (C : Type) (l : list nat) (p : order) (c : categories C) (cs : list C) : quadrature (PList l) c = None /\ quadrature p (CList cs) = None.
Proof. exact (list_args l p c cs). Qed.
Print Assumptions qd_list_refuted.
