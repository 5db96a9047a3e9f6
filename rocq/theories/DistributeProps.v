(** C68: which rank gets which elements, and renumbering.  Only statements and references to proofs; vocabulary in
    DistributeSpec.v; model in DistributeModel.v.  None stands for an exception. *)
From Coq Require Import List Arith QArith Bool Lia Permutation.
From Verif Require Import Dict DistributeModel DistributeSpec DistributeThms DistributeDicts.
Import ListNotations.
Local Open Scope nat_scope.

(** * shares *)
Theorem split_parts_sum x n l : split x n = Some l -> length l = n /\ list_sum l = x.
Proof. exact (split_sum x n l). Qed.
Print Assumptions split_parts_sum.
Theorem split_succeeds x n : 0 < n -> exists l, split x n = Some l.
Proof. exact (split_total x n). Qed.
Print Assumptions split_succeeds.
(** the parts do not decrease and differ by at most one *)
Theorem split_parts_even x n l : split x n = Some l -> forall i j, i <= j -> j < n -> nth i l 0 <= nth j l 0 <= nth i l 0 + 1.
Proof. exact (split_even x n l). Qed.
Print Assumptions split_parts_even.
Theorem shares_add_up size n : 2 <= size -> exists sh, shares size n = Some sh /\ length sh = size /\ list_sum sh = n.
Proof. intros H. destruct (shares_total size n H) as [sh E]. exists sh. split; [exact E|exact (shares_sum size n sh E)]. Qed.
Print Assumptions shares_add_up.
Example shares_of_37 : split 37 5 = Some [7; 7; 7; 8; 8] /\ shares 5 37 = Some [3; 8; 8; 9; 9] /\ split 3 5 = Some [0; 0; 1; 1; 1].
Proof. repeat split; vm_compute; reflexivity. Qed.

(** * elements around a first element *)
(** what one rank takes is nearer to the first remaining element than what it leaves *)
Theorem rank_takes_nearest {K : Type} (dist : K -> K -> Q) n c r e e' : In e (ball dist n (c :: r)) -> In e' (c :: r) -> ~ In e' (ball dist n (c :: r)) -> (dist e c < dist e' c)%Q.
Proof. exact (ball_near dist n c r e e'). Qed.
Print Assumptions rank_takes_nearest.
(** one element more than the share, if there are no equal distances; with equal distances possibly more *)
Theorem rank_takes_one_more {K : Type} (dist : K -> K -> Q) n c r : NoDup (c :: r) -> (forall e e', In e (c :: r) -> In e' (c :: r) -> (dist e c == dist e' c)%Q -> e = e') ->
  length (ball dist n (c :: r)) = min (S n) (length (c :: r)).
Proof. exact (ball_exact dist n c r). Qed.
Print Assumptions rank_takes_one_more.
Theorem rank_takes_at_least {K : Type} (dist : K -> K -> Q) n rem : min (S n) (length rem) <= length (ball dist n rem).
Proof. exact (ball_size dist n rem). Qed.
Print Assumptions rank_takes_at_least.

(** for any distances every element gets exactly one rank and every rank an element *)
Theorem naive_distribution {K : Type} (eqb : K -> K -> bool) (dist : K -> K -> Q) : decides eqb -> forall size ks, 2 <= size -> NoDup ks -> size <= length ks ->
  exists ds, naive eqb dist size ks = Some ds /\ dealt size ks ds.
Proof. exact (naive_deals eqb dist). Qed.
Print Assumptions naive_distribution.

(** points 0, 1, 2, ... on a line *)
Notation on_line := (fun a b => let d := inject_Z (Z.of_nat a - Z.of_nat b) in (d * d)%Q).
Example naive_line : naive Nat.eqb on_line 3 [0; 5; 1; 6; 2; 7; 3] = Some [[0; 1]; [5; 6; 7; 3]; [2]].
Proof. vm_compute. reflexivity. Qed.
(** a rank left without elements gets one of the first rank with two *)
Example naive_line_filled : naive Nat.eqb on_line 4 (seq 0 12) = Some [[0; 1; 2]; [4; 5; 6; 7]; [8; 9; 10; 11]; [3]].
Proof. vm_compute. reflexivity. Qed.
(** the shares are even, the ranks are not: 3, 4, 4, 1 *)
Theorem naive_shares_refuted : exists size (ks : list nat) ds sh, shares size (length ks) = Some sh /\ naive Nat.eqb on_line size ks = Some ds /\
  sh = [3; 3; 3; 3] /\ map (@length nat) ds = [3; 4; 4; 1].
Proof. exists 4, (seq 0 12), [[0; 1; 2]; [4; 5; 6; 7]; [8; 9; 10; 11]; [3]], [3; 3; 3; 3]. repeat split; vm_compute; reflexivity. Qed.
Print Assumptions naive_shares_refuted.

(** * consecutive elements (meshes made from msepy manifolds) *)
Theorem manifold_in_order {K : Type} size (ks : list K) ds : 0 < size -> manifold_ranks size ks = Some ds -> dealt_in_order size ks ds.
Proof. exact (manifold_spec size ks ds). Qed.
Print Assumptions manifold_in_order.
Theorem manifold_few_elements {K : Type} size (ks : list K) : 0 < size -> size <= length ks -> length ks <= 4 * size -> exists ds, manifold_ranks size ks = Some ds.
Proof. exact (manifold_small size ks). Qed.
Print Assumptions manifold_few_elements.
Theorem manifold_many_elements {K : Type} size (ks : list K) : 2 <= size -> 4 * size < length ks -> (size - 1) * (3 * (size - 1) + 1) < 3 * length ks ->
  exists ds, manifold_ranks size ks = Some ds.
Proof. exact (manifold_large size ks). Qed.
Print Assumptions manifold_many_elements.
(** in between, nothing may be left for the last ranks: for nine or more ranks and one element more than four per rank *)
Theorem manifold_enough_refuted {K : Type} size (ks : list K) : 9 <= size -> length ks = 4 * size + 1 -> manifold_ranks size ks = None.
Proof. exact (manifold_fails size ks). Qed.
Print Assumptions manifold_enough_refuted.
Example manifold_of_14 : manifold_ranks 3 (seq 0 14) = Some [[0; 1; 2]; [3; 4; 5; 6; 7; 8; 9]; [10; 11; 12; 13]] /\
  manifold_ranks 4 (seq 0 14) = Some [[0; 1; 2; 3]; [4; 5; 6; 7]; [8; 9; 10]; [11; 12; 13]] /\ manifold_ranks 9 (seq 0 37) = None.
Proof. repeat split; vm_compute; reflexivity. Qed.

(** * what the ranks get *)
Theorem distribution_complete {K T P M : Type} (eqb : K -> K -> bool) (dist : K -> K -> Q) : decides eqb ->
  forall size mani (ty : dict K T) (pa : dict K P) (mp : dict K M) ds parts, 1 <= size -> ty <> [] -> NoDup (keys ty) -> Permutation (keys ty) (keys pa) -> Permutation (keys ty) (keys mp) ->
  distribute eqb dist size mani ty pa mp = Some (ds, parts) ->
  dealt size (keys ty) ds /\ length parts = size /\
  forall r t p m, nth_error parts r = Some (t, p, m) ->
    Permutation (nth r ds []) (keys t) /\ Permutation (keys t) (keys p) /\ Permutation (keys t) (keys m) /\
    forall e, In e (nth r ds []) -> get eqb t e = get eqb ty e /\ get eqb p e = get eqb pa e /\ get eqb m e = get eqb mp e.
Proof. exact (fun D size mani ty pa mp ds parts => distribute_spec eqb dist D size mani ty pa mp ds parts). Qed.
Print Assumptions distribution_complete.
Theorem distribution_succeeds {K T P M : Type} (eqb : K -> K -> bool) (dist : K -> K -> Q) : decides eqb ->
  forall size (mani : bool) (ty : dict K T) (pa : dict K P) (mp : dict K M), 1 <= size -> NoDup (keys ty) -> Permutation (keys ty) (keys pa) -> Permutation (keys ty) (keys mp) ->
  size <= length ty -> (mani = true -> length ty <= 4 * size \/ (size - 1) * (3 * (size - 1) + 1) < 3 * length ty) ->
  exists r, distribute eqb dist size mani ty pa mp = Some r.
Proof. exact (fun D size mani ty pa mp => distribute_total eqb dist D size mani ty pa mp). Qed.
Print Assumptions distribution_succeeds.
Theorem distribution_too_few {K T P M : Type} (eqb : K -> K -> bool) (dist : K -> K -> Q) size mani (ty : dict K T) (pa : dict K P) (mp : dict K M) :
  length ty < size -> size <> 1 -> distribute eqb dist size mani ty pa mp = None.
Proof. exact (distribute_few eqb dist size mani ty pa mp). Qed.
Print Assumptions distribution_too_few.
Theorem distribution_enough_refuted {K T P M : Type} (eqb : K -> K -> bool) (dist : K -> K -> Q) size (ty : dict K T) (pa : dict K P) (mp : dict K M) :
  9 <= size -> length ty = 4 * size + 1 -> distribute eqb dist size true ty pa mp = None.
Proof. exact (distribute_piles_fail eqb dist size ty pa mp). Qed.
Print Assumptions distribution_enough_refuted.
Example distribution_case :
  distribute Nat.eqb on_line 2 false [(0, 9); (5, 9); (1, 5); (6, 9)] [(5, 50); (0, 0); (1, 10); (6, 60)] [(0, 2); (5, 3); (1, 4); (6, 5)] =
  Some ([[0; 5; 1]; [6]], [([(0, 9); (5, 9); (1, 5)], [(0, 0); (5, 50); (1, 10)], [(0, 2); (5, 3); (1, 4)]); ([(6, 9)], [(6, 60)], [(6, 5)])]) /\
  decides Nat.eqb.
Proof. split; [vm_compute; reflexivity|]. intros a b. apply Nat.eqb_eq. Qed.

(** * meshes read from files *)
Theorem file_distribution_complete {K T M : Type} (eqb : K -> K -> bool) (dist : K -> K -> Q) : decides eqb ->
  forall size (ty : dict K T) (mp : dict K M) ds parts, 1 <= size -> NoDup (keys ty) -> Permutation (keys ty) (keys mp) -> vtu_distribute eqb dist size ty mp = Some (ds, parts) ->
  dealt size (keys ty) ds /\ length parts = size /\
  forall r t m, nth_error parts r = Some (t, m) -> keys t = nth r ds [] /\ keys m = nth r ds [] /\
    forall e, In e (nth r ds []) -> get eqb t e = get eqb ty e /\ get eqb m e = get eqb mp e.
Proof. exact (fun D size ty mp ds parts => vtu_spec eqb dist D size ty mp ds parts). Qed.
Print Assumptions file_distribution_complete.
(** whenever the share of the last rank is smaller than the number of ranks, the others leave it nothing and the mesh is refused *)
Theorem file_last_rank_empty {K T M : Type} (eqb : K -> K -> bool) (dist : K -> K -> Q) : decides eqb ->
  forall size (ty : dict K T) (mp : dict K M) sh, 2 <= size -> NoDup (keys ty) -> Permutation (keys ty) (keys mp) -> size <> length ty ->
  shares size (length ty) = Some sh -> nth (size - 1) sh 0 < size -> vtu_distribute eqb dist size ty mp = None.
Proof. exact (fun D size ty mp sh => vtu_last_empty eqb dist D size ty mp sh). Qed.
Print Assumptions file_last_rank_empty.
(** so five or more ranks cannot read any mesh with fewer than four elements per rank, whatever its shape *)
Theorem file_distribution_refuted {K T M : Type} (eqb : K -> K -> bool) (dist : K -> K -> Q) : decides eqb ->
  forall size (ty : dict K T) (mp : dict K M), 5 <= size -> NoDup (keys ty) -> Permutation (keys ty) (keys mp) -> size < length ty < 4 * size -> vtu_distribute eqb dist size ty mp = None.
Proof. exact (fun D size ty mp => vtu_few eqb dist D size ty mp). Qed.
Print Assumptions file_distribution_refuted.
Notation numbered ks := (map (fun i : nat => (i, i)) ks).
Example file_cases : shares 8 40 = Some [2; 5; 5; 5; 5; 6; 6; 6] /\ vtu_distribute Nat.eqb on_line 8 (numbered (seq 0 40)) (numbered (seq 0 40)) = None /\
  vtu_distribute Nat.eqb on_line 2 (numbered (seq 0 5)) (numbered (seq 0 5)) = Some ([[0; 1; 2]; [3; 4]], [(numbered [0; 1; 2], numbered [0; 1; 2]); (numbered [3; 4], numbered [3; 4])]).
Proof. repeat split; vm_compute; reflexivity. Qed.

(** * renumbering *)
Theorem renumbered_by_position {K T : Type} (eqb : K -> K -> bool) : decides eqb -> forall (ty : dict K T) i e, NoDup (keys ty) -> nth_error (keys ty) i = Some e ->
  get eqb (renumbering eqb ty) e = Some i.
Proof. exact (fun D ty i e => renumbering_spec eqb D ty i e). Qed.
Print Assumptions renumbered_by_position.
Theorem renumbered_global {K T V : Type} (eqb : K -> K -> bool) : decides eqb -> forall (ty : dict K T) (d : dict K V), Permutation (keys ty) (keys d) ->
  exists g, new_global eqb ty d = Some g /\ keys g = seq 0 (length ty) /\ by_position eqb (keys ty) d g.
Proof. exact (fun D ty d => new_global_spec eqb D ty d). Qed.
Print Assumptions renumbered_global.
Theorem renumbered_ranks {K T : Type} (eqb : K -> K -> bool) : decides eqb -> forall (ty : dict K T) ds, NoDup (keys ty) -> Permutation (concat ds) (keys ty) ->
  exists ds', new_ranks eqb (renumbering eqb ty) ds = Some ds' /\
    Forall2 (Forall2 (fun e i => nth_error (keys ty) i = Some e)) ds ds' /\ Permutation (concat ds') (seq 0 (length ty)).
Proof. exact (fun D ty ds => new_ranks_spec eqb D ty ds). Qed.
Print Assumptions renumbered_ranks.
(** a rank keeps the data of its elements under the new numbers and has no other number *)
Theorem renumbered_local {K T V : Type} (eqb : K -> K -> bool) : decides eqb -> forall (gty ty : dict K T) (d : dict K V), NoDup (keys gty) -> NoDup (keys ty) -> Permutation (keys ty) (keys d) ->
  (forall e, In e (keys ty) -> In e (keys gty)) ->
  exists g, new_local eqb (renumbering eqb gty) ty d = Some g /\
    (forall i e, nth_error (keys gty) i = Some e -> In e (keys ty) -> get Nat.eqb g i = get eqb d e) /\
    (forall i, (forall e, In e (keys ty) -> nth_error (keys gty) i <> Some e) -> get Nat.eqb g i = None).
Proof. exact (fun D gty ty d => new_local_spec eqb D gty ty d). Qed.
Print Assumptions renumbered_local.
Example renumbering_case : let g := [(7, 9); (2, 5); (4, 9)] in
  new_global Nat.eqb g [(2, 22); (4, 44); (7, 77)] = Some [(0, 77); (1, 22); (2, 44)] /\ new_ranks Nat.eqb (renumbering Nat.eqb g) [[4]; [7; 2]] = Some [[2]; [0; 1]] /\
  new_local Nat.eqb (renumbering Nat.eqb g) [(4, 9); (2, 5)] [(2, 22); (4, 44)] = Some [(2, 44); (1, 22)].
Proof. repeat split; vm_compute; reflexivity. Qed.
