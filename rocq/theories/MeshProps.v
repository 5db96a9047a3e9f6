(** C05-C07, C47: numbering, neighbours and metric groups of structured meshes.
    Only statements and references to proofs; vocabulary in MeshSpec.v, models in
    MeshModel.v and MetricKeyModel.v. *)
From Coq Require Import List Arith ZArith QArith Qabs.
From Verif Require Import NdArray IncidenceModel MeshModel MeshSpec MeshProofs MeshThms IndexMapThms MetricKeyModel MetricKeyThms.
Import ListNotations.
Local Open Scope nat_scope.

(** * C05 element number <-> (region, indices) *)

Theorem element_numbers_bijective diss :
  (forall R I e, element_number diss R I e -> e < num_elements diss) /\
  (forall R I R' I' e, element_number diss R I e -> element_number diss R' I' e -> R = R' /\ I = I') /\
  (forall e, e < num_elements diss -> exists R I, element_number diss R I e).
Proof. exact (element_number_bij diss). Qed.
Print Assumptions element_numbers_bijective.

(** the generated arrays hold exactly these numbers *)

Theorem generated_numbering diss : exists arrs acc, gen_numbering 0 diss = Some (arrs, num_elements diss, acc) /\
  forall R I e, element_number diss R I e <-> exists a, nth_error arrs R = Some a /\ aget a I = Some e.
Proof. exact (gen_numbering_is diss). Qed.
Print Assumptions generated_numbering.

Theorem element_locator_inverse diss i R I : Forall (fun dis => dis <> []) diss ->
  (find_element diss i = Some (R, I) <-> element_number diss R I i).
Proof. exact (find_element_spec diss i R I). Qed.
Print Assumptions element_locator_inverse.

Theorem element_locator_rejects diss i : num_elements diss <= i -> find_element diss i = None.
Proof. exact (find_element_out diss i). Qed.
Print Assumptions element_locator_rejects.

Example locator_example : find_element [[2; 3]; [4; 3]; [1; 2]] 13 = Some (1, [3; 1]) /\
  find_element [[2; 3]; [4; 3]; [1; 2]] 20 = None.
Proof. vm_compute. auto. Qed.

(** * C06 neighbours *)

Theorem neighbour_across_plus_side ndim diss M ws ax R I e e' : Forall (Forall (fun n => 0 < n)) diss -> check_map M = true -> gen_map ndim diss M = Some ws ->
  ax < ndim -> element_number diss R I e ->
  (neighbour ws e (2 * ax + 1) = Some e' <->
   exists R' I', element_number diss R' I' e' /\ step_plus diss M ax R I R' I').
Proof. exact (fun Hpos Hcheck Hgen => neighbour_plus_iff Hpos Hcheck Hgen ax R I e e'). Qed.
Print Assumptions neighbour_across_plus_side.

Theorem neighbour_across_minus_side ndim diss M ws ax R I e e' : Forall (Forall (fun n => 0 < n)) diss -> check_map M = true -> gen_map ndim diss M = Some ws ->
  ax < ndim -> element_number diss R I e ->
  (neighbour ws e (2 * ax) = Some e' <->
   exists R' I', element_number diss R' I' e' /\ step_plus diss M ax R' I' R I).
Proof. exact (fun Hpos Hcheck Hgen => neighbour_minus_iff Hpos Hcheck Hgen ax R I e e'). Qed.
Print Assumptions neighbour_across_minus_side.

Theorem neighbour_map_symmetric ndim diss M ws ax e e' : Forall (Forall (fun n => 0 < n)) diss -> check_map M = true -> gen_map ndim diss M = Some ws ->
  ax < ndim -> e < num_elements diss -> e' < num_elements diss ->
  (neighbour ws e (2 * ax + 1) = Some e' <-> neighbour ws e' (2 * ax) = Some e).
Proof. exact (fun Hpos Hcheck Hgen => neighbour_symmetric Hpos Hcheck Hgen ax e e'). Qed.
Print Assumptions neighbour_map_symmetric.

Theorem neighbours_are_elements ndim diss M ws ax e e' side : Forall (Forall (fun n => 0 < n)) diss -> check_map M = true -> gen_map ndim diss M = Some ws ->
  ax < ndim -> side < 2 -> e < num_elements diss ->
  neighbour ws e (2 * ax + side) = Some e' -> e' < num_elements diss.
Proof. exact (fun Hpos Hcheck Hgen => neighbour_range Hpos Hcheck Hgen ax e e' side). Qed.
Print Assumptions neighbours_are_elements.

Theorem map_2d_exists diss M :
  Forall (Forall (fun n => 0 < n)) diss -> Forall (fun dis => length dis = 2) diss ->
  length M = length diss -> Forall (fun row => length row = 4) M ->
  check_map M = true -> check_layouts2 diss M = true ->
  exists ws, gen_map 2 diss M = Some ws.
Proof. exact (gen_map_2d_total diss M). Qed.
Print Assumptions map_2d_exists.

(** two regions joined along x and closed periodically in y *)
Example map_example :
  let diss := [[2; 2]; [3; 2]] in
  let M := [[None; Some 1; Some 0; Some 0]; [Some 0; None; Some 1; Some 1]] in
  check_map M = true /\ check_layouts2 diss M = true /\
  exists ws, gen_map 2 diss M = Some ws /\
    neighbour ws 1 1 = Some 4 /\ neighbour ws 4 0 = Some 1 /\ neighbour ws 3 3 = Some 1 /\
    neighbour ws 0 0 = None /\ neighbour ws 6 1 = None.
Proof. vm_compute. split; auto. split; auto. eexists. repeat split. Qed.

(** * C07 groups of elements with equal metric *)

Theorem element_to_group_map n c2e : partition n c2e ->
  exists e2c, make_e2c n c2e = Some e2c /\ length e2c = n /\
    forall e c, nth_error e2c e = Some c <-> exists g, nth_error c2e c = Some g /\ In e g.
Proof. exact (make_e2c_spec n c2e). Qed.
Print Assumptions element_to_group_map.

Theorem merge_after_split {A} (zero : A) n c2e x : partition n c2e -> length x = n ->
  exists b, split c2e n x = Some b /\ merge zero c2e n b = Some x.
Proof. exact (merge_split zero n c2e x). Qed.
Print Assumptions merge_after_split.

Theorem split_after_merge {A} (zero : A) n c2e b : partition n c2e ->
  Forall2 (fun g c => length g = length c) c2e b ->
  exists x, merge zero c2e n b = Some x /\ split c2e n x = Some b.
Proof. exact (split_merge zero n c2e b). Qed.
Print Assumptions split_after_merge.

Theorem split_values {A} n c2e (x : list A) : partition n c2e -> length x = n ->
  exists b, split c2e n x = Some b /\ Forall2 (Forall2 (fun e v => nth_error x e = Some v)) c2e b.
Proof. exact (split_total n c2e x). Qed.
Print Assumptions split_values.

Theorem element_data_is_reference_data {A} (dd : nat -> option A) n c2e e2c g c r rest i :
  partition n c2e -> Forall (fun g => g <> []) c2e -> make_e2c n c2e = Some e2c ->
  nth_error c2e c = Some g -> g = r :: rest -> In i g -> data_of_element dd c2e e2c i = dd r.
Proof. exact (data_of_element_spec dd n c2e e2c g c r rest i). Qed.
Print Assumptions element_data_is_reference_data.

Theorem groups_partition_by_key {K : Type} (eqk : K -> K -> bool) (eqk_spec : forall a b, eqk a b = true <-> a = b) diss keys : length keys = length diss ->
    exists arrs acc gs, gen_numbering 0 diss = Some (arrs, num_elements diss, acc) /\
      gen_groups eqk arrs keys = Some gs /\
      partition (num_elements diss) (map snd gs) /\ NoDup (map fst gs) /\ Forall (fun g => g <> []) (map snd gs) /\
      forall k g e, In (k, g) gs ->
        (In e g <-> exists R I key, nth_error keys R = Some key /\ element_number diss R I e /\ key I = k).
Proof. exact (groups_of_mesh eqk eqk_spec diss keys). Qed.
Print Assumptions groups_partition_by_key.

Example groups_example : exists arrs acc,
  gen_numbering 0 [[2; 2]; [2; 1]] = Some (arrs, 6, acc) /\
  gen_groups Nat.eqb arrs [(fun ix => nth 0 ix 0); (fun ix => 1 - nth 0 ix 0)] = Some [(0, [0; 2; 5]); (1, [1; 3; 4])] /\
  split [[0; 2; 5]; [1; 3; 4]] 6 [10; 11; 12; 13; 14; 15] = Some [[10; 12; 15]; [11; 13; 14]] /\
  merge 0 [[0; 2; 5]; [1; 3; 4]] 6 [[10; 12; 15]; [11; 13; 14]] = Some [10; 11; 12; 13; 14; 15] /\
  partition 6 [[0; 2; 5]; [1; 3; 4]].
Proof.
  eexists. eexists. split; [vm_compute; reflexivity|]. repeat split; try (vm_compute; reflexivity).
  - simpl. repeat (constructor; [simpl; intuition discriminate|]). constructor.
  - simpl. intuition (subst; auto with arith).
  - simpl. intros H. do 6 (destruct e as [|e]; [tauto|]). exfalso. revert H.
    do 6 (intros H; apply Nat.succ_lt_mono in H; revert H). apply Nat.nlt_0_r.
Qed.

Local Open Scope Q_scope.
(** * C47 the metric key rounds lengths to 5 decimals *)

Theorem equal_metric_key_bound paras layout ix ix' : Forall (fun p => 0 <= p) paras ->
  length layout = length paras -> length ix = length paras -> length ix' = length paras ->
  metric_key paras layout ix = metric_key paras layout ix' ->
  forall a p L i i', nth_error paras a = Some p -> nth_error layout a = Some L ->
    nth_error ix a = Some i -> nth_error ix' a = Some i' ->
    Qabs (p * nth i L 0 - p * nth i' L 0) <= (1 + p) * (1 # 100000).
Proof. exact (metric_key_close paras layout ix ix'). Qed.
Print Assumptions equal_metric_key_bound.

(** two elements of one row whose sizes differ by any factor N can share a metric group,
    whatever the size p of the region: the second is computed with the Jacobian of the first *)
Theorem metric_key_refuted (N : positive) (p : Q) : exists a : Q,
  let layout := [a; inject_Z (Zpos N) * a; 1 - a - inject_Z (Zpos N) * a] in
  Forall (fun x => 0 < x) layout /\ fold_right Qplus 0 layout == 1 /\
  exists arrs n acc gs, gen_numbering 0%nat [[3%nat]] = Some (arrs, n, acc) /\
    gen_groups (fun k k' => if list_eq_dec Z.eq_dec k k' then true else false) arrs [metric_key [p] [layout]] = Some gs /\
    exists k g, In (k, g) gs /\ In 0%nat g /\ In 1%nat g.
Proof. exact (metric_key_collision N p). Qed.
Print Assumptions metric_key_refuted.

Example metric_key_example : metric_key [2; 3] [[1#3; 2#3]; [1#1]] [1%nat; 0%nat] = [133334; 300000]%Z.
Proof. vm_compute. reflexivity. Qed.
