(** C80: stream functions and operations of region-wise structured data.  Statements only; vocabulary in DdsSpec, model in DdsModel.
    None stands for an exception. *)
From Coq Require Import List ZArith QArith Qabs Qcanon Bool Lia Permutation.
From Verif Require Import DdsModel DdsSpec DdsThms DdsOps DdsExamples.
Import ListNotations.
Local Open Scope Qc_scope.

(** in one region, from any corner: the value of the corner is kept and the differences are the fluxes *)
Theorem dds_region : forall r c s,
  region_sf r c s (fst (corner_ij r c)) (snd (corner_ij r c)) = s /\ integrates r (region_sf r c s).
Proof. exact (fun r c s => conj (region_corner r c s) (region_integrates r c s)). Qed.
Print Assumptions dds_region.
(** this determines the stream function of the region *)
Theorem dds_region_unique : forall r f g i0 j0, integrates r f -> integrates r g -> in_region r i0 j0 -> f i0 j0 = g i0 j0 ->
  forall i j, in_region r i j -> f i j = g i j.
Proof. exact integrates_unique. Qed.
Print Assumptions dds_region_unique.

(** corners are compared by their coordinates with a sign and seven digits after the point, ties to even *)
Theorem dds_key : forall x s q, fmt7 x = (s, q) ->
  (s = true <-> (this x < 0)%Q) /\
  (- (1 # 2) <= Qabs x * 10000000 - inject_Z q)%Q /\ (Qabs x * 10000000 - inject_Z q <= 1 # 2)%Q /\
  ((Qabs x * 10000000 - inject_Z q == 1 # 2 \/ Qabs x * 10000000 - inject_Z q == - (1 # 2))%Q -> Z.even q = true).
Proof. exact fmt7_digits. Qed.
Print Assumptions dds_key.
(** a stream function is found exactly if there are regions and all of them are linked to the start over common corners *)
Theorem dds_defined : forall rs start shift, NoDup (map name rs) ->
  ((exists d, streamfunction rs start shift = Some d) <->
   rs <> [] /\ forall r, In r rs -> reached rs (match start with
                                                | Some (x, y, _) => eq (key x y)
                                                | None => fun k => exists r c, first rs r /\ k = corner_key r c
                                                end) r).
Proof. exact stream_defined. Qed.
Print Assumptions dds_defined.
(** it has every region once, and in all of them the differences are the fluxes, whatever the velocity *)
Theorem dds_all_regions : forall rs start shift d, NoDup (map name rs) -> streamfunction rs start shift = Some d ->
  Permutation (map fst d) (map name rs) /\
  forall n f, In (n, f) d -> exists r, In r rs /\ name r = n /\ integrates r f.
Proof. exact (fun rs start shift d ND H => conj (stream_regions rs start shift d ND H) (stream_integrates rs start shift d H)). Qed.
Print Assumptions dds_all_regions.

(** if the fluxes are differences of psi, the result is psi up to one constant in all regions, fixed by the start and the shift *)
Theorem dds_given_start : forall rs psi x y s shift d, faithful rs ->
  (forall r c, In r rs -> corner_key r c = key x y -> corner_point r c = (x, y)) ->
  (forall r, In r rs -> potential psi r) -> streamfunction rs (Some (x, y, s)) shift = Some d ->
  forall n f, In (n, f) d -> exists r, In r rs /\ name r = n /\
    forall i j, in_region r i j -> f i j = psi (X r i j) (Y r i j) + (s - psi x y) + shift.
Proof. exact stream_given. Qed.
Print Assumptions dds_given_start.
Theorem dds_default_start : forall rs psi r0 shift d, NoDup (map name rs) -> faithful rs -> (forall r, In r rs -> potential psi r) -> first rs r0 ->
  streamfunction rs None shift = Some d ->
  forall n f, In (n, f) d -> exists r, In r rs /\ name r = n /\
    forall i j, in_region r i j -> f i j = psi (X r i j) (Y r i j) - psi (X r0 0%nat 0%nat) (Y r0 0%nat 0%nat) + shift.
Proof. exact stream_default. Qed.
Print Assumptions dds_default_start.
(** this is so for linear velocities without divergence, on any nodes *)
Theorem dds_linear_flow : forall c0 c1 c2 c3 c4 c5 r, linear_flow c0 c1 c2 c3 c4 c5 r -> potential (quadratic c0 c1 c2 c3 c4 c5) r.
Proof. exact flow_potential. Qed.
Print Assumptions dds_linear_flow.

(** the operations: sums and differences are defined exactly for sets with the same regions, near coordinates and as many components *)
Theorem dds_sub : forall a b, NoDup (map bname a) -> NoDup (map bname b) ->
  ((exists c, sub a b = Some c) <-> matching a b) /\
  forall c, sub a b = Some c -> same_nodes a c /\
    forall n i k v, value_at c n i k v <-> exists p q, value_at a n i k p /\ value_at b n i k q /\ v = p - q.
Proof.
  exact (fun a b NA NB => conj (binary_def _ a b NB (fun v w _ => ex_intro _ _ eq_refl))
    (fun c H => conj (binary_nodes _ a b c NB H) (binary_values Qcminus a b c NA NB H))).
Qed.
Print Assumptions dds_sub.
Theorem dds_add : forall a b, NoDup (map bname a) -> NoDup (map bname b) ->
  ((exists c, add a b = Some c) <-> matching a b) /\
  forall c, add a b = Some c -> same_nodes a c /\
    forall n i k v, value_at c n i k v <-> exists p q, value_at a n i k p /\ value_at b n i k q /\ v = p + q.
Proof.
  exact (fun a b NA NB => conj (binary_def _ a b NB (fun v w _ => ex_intro _ _ eq_refl))
    (fun c H => conj (binary_nodes _ a b c NB H) (binary_values Qcplus a b c NA NB H))).
Qed.
Print Assumptions dds_add.
Theorem dds_numbers : forall a c n i k v,
  (value_at (sub_num a c) n i k v <-> exists p, value_at a n i k p /\ v = p - c) /\
  (value_at (add_num a c) n i k v <-> exists p, value_at a n i k p /\ v = p + c) /\
  (value_at (rmul c a) n i k v <-> exists p, value_at a n i k p /\ v = c * p) /\
  (value_at (square a) n i k v <-> exists p, value_at a n i k p /\ v = p ^ 2) /\
  same_nodes a (sub_num a c) /\ same_nodes a (add_num a c) /\ same_nodes a (rmul c a) /\ same_nodes a (square a).
Proof.
  exact (fun a c n i k v => conj (unary_values _ a n i k v) (conj (unary_values _ a n i k v) (conj (unary_values _ a n i k v) (conj (unary_values _ a n i k v)
    (conj (unary_nodes _ a) (conj (unary_nodes _ a) (conj (unary_nodes _ a) (unary_nodes _ a)))))))).
Qed.
Print Assumptions dds_numbers.
(** products of vectors *)
Theorem dds_dot : forall a b c, dds_ok a -> dds_ok b -> (forall x, In x a -> coo x <> []) -> dot a b = Some c ->
  same_nodes a c /\ forall x y, In x a -> In y b -> bname x = bname y -> exists z s, In z c /\ bname z = bname x /\ val z = [s] /\
    (forall v, In v (val x) -> length s = length v) /\ forall k, (k < length s)%nat -> nth k s 0 = total (map2 Qcmult (column x k) (column y k)).
Proof. exact dot_ok. Qed.
Print Assumptions dds_dot.
Theorem dds_cross : forall a b c, NoDup (map bname a) -> NoDup (map bname b) -> cross a b = Some c ->
  same_nodes a c /\ forall n i k v, value_at c n i k v <-> i = 0%nat /\ exists p0 p1 q0 q1,
    value_at a n 0 k p0 /\ value_at a n 1 k p1 /\ value_at b n 0 k q0 /\ value_at b n 1 k q1 /\ v = p0 * q1 - p1 * q0.
Proof. exact cross_ok. Qed.
Print Assumptions dds_cross.
(** the maximum is attained and bounds all values *)
Theorem dds_maximum : forall a i m, maximum a i = Some m ->
  (forall n k v, value_at a n i k v -> absq v <= m) /\ exists n k v, value_at a n i k v /\ absq v = m.
Proof. exact maximum_ok. Qed.
Print Assumptions dds_maximum.
(** the L2-norm of a constant, on arrays with as many rows as columns in rectangles *)
Theorem dds_l2 : forall i c a areas, Forall2 box_area a areas ->
  (forall b, In b a -> exists m, (0 < m)%nat /\ shape b = [m; m] /\ length (component i b) = (m * m)%nat /\ forall v, In v (component i b) -> v = c) ->
  l2_square a i = Some (c * c * total areas).
Proof. exact l2_ok. Qed.
Print Assumptions dds_l2.

(** findings *)
(** the stream function of a velocity without divergence is not continuous over the regions *)
Theorem dds_jump_refuted : exists rs r r' d f g,
  (forall r, In r rs -> forall i j, U r i j = qc_of 3 * X r i j ^ 3 * Y r i j ^ 2 /\ V r i j = - (qc_of 3 * X r i j ^ 2 * Y r i j ^ 3)) /\
  rs = [r; r'] /\ name r = 0%Z /\ name r' = 1%Z /\ in_region r 1 2 /\ in_region r' 0 2 /\
  X r 1%nat 2%nat = X r' 0%nat 2%nat /\ Y r 1%nat 2%nat = Y r' 0%nat 2%nat /\
  streamfunction rs None 0 = Some d /\ In (0%Z, f) d /\ In (1%Z, g) d /\ f 1%nat 2%nat <> g 0%nat 2%nat.
Proof.
  destruct cubic_jump as (d & f & g & E & A & B & C). exists cubic, (grid 0 0 1 2 cu cv), (grid 1 1 1 2 cu cv), d, f, g.
  split. { intros r [<- | [<- | []]] i j; cbn [U V X Y grid]; unfold cu, cv, z; split; cbn [Qcpower]; ring. }
  split; [reflexivity|]. split; [reflexivity|]. split; [reflexivity|]. split; [split; cbn; lia|]. split; [split; cbn; lia|].
  split; [apply Qc_is_canon; reflexivity|]. split; [reflexivity|]. auto.
Qed.
Print Assumptions dds_jump_refuted.
(** corners that coincide up to 1e-9 on both sides of zero are not found to be one: an exception *)
Theorem dds_sign_refuted : exists x, absq x <= Q2Qc (1 # 1000000000) /\
  streamfunction [grid 0 (- (1) - x) 1 1 one_u zero_v; grid 1 0 1 1 one_u zero_v] None 0 = None /\
  exists d, streamfunction [grid 0 (- (1) + x) 1 1 one_u zero_v; grid 1 0 1 1 one_u zero_v] None 0 = Some d.
Proof. exists tiny. split; [apply qleb_iff; vm_compute; reflexivity|]. exact (conj near_zero_none near_zero_some). Qed.
Print Assumptions dds_sign_refuted.
(** a - b may be defined where b - a is not *)
Theorem dds_order_refuted : exists a b c, sub a b = Some c /\ sub b a = None.
Proof. destruct order_some as (c & H). exact (ex_intro _ (one_block 1) (ex_intro _ (one_block far) (ex_intro _ c (conj H order_none)))). Qed.
Print Assumptions dds_order_refuted.
(** with arrays of shape (2, 4) the norm of 1 on the unit square is the square root of two *)
Theorem dds_l2_refuted : exists b, shape b = [2; 4]%nat /\ box_area b 1 /\ val b = [repeat 1 8] /\ l2_square [b] 0 = Some (qc_of 2).
Proof.
  exists (square_block 2 4). split; [reflexivity|]. split; [apply square_box; reflexivity|]. split; [reflexivity|].
  pose proof square_l2 as H. destruct (l2_square _ 0) as [x|]; [|discriminate]. cbn in H. injection H as H. f_equal. apply Qc_is_canon. rewrite H. reflexivity.
Qed.
Print Assumptions dds_l2_refuted.

(** the hypotheses are met: two regions with the flow of x y *)
Example dds_pair : NoDup (map name pair) /\ faithful pair /\ (forall r, In r pair -> potential (quadratic 0 0 0 0 1 0) r) /\ first pair left_region /\
  exists d, streamfunction pair None 0 = Some d.
Proof.
  split; [exact pair_names|]. split; [exact pair_faithful|]. split; [exact (fun r I => flow_potential _ _ _ _ _ _ r (pair_flow r I))|].
  split; [split; [right; left; reflexivity|]; intros r [<- | [<- | []]]; cbn; lia|].
  pose proof pair_value as H. apply check_in in H. destruct H as (d & _ & H & _). eauto.
Qed.
Example dds_square : exists b, dds_ok [b] /\ box_area b 1 /\ l2_square [b] 0 = Some (1 * 1 * total [1]).
Proof.
  exists (square_block 3 3). split.
  - split; [repeat constructor; intros []|]. intros b [<- | []]. exists 9%nat. split; intros v H; cbn in H.
    + destruct H as [<- | [<- | []]]; reflexivity.
    + destruct H as [<- | []]. reflexivity.
  - split; [apply square_box; reflexivity|]. apply dds_l2; [constructor; [apply square_box; reflexivity|constructor]|]. intros b [<- | []].
    exists 3%nat. split; [lia|]. split; [reflexivity|]. split; [reflexivity|]. intros v H. exact (repeat_spec 9 1 v H).
Qed.
Definition vec (p q : Z) : dds := [mkb 0 [1%nat] [[0]; [1]] [[z p]; [z q]]].
Definition first_value (o : option dds) : option (list (list Q)) := match o with Some [b] => Some (map (map this) (val b)) | _ => None end.
Example dds_vectors : dds_ok (vec 1 2) /\ dds_ok (vec 3 4) /\ first_value (dot (vec 1 2) (vec 3 4)) = Some [[11 # 1]]%Q /\
  first_value (cross (vec 1 2) (vec 3 4)) = Some [[-2 # 1]]%Q /\ option_map this (maximum (vec 1 (-2)) 1) = Some (2 # 1)%Q.
Proof.
  assert (K : forall p q, dds_ok (vec p q)).
  { intros p q. split; [repeat constructor; intros []|]. intros b [<- | []]. exists 1%nat. split; intros v [<- | [<- | []]]; reflexivity. }
  split; [apply K|]. split; [apply K|]. split; [vm_compute; reflexivity|]. split; vm_compute; reflexivity.
Qed.
