From Coq Require Import List Arith Reals Lra Lia.
From Coquelicot Require Import Coquelicot.
From Verif Require Import MappingModel MappingSpec MappingProofs JacobianSpec JacobianModel JacobianProofs PolyModel PolySpec PolyProofs PolyCalc NdArray LocalNumberingModel IncidenceModel IncidenceThms TensorModel TensorSpec TensorAct TensorProofs TensorThms ReduceModel ReduceSpec ReduceProofs.
Import List ListNotations.
Local Open Scope R_scope.
Local Notation mat := MappingModel.mat.
Local Notation i0 := 0%nat.
Local Notation i1 := 1%nat.
Local Notation i2 := 2%nat.

(** * the cells of the loops *)
Lemma fill_in {A} (z v : A) ws m : In (m, v) ws -> (forall v', In (m, v') ws -> v' = v) -> fill z ws m = v.
Proof.
  intros H U. unfold fill.
  assert (G : forall acc, (In (m, v) ws \/ acc = v) -> fold_left (fun v w => if Nat.eqb (fst w) m then snd w else v) ws acc = v).
  { clear H. induction ws as [| [k u] ws IH]; intros acc [H | H]; [destruct H | exact H | |].
    - cbn. destruct H as [H | H].
      + injection H as -> ->. rewrite Nat.eqb_refl. apply IH; [intros; apply U; now right | now right].
      + apply IH; [intros; apply U; now right | now left].
    - cbn. apply IH; [intros; apply U; now right |]. subst. right. destruct (Nat.eqb_spec k m) as [<- |]; [apply U; now left | reflexivity]. }
  apply G. now left.
Qed.
Lemma in_loops2 {A} nj ni (f : nat -> nat -> A) v : In v (loops2 nj ni f) <-> exists i j, (i < ni)%nat /\ (j < nj)%nat /\ v = f i j.
Proof.
  unfold loops2. rewrite in_flat_map. split.
  - intros (j & Hj & H). apply in_map_iff in H. destruct H as (i & <- & Hi). apply in_seq in Hi, Hj. exists i, j. repeat split; lia.
  - intros (i & j & Hi & Hj & ->). exists j. split; [apply in_seq; lia |]. apply in_map_iff. exists i. split; [reflexivity | apply in_seq; lia].
Qed.
Lemma in_loops3 {A} nk nj ni (f : nat -> nat -> nat -> A) v : In v (loops3 nk nj ni f) <-> exists i j k, (i < ni)%nat /\ (j < nj)%nat /\ (k < nk)%nat /\ v = f i j k.
Proof.
  unfold loops3. rewrite in_flat_map. split.
  - intros (k & Hk & H). apply (in_loops2 nj ni (fun i j => f i j k)) in H. destruct H as (i & j & Hi & Hj & ->). apply in_seq in Hk. exists i, j, k. repeat split; lia.
  - intros (i & j & k & Hi & Hj & Hk & ->). exists k. split; [apply in_seq; lia |]. apply (in_loops2 nj ni (fun i j => f i j k)). exists i, j. auto.
Qed.
Lemma pos_inj i j i' j' n : (i < n)%nat -> (i' < n)%nat -> (i + n * j = i' + n * j')%nat -> i = i' /\ j = j'.
Proof. intros H H' E. destruct (divmod i j n H) as [D M]. destruct (divmod i' j' n H') as [D' M']. rewrite E in *. split; congruence. Qed.
Lemma fill2 {A} (z : A) nj ni key val i j : (forall i j, key i j = (i + ni * j)%nat) -> (i < ni)%nat -> (j < nj)%nat ->
  fill z (loops2 nj ni (fun i j => (key i j, val i j))) (i + ni * j)%nat = val i j.
Proof.
  intros K Hi Hj. apply fill_in.
  - apply in_loops2. exists i, j. rewrite K. auto.
  - intros v' H. apply in_loops2 in H. destruct H as (i' & j' & Hi' & Hj' & E). injection E as E ->. rewrite K in E. apply pos_inj in E; [| assumption..].
    now destruct E as [-> ->].
Qed.
Lemma fill3 {A} (z : A) nk nj ni key val i j k : (forall i j k, key i j k = (i + ni * (j + nj * k))%nat) -> (i < ni)%nat -> (j < nj)%nat -> (k < nk)%nat ->
  fill z (loops3 nk nj ni (fun i j k => (key i j k, val i j k))) (i + ni * (j + nj * k))%nat = val i j k.
Proof.
  intros K Hi Hj Hk. apply fill_in.
  - apply in_loops3. exists i, j, k. rewrite K. auto.
  - intros v' H. apply in_loops3 in H. destruct H as (i' & j' & k' & Hi' & Hj' & Hk' & E). injection E as E ->. rewrite K in E.
    apply pos_inj in E; [| assumption..]. destruct E as [-> E]. apply pos_inj in E; [| assumption..]. now destruct E as [-> ->].
Qed.

(** * rules in several variables *)
Lemma between_eq xs qn i r : between xs qn i r = node xs i + (node xs (S i) - node xs i) / 2 * (nth r qn 0 + 1).
Proof. unfold between, node. field. Qed.
Lemma sum2_rule qx wx qy wy a b c d f k : k = (b - a) / 2 * ((d - c) / 2) ->
  np_sum (length wx) (fun r => np_sum (length wy) (fun s => f (a + (b - a) / 2 * (nth r qx 0 + 1)) (c + (d - c) / 2 * (nth s qy 0 + 1)) * (nth r wx 0 * nth s wy 0) * k))
  = rule_sum2 qx wx qy wy a b c d f.
Proof.
  intros ->. unfold rule_sum2, rule_sum. rewrite np_sum_total.
  rewrite (total_ext _ _ (fun r => total (length wy) (fun s => (d - c) / 2 * (nth s wy 0 * ((b - a) / 2 * (nth r wx 0 * f (a + (b - a) / 2 * (nth r qx 0 + 1)) (c + (d - c) / 2 * (nth s qy 0 + 1)))))))).
  2:{ intros. rewrite np_sum_total. apply total_ext. intros. ring. }
  rewrite total_swap. rewrite <- total_scal. apply total_ext. intros. rewrite total_scal. f_equal. rewrite total_scal. f_equal. now rewrite total_scal.
Qed.
Lemma ps_rule n qn qw a b (f : R -> R -> R) : (forall x, poly_of_size n (f x)) -> poly_of_size n (fun y => rule_sum qn qw a b (fun x => f x y)).
Proof. intros H. unfold rule_sum. apply ps_scal, ps_total. intros. apply ps_scal, H. Qed.
Lemma rule2_exact d1 d2 qx wx qy wy a b c d f : exact_rule d1 qx wx -> exact_rule d2 qy wy ->
  (forall y, poly_of_size d1 (fun x => f x y)) -> (forall x, poly_of_size d2 (f x)) -> integral2 f a b c d (rule_sum2 qx wx qy wy a b c d f).
Proof.
  intros H1 H2 P1 P2. exists (fun y => rule_sum qx wx a b (fun x => f x y)). split.
  - intros y. now apply (rule_exact d1).
  - apply (rule_exact d2); [exact H2 |]. now apply ps_rule.
Qed.
Lemma ps_rule2 n qx wx qy wy a b c d (f : R -> R -> R -> R) : (forall x y, poly_of_size n (f x y)) -> poly_of_size n (fun z => rule_sum2 qx wx qy wy a b c d (fun x y => f x y z)).
Proof. intros H. unfold rule_sum2. apply (ps_rule n qy wy c d (fun y z => rule_sum qx wx a b (fun x => f x y z))). intros y. now apply ps_rule. Qed.
Lemma rule3_exact d1 d2 d3 qx wx qy wy qz wz a b c d e h f : exact_rule d1 qx wx -> exact_rule d2 qy wy -> exact_rule d3 qz wz ->
  (forall y z, poly_of_size d1 (fun x => f x y z)) -> (forall x z, poly_of_size d2 (fun y => f x y z)) -> (forall x y, poly_of_size d3 (f x y)) ->
  integral3 f a b c d e h (rule_sum3 qx wx qy wy qz wz a b c d e h f).
Proof.
  intros H1 H2 H3 P1 P2 P3. exists (fun z => rule_sum2 qx wx qy wy a b c d (fun x y => f x y z)). split.
  - intros z. now apply (rule2_exact d1 d2).
  - apply (rule_exact d3); [exact H3 |]. now apply ps_rule2.
Qed.
Lemma integral2_unique f a b c d l l' : integral2 f a b c d l -> integral2 f a b c d l' -> l = l'.
Proof.
  intros (g & G & I) (g' & G' & I'). apply (RInt_unique_R g c d); [exact I |]. eapply is_RInt_ext; [| exact I']. intros y _.
  exact (RInt_unique_R _ _ _ _ _ (G' y) (G y)).
Qed.
Lemma integral3_unique f a b c d e h l l' : integral3 f a b c d e h l -> integral3 f a b c d e h l' -> l = l'.
Proof.
  intros (g & G & I) (g' & G' & I'). apply (RInt_unique_R g e h); [exact I |]. eapply is_RInt_ext; [| exact I']. intros z _.
  exact (integral2_unique _ _ _ _ _ _ _ (G' z) (G z)).
Qed.
Lemma rule_sum2_ext qx wx qy wy a b c d f g : length qx = length wx -> length qy = length wy -> in_reference qx -> in_reference qy -> a <= b -> c <= d ->
  (forall x y, a <= x <= b -> c <= y <= d -> f x y = g x y) -> rule_sum2 qx wx qy wy a b c d f = rule_sum2 qx wx qy wy a b c d g.
Proof. intros. unfold rule_sum2. apply rule_sum_ext; auto. intros y Hy. apply rule_sum_ext; auto. Qed.
Lemma rule_sum3_ext qx wx qy wy qz wz a b c d e h f g : length qx = length wx -> length qy = length wy -> length qz = length wz -> in_reference qx -> in_reference qy -> in_reference qz ->
  a <= b -> c <= d -> e <= h ->
  (forall x y z, a <= x <= b -> c <= y <= d -> e <= z <= h -> f x y z = g x y z) -> rule_sum3 qx wx qy wy qz wz a b c d e h f = rule_sum3 qx wx qy wy qz wz a b c d e h g.
Proof. intros. unfold rule_sum3. apply rule_sum_ext; auto. intros z Hz. apply rule_sum2_ext; auto. Qed.

(** * nodes *)
Lemma ref_node s i : in_reference s -> (i < length s)%nat -> ref (node s i).
Proof. intros H L. apply (proj1 (List.Forall_nth (fun x => -1 <= x <= 1) s) H i 0). exact L. Qed.
Lemma node_le s i : nodes_ok s -> (i < degree s)%nat -> node s i <= node s (S i).
Proof. intros [I L] H. apply Rlt_le, I. unfold degree in H. lia. Qed.
Lemma ref_edge s i t : in_reference s -> nodes_ok s -> (i < degree s)%nat -> node s i <= t <= node s (S i) -> ref t.
Proof. intros R [_ L] H T. unfold degree in H. pose proof (ref_node s i R ltac:(lia)). pose proof (ref_node s (S i) R ltac:(lia)). unfold ref in *. lra. Qed.

(** * velocities and columns of the Jacobian matrix *)
Lemma velocity2_unique c t v w : velocity2 c t v -> velocity2 c t w -> v = w.
Proof. intros [A B] [C D]. destruct v, w. cbn in *. rewrite (is_derive_unique_R _ _ _ _ A C), (is_derive_unique_R _ _ _ _ B D). reflexivity. Qed.
Lemma velocity3_unique c t v w : velocity3 c t v -> velocity3 c t w -> v = w.
Proof.
  intros (A & B & C) (A' & B' & C'). destruct v as [[? ?] ?], w as [[? ?] ?]. cbn in *.
  rewrite (is_derive_unique_R _ _ _ _ A A'), (is_derive_unique_R _ _ _ _ B B'), (is_derive_unique_R _ _ _ _ C C'). reflexivity.
Qed.
Definition smooth2 (phi : R -> R -> pt2) (J : R -> R -> mat) : Prop := forall x y, ref x -> ref y -> jacobian_of2 phi J x y.
Definition smooth3 (phi : R -> R -> R -> pt3) (J : R -> R -> R -> mat) : Prop := forall x y z, ref x -> ref y -> ref z -> jacobian_of3 phi J x y z.
Lemma columns2 phi J vx vy x y : smooth2 phi J -> moves2 phi vx vy -> ref x -> ref y ->
  vx x y = (J x y i0 i0, J x y i1 i0) /\ vy x y = (J x y i0 i1, J x y i1 i1).
Proof.
  intros S M Hx Hy. destruct (M x y Hx Hy) as [A B]. destruct (S x y Hx Hy) as [C D]. apply D2_partial in C, D.
  split; [apply (velocity2_unique _ _ _ _ A) | apply (velocity2_unique _ _ _ _ B)]; split; cbn; tauto.
Qed.
Lemma columns3 phi J vx vy vz x y z : smooth3 phi J -> moves3 phi vx vy vz -> ref x -> ref y -> ref z ->
  vx x y z = (J x y z i0 i0, J x y z i1 i0, J x y z i2 i0) /\ vy x y z = (J x y z i0 i1, J x y z i1 i1, J x y z i2 i1) /\ vz x y z = (J x y z i0 i2, J x y z i1 i2, J x y z i2 i2).
Proof.
  intros S M Hx Hy Hz. destruct (M x y z Hx Hy Hz) as (A & B & C). assert (D := S x y z Hx Hy Hz). pose proof (D i0 ltac:(lia)). pose proof (D i1 ltac:(lia)). pose proof (D i2 ltac:(lia)).
  refine (conj _ (conj _ _)); [apply (velocity3_unique _ _ _ _ A) | apply (velocity3_unique _ _ _ _ B) | apply (velocity3_unique _ _ _ _ C)]; split; cbn in *; tauto.
Qed.

(** * 2-d: entries of the reduced cochain *)
Section Two.
Variables (phi : R -> R -> pt2) (J : R -> R -> mat) (F : pt2 -> pt2) (sx sy qx wx qy wy : list R) (vx vy : R -> R -> R * R).
Hypotheses (Hx : nodes_ok sx) (Hy : nodes_ok sy) (Rx : in_reference sx) (Ry : in_reference sy)
  (Lx : length qx = length wx) (Ly : length qy = length wy) (Qx : in_reference qx) (Qy : in_reference qy)
  (S : smooth2 phi J) (M : moves2 phi vx vy).
Notation px := (degree sx). Notation py := (degree sy).
Ltac refs := first [eapply ref_edge; cycle 3; [eassumption | assumption | assumption | assumption] | apply ref_node; [assumption | unfold degree in *; destruct Hx, Hy; lia]].
Ltac cols x y := let A := fresh in let B := fresh in destruct (columns2 phi J vx vy x y S M) as [A B]; [refs | refs | rewrite ?A, ?B].
Lemma inner_dx_at i j : (i < px)%nat -> (j < py + 1)%nat ->
  nth (i + px * j) (rd_inner_dx phi J F sx sy qx wx) 0 = rule_sum qx wx (node sx i) (node sx (Datatypes.S i)) (fun t => along2 (F (phi t (node sy j))) (vx t (node sy j))).
Proof.
  intros Hi Hj.
  change (rd_inner_dx phi J F sx sy qx wx) with (reduce2 (prep2_x sx sy qx) (fun x y => let M := J x y in let '(u, v) := F (phi x y) in M i0 i0 * u + M i1 i0 * v) wx).
  rewrite (reduce2_x sx sy qx wx Hx Hy Lx) by assumption. apply rule_sum_ext; [exact Lx | exact Qx | now apply node_le |]. intros t Ht.
  cols t (node sy j). destruct (F _). unfold along2. cbn. ring.
Qed.
Lemma inner_dy_at i j : (i < px + 1)%nat -> (j < py)%nat ->
  nth (i + (px + 1) * j) (rd_inner_dy phi J F sx sy qy wy) 0 = rule_sum qy wy (node sy j) (node sy (Datatypes.S j)) (fun t => along2 (F (phi (node sx i) t)) (vy (node sx i) t)).
Proof.
  intros Hi Hj.
  change (rd_inner_dy phi J F sx sy qy wy) with (reduce2 (prep2_y sx sy qy) (fun x y => let M := J x y in let '(u, v) := F (phi x y) in M i0 i1 * u + M i1 i1 * v) wy).
  rewrite (reduce2_y sx sy qy wy Hx Hy Ly) by assumption. apply rule_sum_ext; [exact Ly | exact Qy | now apply node_le |]. intros t Ht.
  cols (node sx i) t. destruct (F _). unfold along2. cbn. ring.
Qed.
Lemma outer_dx_at i j : (i < px)%nat -> (j < py + 1)%nat ->
  nth (i + px * j) (rd_outer_dx phi J F sx sy qx wx) 0 = rule_sum qx wx (node sx i) (node sx (Datatypes.S i)) (fun t => to_left (F (phi t (node sy j))) (vx t (node sy j))).
Proof.
  intros Hi Hj.
  change (rd_outer_dx phi J F sx sy qx wx) with (reduce2 (prep2_x sx sy qx) (fun x y => let M := J x y in let '(u, v) := F (phi x y) in M i0 i0 * v - M i1 i0 * u) wx).
  rewrite (reduce2_x sx sy qx wx Hx Hy Lx) by assumption. apply rule_sum_ext; [exact Lx | exact Qx | now apply node_le |]. intros t Ht.
  cols t (node sy j). destruct (F _). unfold to_left. cbn. ring.
Qed.
Lemma outer_dy_at i j : (i < px + 1)%nat -> (j < py)%nat ->
  nth (i + (px + 1) * j) (rd_outer_dy phi J F sx sy qy wy) 0 = rule_sum qy wy (node sy j) (node sy (Datatypes.S j)) (fun t => to_right (F (phi (node sx i) t)) (vy (node sx i) t)).
Proof.
  intros Hi Hj.
  change (rd_outer_dy phi J F sx sy qy wy) with (reduce2 (prep2_y sx sy qy) (fun x y => let M := J x y in let '(u, v) := F (phi x y) in - (M i0 i1) * v + M i1 i1 * u) wy).
  rewrite (reduce2_y sx sy qy wy Hx Hy Ly) by assumption. apply rule_sum_ext; [exact Ly | exact Qy | now apply node_le |]. intros t Ht.
  cols (node sx i) t. destruct (F _). unfold to_right. cbn. ring.
Qed.
End Two.
Lemma reduce2_len p g w : length (reduce2 p g w) = length (snd p). Proof. destruct p as [[? ?] ?]. apply edges_len. Qed.
Lemma inner_dx_len phi J F sx sy qx wx : length (rd_inner_dx phi J F sx sy qx wx) = (degree sx * (degree sy + 1))%nat.
Proof. unfold rd_inner_dx. cbn [prep2_x]. rewrite edges_len, tile_len, diffs_len. reflexivity. Qed.
Lemma inner_dy_len phi J F sx sy qx wx : length (rd_inner_dy phi J F sx sy qx wx) = ((degree sx + 1) * degree sy)%nat.
Proof. unfold rd_inner_dy. cbn [prep2_y]. rewrite edges_len, rep_len, diffs_len. reflexivity. Qed.
Lemma outer_dx_len phi J F sx sy qx wx : length (rd_outer_dx phi J F sx sy qx wx) = (degree sx * (degree sy + 1))%nat.
Proof. unfold rd_outer_dx. cbn [prep2_x]. rewrite edges_len, tile_len, diffs_len. reflexivity. Qed.
Lemma outer_dy_len phi J F sx sy qx wx : length (rd_outer_dy phi J F sx sy qx wx) = ((degree sx + 1) * degree sy)%nat.
Proof. unfold rd_outer_dy. cbn [prep2_y]. rewrite edges_len, rep_len, diffs_len. reflexivity. Qed.

Lemma inner_entries phi J F sx sy qx wx qy wy vx vy : nodes_ok sx -> nodes_ok sy -> in_reference sx -> in_reference sy ->
  length qx = length wx -> length qy = length wy -> in_reference qx -> in_reference qy -> smooth2 phi J -> moves2 phi vx vy ->
  length (rd_m2n2k1_inner phi J F sx sy qx wx qy wy) = nd_m2n2k1 (degree sx) (degree sy) /\
  (forall i j, (i < degree sx)%nat -> (j < length sy)%nat ->
     rcoef (cochain (rd_m2n2k1_inner phi J F sx sy qx wx qy wy)) (ln_m2n2k1_inner (degree sx) (degree sy)) 0 [i; j]
     = rule_sum qx wx (node sx i) (node sx (S i)) (fun t => along2 (F (phi t (node sy j))) (vx t (node sy j)))) /\
  (forall i j, (i < length sx)%nat -> (j < degree sy)%nat ->
     rcoef (cochain (rd_m2n2k1_inner phi J F sx sy qx wx qy wy)) (ln_m2n2k1_inner (degree sx) (degree sy)) 1 [i; j]
     = rule_sum qy wy (node sy j) (node sy (S j)) (fun t => along2 (F (phi (node sx i) t)) (vy (node sx i) t))).
Proof.
  intros Hx Hy Rx Ry Lx Ly Qx Qy HS HM. destruct (deg_len sx Hx) as [Dx _]. destruct (deg_len sy Hy) as [Dy _]. rewrite ln_m2n2k1_inner_eq.
  refine (conj _ (conj _ _)).
  - unfold rd_m2n2k1_inner, nd_m2n2k1. rewrite app_length, inner_dx_len, inner_dy_len. lia.
  - intros i j Hi Hj. rewrite (rcoef2 _ _ 0 0 (degree sx) (degree sy + 1)) by (reflexivity || lia). unfold rd_m2n2k1_inner. cbn [Nat.add].
    rewrite app_nth1 by (rewrite inner_dx_len; apply grid_lt; lia). eapply inner_dx_at; try eassumption; lia.
  - intros i j Hi Hj. rewrite (rcoef2 _ _ 1 (degree sx * (degree sy + 1)) (degree sx + 1) (degree sy)) by (reflexivity || lia). unfold rd_m2n2k1_inner.
    rewrite app_nth2 by (rewrite inner_dx_len; lia). rewrite inner_dx_len. replace (_ + _ - _)%nat with (i + (degree sx + 1) * j)%nat by lia. eapply inner_dy_at; try eassumption; lia.
Qed.
Lemma outer_entries phi J F sx sy qx wx qy wy vx vy : nodes_ok sx -> nodes_ok sy -> in_reference sx -> in_reference sy ->
  length qx = length wx -> length qy = length wy -> in_reference qx -> in_reference qy -> smooth2 phi J -> moves2 phi vx vy ->
  length (rd_m2n2k1_outer phi J F sx sy qx wx qy wy) = nd_m2n2k1 (degree sx) (degree sy) /\
  (forall i j, (i < length sx)%nat -> (j < degree sy)%nat ->
     rcoef (cochain (rd_m2n2k1_outer phi J F sx sy qx wx qy wy)) (ln_m2n2k1_outer (degree sx) (degree sy)) 0 [i; j]
     = rule_sum qy wy (node sy j) (node sy (S j)) (fun t => to_right (F (phi (node sx i) t)) (vy (node sx i) t))) /\
  (forall i j, (i < degree sx)%nat -> (j < length sy)%nat ->
     rcoef (cochain (rd_m2n2k1_outer phi J F sx sy qx wx qy wy)) (ln_m2n2k1_outer (degree sx) (degree sy)) 1 [i; j]
     = rule_sum qx wx (node sx i) (node sx (S i)) (fun t => to_left (F (phi t (node sy j))) (vx t (node sy j)))).
Proof.
  intros Hx Hy Rx Ry Lx Ly Qx Qy HS HM. destruct (deg_len sx Hx) as [Dx _]. destruct (deg_len sy Hy) as [Dy _]. rewrite ln_m2n2k1_outer_eq.
  refine (conj _ (conj _ _)).
  - unfold rd_m2n2k1_outer, nd_m2n2k1. rewrite app_length, outer_dx_len, outer_dy_len. lia.
  - intros i j Hi Hj. rewrite (rcoef2 _ _ 0 0 (degree sx + 1) (degree sy)) by (reflexivity || lia). unfold rd_m2n2k1_outer. cbn [Nat.add].
    rewrite app_nth1 by (rewrite outer_dy_len; apply grid_lt; lia). eapply outer_dy_at; try eassumption; lia.
  - intros i j Hi Hj. rewrite (rcoef2 _ _ 1 ((degree sx + 1) * degree sy) (degree sx) (degree sy + 1)) by (reflexivity || lia). unfold rd_m2n2k1_outer.
    rewrite app_nth2 by (rewrite outer_dy_len; lia). rewrite outer_dy_len. replace (_ + _ - _)%nat with (i + degree sx * j)%nat by lia. eapply outer_dx_at; try eassumption; lia.
Qed.

(** nodal values *)
Lemma rows_len {A B} (f : A -> list B) (n : nat) l : (forall a, length (f a) = n) -> length (flat_map f l) = (n * length l)%nat.
Proof. intros H. induction l; cbn; [lia |]. rewrite app_length, H, IHl. lia. Qed.
Lemma rows_nth {A} (f : R -> list A) n (l : list R) a b d : (forall x, length (f x) = n) -> (a < n)%nat -> (b < length l)%nat ->
  nth (a + n * b) (flat_map f l) d = nth a (f (nth b l 0)) d.
Proof.
  intros H Ha. revert b. induction l as [| x l IH]; intros b Hb; [cbn in Hb; lia |]. cbn [flat_map]. destruct b as [| b].
  - rewrite app_nth1 by (rewrite H; lia). f_equal. lia.
  - rewrite app_nth2 by (rewrite H; lia). rewrite H. replace (a + n * S b - n)%nat with (a + n * b)%nat by lia. cbn [nth]. apply IH. cbn in Hb. lia.
Qed.
Lemma map_nth_lt {A} (f : R -> A) l i d : (i < length l)%nat -> nth i (map f l) d = f (nth i l 0).
Proof. intros H. rewrite (nth_indep _ d (f 0)) by (rewrite map_length; exact H). apply map_nth. Qed.
Lemma k0_2_entries phi f sx sy : nodes_ok sx -> nodes_ok sy ->
  length (rd_m2n2k0 phi f sx sy) = nd_m2n2k0 (degree sx) (degree sy) /\
  (forall i j, (i < length sx)%nat -> (j < length sy)%nat ->
     rcoef (cochain (rd_m2n2k0 phi f sx sy)) (ln_m2n2k0 (degree sx) (degree sy)) 0 [i; j] = f (phi (node sx i) (node sy j))).
Proof.
  intros Hx Hy. destruct (deg_len sx Hx) as [Dx _]. destruct (deg_len sy Hy) as [Dy _]. rewrite ln_m2n2k0_eq. unfold rd_m2n2k0. split.
  - rewrite (rows_len _ (length sx)) by (intros; apply map_length). unfold nd_m2n2k0. lia.
  - intros i j Hi Hj. rewrite (rcoef2 _ _ 0 0 (degree sx + 1) (degree sy + 1)) by (reflexivity || lia). cbn [Nat.add]. rewrite <- Dx.
    rewrite (rows_nth _ (length sx)); [| intros; apply map_length | assumption..]. now rewrite map_nth_lt.
Qed.
(** cells *)
Lemma k2_2_entries phi det f sx sy qx wx qy wy : nodes_ok sx -> nodes_ok sy ->
  length (rd_m2n2k2 phi det f sx sy qx wx qy wy) = nd_m2n2k2 (degree sx) (degree sy) /\
  (forall i j, (i < degree sx)%nat -> (j < degree sy)%nat ->
     rcoef (cochain (rd_m2n2k2 phi det f sx sy qx wx qy wy)) (ln_m2n2k2 (degree sx) (degree sy)) 0 [i; j]
     = rule_sum2 qx wx qy wy (node sx i) (node sx (S i)) (node sy j) (node sy (S j)) (fun x y => f (phi x y) * det x y)).
Proof.
  intros Hx Hy. rewrite ln_m2n2k2_eq. unfold rd_m2n2k2, nd_m2n2k2. split; [now rewrite map_length, seq_length |].
  intros i j Hi Hj. rewrite (rcoef2 _ _ 0 0 (degree sx) (degree sy)) by (reflexivity || lia). cbn [Nat.add].
  rewrite nth_map_seq by now apply grid_lt. rewrite fill2; [| intros; lia | assumption..]. cbv beta iota.
  rewrite <- (sum2_rule qx wx qy wy _ _ _ _ _ (size sx i * size sy j * (1 / 4))) by (unfold size, node; field).
  rewrite !np_sum_total. apply total_ext. intros r _. rewrite !np_sum_total. apply total_ext. intros s _. rewrite !between_eq. ring.
Qed.
