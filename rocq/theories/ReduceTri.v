(** Reduction on triangles: the row of dofs at the corner is left out. *)
From Coq Require Import List Arith Reals Lra Lia.
From Coquelicot Require Import Coquelicot.
From Verif Require Import MappingModel MappingSpec PolyModel PolySpec PolyProofs PolyCalc NdArray LocalNumberingModel IncidenceModel IncidenceSpec IncidenceThms TensorModel TensorSpec TensorThms FaceSpec TriangleThms ReduceModel ReduceSpec ReduceProofs ReduceForms.
Import List ListNotations.
Local Open Scope R_scope.
Local Notation mat := MappingModel.mat.

Lemma seq_rows {A} (f : nat -> nat -> A) n m a b d : (a < n)%nat -> (b < m)%nat -> forall s, nth (a + n * b) (flat_map (fun j => map (fun i => f i j) (seq 0 n)) (seq s m)) d = f a (s + b)%nat.
Proof.
  intros Ha. revert b. induction m as [| m IH]; intros b Hb s; [lia |]. cbn [seq flat_map]. destruct b as [| b].
  - rewrite app_nth1 by (rewrite map_length, seq_length; lia). rewrite Nat.mul_0_r, !Nat.add_0_r. rewrite (nth_indep _ d (f 0%nat s)) by (rewrite map_length, seq_length; lia).
    rewrite (map_nth (fun i => f i s)), seq_nth by assumption. reflexivity.
  - rewrite app_nth2 by (rewrite map_length, seq_length; lia). rewrite map_length, seq_length. replace (a + n * S b - n)%nat with (a + n * b)%nat by lia.
    rewrite (IH b ltac:(lia) (S s)). f_equal. lia.
Qed.
Lemma drop_row_nth px py c i j : length c = ((px + 1) * py)%nat -> (i < px)%nat -> (j < py)%nat -> nth (i + px * j) (drop_row px py c) 0 = nth (S i + (px + 1) * j) c 0.
Proof.
  intros L Hi Hj. unfold drop_row, loops2.
  assert (X : nth (i + px * j) (flat_map (fun j => map (fun i => nth (S i + (px + 1) * j) c 0) (seq 0 px)) (seq 0 py)) 0 = nth (S i + (px + 1) * j) c 0) by (rewrite (seq_rows (fun i j => nth (S i + (px + 1) * j) c 0)) by assumption; reflexivity).
  destruct (Nat.eqb_spec px 1) as [-> |]; [destruct (Nat.eqb_spec py 1) as [-> |] |]; try exact X.
  replace i with 0%nat by lia. replace j with 0%nat by lia. cbn. destruct c as [| a c]; cbn in L; [lia |]. now destruct c.
Qed.
Lemma drop_row_len px py c : length c = ((px + 1) * py)%nat -> length (drop_row px py c) = (px * py)%nat.
Proof.
  intros L. unfold drop_row, loops2.
  assert (X : length (flat_map (fun j => map (fun i => nth (S i + (px + 1) * j) c 0) (seq 0 px)) (seq 0 py)) = (px * py)%nat)
    by (rewrite (rows_len _ px), seq_length by (intros; now rewrite map_length, seq_length); reflexivity).
  destruct (Nat.eqb_spec px 1) as [-> |]; [destruct (Nat.eqb_spec py 1) as [-> |] |]; try exact X.
  destruct c as [| a c]; cbn in *; lia.
Qed.
Lemma inner_tri_entries phi J F sx sy qx wx qy wy vx vy : nodes_ok sx -> nodes_ok sy -> in_reference sx -> in_reference sy ->
  length qx = length wx -> length qy = length wy -> in_reference qx -> in_reference qy -> smooth2 phi J -> moves2 phi vx vy ->
  length (rd_m2n2k1_inner_tri phi J F sx sy qx wx qy wy) = ((degree sx) * ((degree sy) + 1) + (degree sx) * (degree sy))%nat /\
  (forall i j, (i < degree sx)%nat -> (j < length sy)%nat ->
     rcoef (cochain (rd_m2n2k1_inner_tri phi J F sx sy qx wx qy wy)) (ln_m2n2k1_inner_tri (degree sx) (degree sy)) 0 [i; j]
     = rule_sum qx wx (node sx i) (node sx (S i)) (fun t => along2 (F (phi t (node sy j))) (vx t (node sy j)))) /\
  (forall i j, (i < degree sx)%nat -> (j < degree sy)%nat ->
     rcoef (cochain (rd_m2n2k1_inner_tri phi J F sx sy qx wx qy wy)) (ln_m2n2k1_inner_tri (degree sx) (degree sy)) 1 [i; j]
     = rule_sum qy wy (node sy j) (node sy (S j)) (fun t => along2 (F (phi (node sx (S i)) t)) (vy (node sx (S i)) t))).
Proof.
  intros Hx Hy Rx Ry Lx Ly Qx Qy HS HM. destruct (deg_len sx Hx) as [Dx _]. destruct (deg_len sy Hy) as [Dy _]. rewrite ln_inner_tri_eq.
  refine (conj _ (conj _ _)).
  - unfold rd_m2n2k1_inner_tri. rewrite app_length, drop_row_len, inner_dx_len by apply inner_dy_len. lia.
  - intros i j Hi Hj. rewrite (rcoef2 _ _ 0 0 (degree sx) (degree sy + 1)) by (reflexivity || lia). unfold rd_m2n2k1_inner_tri. cbn [Nat.add].
    rewrite app_nth1 by (rewrite inner_dx_len; apply grid_lt; lia). eapply inner_dx_at; try eassumption; lia.
  - intros i j Hi Hj. rewrite (rcoef2 _ _ 1 (degree sx * (degree sy + 1)) (degree sx) (degree sy)) by (reflexivity || lia). unfold rd_m2n2k1_inner_tri.
    rewrite app_nth2 by (rewrite inner_dx_len; lia). rewrite inner_dx_len. replace (_ + _ - _)%nat with (i + degree sx * j)%nat by lia.
    rewrite drop_row_nth by (assumption || apply inner_dy_len). eapply inner_dy_at; try eassumption; lia.
Qed.
Lemma outer_tri_entries phi J F sx sy qx wx qy wy vx vy : nodes_ok sx -> nodes_ok sy -> in_reference sx -> in_reference sy ->
  length qx = length wx -> length qy = length wy -> in_reference qx -> in_reference qy -> smooth2 phi J -> moves2 phi vx vy ->
  length (rd_m2n2k1_outer_tri phi J F sx sy qx wx qy wy) = ((degree sx) * (degree sy) + (degree sx) * ((degree sy) + 1))%nat /\
  (forall i j, (i < degree sx)%nat -> (j < degree sy)%nat ->
     rcoef (cochain (rd_m2n2k1_outer_tri phi J F sx sy qx wx qy wy)) (ln_m2n2k1_outer_tri (degree sx) (degree sy)) 0 [i; j]
     = rule_sum qy wy (node sy j) (node sy (S j)) (fun t => to_right (F (phi (node sx (S i)) t)) (vy (node sx (S i)) t))) /\
  (forall i j, (i < degree sx)%nat -> (j < length sy)%nat ->
     rcoef (cochain (rd_m2n2k1_outer_tri phi J F sx sy qx wx qy wy)) (ln_m2n2k1_outer_tri (degree sx) (degree sy)) 1 [i; j]
     = rule_sum qx wx (node sx i) (node sx (S i)) (fun t => to_left (F (phi t (node sy j))) (vx t (node sy j)))).
Proof.
  intros Hx Hy Rx Ry Lx Ly Qx Qy HS HM. destruct (deg_len sx Hx) as [Dx _]. destruct (deg_len sy Hy) as [Dy _]. rewrite ln_outer_tri_eq.
  refine (conj _ (conj _ _)).
  - unfold rd_m2n2k1_outer_tri. rewrite app_length, drop_row_len, outer_dx_len by apply outer_dy_len. lia.
  - intros i j Hi Hj. rewrite (rcoef2 _ _ 0 0 (degree sx) (degree sy)) by (reflexivity || lia). unfold rd_m2n2k1_outer_tri. cbn [Nat.add].
    rewrite app_nth1 by (rewrite drop_row_len by apply outer_dy_len; apply grid_lt; lia). rewrite drop_row_nth by (assumption || apply outer_dy_len). eapply outer_dy_at; try eassumption; lia.
  - intros i j Hi Hj. rewrite (rcoef2 _ _ 1 (degree sx * degree sy) (degree sx) (degree sy + 1)) by (reflexivity || lia). unfold rd_m2n2k1_outer_tri.
    rewrite app_nth2 by (rewrite drop_row_len by apply outer_dy_len; lia). rewrite drop_row_len by apply outer_dy_len. replace (_ + _ - _)%nat with (i + degree sx * j)%nat by lia.
    eapply outer_dx_at; try eassumption; lia.
Qed.
(** one value at the corner *)
Lemma k0_tri_entries phi f sx sy i j : nodes_ok sx -> nodes_ok sy -> (i < length sx)%nat -> (j < length sy)%nat -> phi (node sx 0) (node sy j) = phi (node sx 0) (node sy 0) ->
  exists r, ln_m2n2k0_tri (degree sx) (degree sy) [i; j] = Some r /\ (r < length (rd_m2n2k0_tri phi f sx sy))%nat /\ nth r (rd_m2n2k0_tri phi f sx sy) 0 = f (phi (node sx i) (node sy j)).
Proof.
  intros Hx Hy Hi Hj C. destruct (deg_len sx Hx) as [Dx _]. destruct (deg_len sy Hy) as [Dy _]. unfold rd_m2n2k0_tri. destruct i as [| i].
  - exists 0%nat. cbn [ln_m2n2k0_tri]. destruct (Nat.ltb_spec j (degree sy + 1)); [| lia]. cbn [length nth]. refine (conj eq_refl (conj _ _)); [lia |]. unfold node in *. now rewrite C.
  - cbn [ln_m2n2k0_tri ravelF]. destruct (Nat.ltb_spec i (degree sx)); [| lia]. destruct (Nat.ltb_spec j (degree sy + 1)); [| lia].
    eexists. split; [reflexivity |]. assert (T : length (tl sx) = degree sx) by (destruct sx; cbn in *; lia).
    cbn [length nth Nat.add]. rewrite (rows_len _ (degree sx)) by (intros; now rewrite map_length). rewrite Nat.mul_0_r, Nat.add_0_r. split; [apply -> Nat.succ_lt_mono; apply grid_lt; lia |].
    rewrite (rows_nth _ (degree sx)) by (try assumption; intros; now rewrite map_length). rewrite map_nth_lt by lia. unfold node. destruct sx; [cbn in *; lia | reflexivity].
Qed.

(** * for the examples *)
Lemma pow_RInt k (a b : R) : is_RInt (fun x : R => x ^ k) a b ((b ^ S k - a ^ S k) / INR (S k)).
Proof.
  assert (N : INR (S k) <> 0) by (apply not_0_INR; lia). set (n := INR (S k)) in *.
  replace ((b ^ S k - a ^ S k) / n) with (minus (b ^ S k / n) (a ^ S k / n)) by (unfold minus, plus, opp; cbn -[pow]; field; exact N).
  apply (is_RInt_derive (fun x : R => x ^ S k / n)).
  - intros x _. apply (is_derive_ext (fun x : R => / n * x ^ S k)); [intros t; change (/ n * t ^ S k = t ^ S k * / n); ring |].
    replace (x ^ k) with (/ n * (INR (S k) * 1 * x ^ pred (S k))) by (fold n; cbn [pred]; field; exact N).
    apply (is_derive_scal (fun x : R => x ^ S k) x (/ n)). apply (is_derive_pow (fun x : R => x) (S k) x 1). auto_derive; trivial.
  - intros x _. apply (ex_derive_continuous (fun x : R => x ^ k)). auto_derive. trivial.
Qed.
Lemma pow_RInt_eq k (a b l : R) : l = (b ^ S k - a ^ S k) / INR (S k) -> is_RInt (fun x : R => x ^ k) a b l.
Proof. intros ->. apply pow_RInt. Qed.
