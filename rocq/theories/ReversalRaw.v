(** Proofs that in straight elements the dofs of degree 1 are integrals between
    the corners named in [walk]. *)
From Coq Require Import List Arith Reals Lia Lra.
From Coquelicot Require Import Coquelicot.
From Verif Require Import PolyModel PolySpec PolyProofs TensorSpec TensorThms LocalNumberingModel MappingModel MappingSpec MappingProofs ReduceModel ReduceSpec ReduceForms ReduceTri ReversalModel ReversalSpec ReversalGeom.
Import List ListNotations.
Local Open Scope R_scope.
Local Notation mat := MappingModel.mat.


Lemma total_rev n f : total n f = total n (fun i => f (n - 1 - i)%nat).
Proof.
  induction n as [|n IH]; [reflexivity|]. rewrite (total_shift n (fun i => f (S n - 1 - i)%nat)). cbn [total]. rewrite IH.
  replace (S n - 1 - 0)%nat with n by lia. rewrite (total_ext n (fun i => f (S n - 1 - S i)%nat) (fun i => f (n - 1 - i)%nat)) by (intros; f_equal; lia). ring.
Qed.
Definition odd_second (g : R * R -> R * R -> R) : Prop := forall f v, g f (- fst v, - snd v) = - g f v.
Lemma edge_sum_directed g F q w A B : odd_second g -> symmetric_rule q w -> edge_sum g F q w B A = - edge_sum g F q w A B.
Proof.
  intros G [_ H]. unfold edge_sum. rewrite total_rev, <- total_opp. apply total_ext. intros r Hr. destruct (H r Hr) as [H1 H2]. rewrite H1, H2.
  replace (fst B + (- nth r q 0 + 1) / 2 * (fst A - fst B)) with (fst A + (nth r q 0 + 1) / 2 * (fst B - fst A)) by field.
  replace (snd B + (- nth r q 0 + 1) / 2 * (snd A - snd B)) with (snd A + (nth r q 0 + 1) / 2 * (snd B - snd A)) by field.
  replace ((fst A - fst B) / 2) with (- fst ((fst B - fst A) / 2, (snd B - snd A) / 2)) by (cbn; field).
  replace ((snd A - snd B) / 2) with (- snd ((fst B - fst A) / 2, (snd B - snd A) / 2)) by (cbn; field).
  rewrite G. ring.
Qed.
Lemma along_odd : odd_second along2. Proof. intros f v. unfold along2. cbn. ring. Qed.
Lemma right_odd : odd_second to_right. Proof. intros f v. unfold to_right. cbn. ring. Qed.
Lemma left_right f v : to_left f v = to_right f (- fst v, - snd v).
Proof. unfold to_left, to_right. cbn. ring. Qed.

(** a line of the reference element whose image is the edge *)
Lemma line_sum g F q w A B phi v : (forall t, phi t = (fst A + (t + 1) / 2 * (fst B - fst A), snd A + (t + 1) / 2 * (snd B - snd A))) ->
  (forall t, v t = ((fst B - fst A) / 2, (snd B - snd A) / 2)) ->
  rule_sum q w (-1) 1 (fun t => g (F (phi t)) (v t)) = edge_sum g F q w A B.
Proof.
  intros H1 H2. unfold rule_sum, edge_sum. rewrite <- total_scal. apply total_ext. intros r _. rewrite H1, H2.
  replace (-1 + (1 - -1) / 2 * (nth r q 0 + 1)) with (nth r q 0) by field. field.
Qed.
Lemma line_left F q w A B phi v : symmetric_rule q w -> (forall t, phi t = (fst A + (t + 1) / 2 * (fst B - fst A), snd A + (t + 1) / 2 * (snd B - snd A))) ->
  (forall t, v t = ((fst B - fst A) / 2, (snd B - snd A) / 2)) ->
  rule_sum q w (-1) 1 (fun t => to_left (F (phi t)) (v t)) = edge_sum to_right F q w B A.
Proof.
  intros S H1 H2. rewrite (edge_sum_directed _ _ _ _ _ _ right_odd S), <- (line_sum to_right F q w A B phi v H1 H2).
  unfold rule_sum. rewrite (Ropp_mult_distr_r ((1 - -1) / 2)), <- total_opp. f_equal. apply total_ext. intros r _. rewrite left_right, right_odd. ring.
Qed.

Lemma smooth_moves phi J : smooth2 phi J -> moves2 phi (fun x y => (J x y 0%nat 0%nat, J x y 1%nat 0%nat)) (fun x y => (J x y 0%nat 1%nat, J x y 1%nat 1%nat)).
Proof. intros S x y Hx Hy. destruct (S x y Hx Hy) as [C D]. apply D2_partial in C, D. split; split; cbn; tauto. Qed.
Lemma unit_ok : nodes_ok unit_nodes /\ in_reference unit_nodes.
Proof. split; [split; [|cbn; lia]|repeat constructor; lra]. intros i j H. cbn in H. assert (i = 0 /\ j = 1)%nat as [-> ->] by lia. cbn. lra. Qed.


Lemma nth_some (l : list R) c v : (c < length l)%nat -> nth c l 0 = v -> nth_error l c = Some v.
Proof. intros H <-. now apply nth_error_nth'. Qed.

Section Quads.
Variables (phi : R -> R -> pt2) (J : R -> R -> mat) (F : pt2 -> pt2) (q w : list R).
Hypotheses (S : smooth2 phi J) (Q : symmetric_rule q w) (I : in_reference q).
Definition vx x y : R * R := (J x y 0%nat 0%nat, J x y 1%nat 0%nat).
Definition vy x y : R * R := (J x y 0%nat 1%nat, J x y 1%nat 1%nat).
Lemma quad_inner : length (raw Inner Quad9 phi J F q w) = 4%nat /\
  nth 0 (raw Inner Quad9 phi J F q w) 0 = rule_sum q w (-1) 1 (fun t => along2 (F (phi t (-1))) (vx t (-1))) /\
  nth 1 (raw Inner Quad9 phi J F q w) 0 = rule_sum q w (-1) 1 (fun t => along2 (F (phi t 1)) (vx t 1)) /\
  nth 2 (raw Inner Quad9 phi J F q w) 0 = rule_sum q w (-1) 1 (fun t => along2 (F (phi (-1) t)) (vy (-1) t)) /\
  nth 3 (raw Inner Quad9 phi J F q w) 0 = rule_sum q w (-1) 1 (fun t => along2 (F (phi 1 t)) (vy 1 t)).
Proof.
  destruct unit_ok as [U1 U2]. destruct (inner_entries phi J F unit_nodes unit_nodes q w q w vx vy U1 U1 U2 U2 (proj1 Q) (proj1 Q) I I S (smooth_moves phi J S)) as (L & A & B).
  split; [exact L|]. pose proof (A 0 0 ltac:(cbn; lia) ltac:(cbn; lia))%nat as A0. pose proof (A 0 1 ltac:(cbn; lia) ltac:(cbn; lia))%nat as A1.
  pose proof (B 0 0 ltac:(cbn; lia) ltac:(cbn; lia))%nat as B0. pose proof (B 1 0 ltac:(cbn; lia) ltac:(cbn; lia))%nat as B1.
  repeat split; assumption.
Qed.
Lemma quad_outer : length (raw Outer Quad9 phi J F q w) = 4%nat /\
  nth 0 (raw Outer Quad9 phi J F q w) 0 = rule_sum q w (-1) 1 (fun t => to_right (F (phi (-1) t)) (vy (-1) t)) /\
  nth 1 (raw Outer Quad9 phi J F q w) 0 = rule_sum q w (-1) 1 (fun t => to_right (F (phi 1 t)) (vy 1 t)) /\
  nth 2 (raw Outer Quad9 phi J F q w) 0 = rule_sum q w (-1) 1 (fun t => to_left (F (phi t (-1))) (vx t (-1))) /\
  nth 3 (raw Outer Quad9 phi J F q w) 0 = rule_sum q w (-1) 1 (fun t => to_left (F (phi t 1)) (vx t 1)).
Proof.
  destruct unit_ok as [U1 U2]. destruct (outer_entries phi J F unit_nodes unit_nodes q w q w vx vy U1 U1 U2 U2 (proj1 Q) (proj1 Q) I I S (smooth_moves phi J S)) as (L & A & B).
  split; [exact L|]. pose proof (A 0 0 ltac:(cbn; lia) ltac:(cbn; lia))%nat as A0. pose proof (A 1 0 ltac:(cbn; lia) ltac:(cbn; lia))%nat as A1.
  pose proof (B 0 0 ltac:(cbn; lia) ltac:(cbn; lia))%nat as B0. pose proof (B 0 1 ltac:(cbn; lia) ltac:(cbn; lia))%nat as B1.
  repeat split; assumption.
Qed.
Lemma tri_inner : length (raw Inner Triangle5 phi J F q w) = 3%nat /\
  nth 0 (raw Inner Triangle5 phi J F q w) 0 = rule_sum q w (-1) 1 (fun t => along2 (F (phi t (-1))) (vx t (-1))) /\
  nth 1 (raw Inner Triangle5 phi J F q w) 0 = rule_sum q w (-1) 1 (fun t => along2 (F (phi t 1)) (vx t 1)) /\
  nth 2 (raw Inner Triangle5 phi J F q w) 0 = rule_sum q w (-1) 1 (fun t => along2 (F (phi 1 t)) (vy 1 t)).
Proof.
  destruct unit_ok as [U1 U2]. destruct (inner_tri_entries phi J F unit_nodes unit_nodes q w q w vx vy U1 U1 U2 U2 (proj1 Q) (proj1 Q) I I S (smooth_moves phi J S)) as (L & A & B).
  split; [exact L|]. pose proof (A 0 0 ltac:(cbn; lia) ltac:(cbn; lia))%nat as A0. pose proof (A 0 1 ltac:(cbn; lia) ltac:(cbn; lia))%nat as A1.
  pose proof (B 0 0 ltac:(cbn; lia) ltac:(cbn; lia))%nat as B0.
  repeat split; assumption.
Qed.
Lemma tri_outer : length (raw Outer Triangle5 phi J F q w) = 3%nat /\
  nth 0 (raw Outer Triangle5 phi J F q w) 0 = rule_sum q w (-1) 1 (fun t => to_right (F (phi 1 t)) (vy 1 t)) /\
  nth 1 (raw Outer Triangle5 phi J F q w) 0 = rule_sum q w (-1) 1 (fun t => to_left (F (phi t (-1))) (vx t (-1))) /\
  nth 2 (raw Outer Triangle5 phi J F q w) 0 = rule_sum q w (-1) 1 (fun t => to_left (F (phi t 1)) (vx t 1)).
Proof.
  destruct unit_ok as [U1 U2]. destruct (outer_tri_entries phi J F unit_nodes unit_nodes q w q w vx vy U1 U1 U2 U2 (proj1 Q) (proj1 Q) I I S (smooth_moves phi J S)) as (L & A & B).
  split; [exact L|]. pose proof (A 0 0 ltac:(cbn; lia) ltac:(cbn; lia))%nat as A0.
  pose proof (B 0 0 ltac:(cbn; lia) ltac:(cbn; lia))%nat as B0. pose proof (B 0 1 ltac:(cbn; lia) ltac:(cbn; lia))%nat as B1.
  repeat split; assumption.
Qed.
End Quads.

(** * straight elements *)

Ltac maps := intros; unfold vx, vy, quad9, quad_map, bilinear, quad9_J, tri5, tri5_J, tri_one, tri_dxi, tri_det, ortho_rect, ortho_rect_J, mat2; cbn;
  unfold quad_coef, dot4, tri_T; cbn; repeat match goal with E : ?f (_ / 2) = _ / 2 |- _ => try rewrite E; clear E end; apply (f_equal2 pair); field.
Ltac faces f W C L H0 H1 H2 H3 Q :=
  do 4 (destruct f as [|f]; [cbn in W, C; first [discriminate W|injection W as <- <-; injection C as <-; do 2 eexists; split; [reflexivity|]; split; [reflexivity|]; apply nth_some;
     [refine (Nat.lt_le_trans _ _ _ _ (Nat.eq_le_incl _ _ (eq_sym L))); repeat constructor|];
     first [refine (eq_trans H0 _)|refine (eq_trans H1 _)|refine (eq_trans H2 _)|refine (eq_trans H3 _)];
     first [apply (line_sum along2); maps|apply (line_sum to_right); maps|apply line_left; [exact Q|maps|maps]]]
     |]); destruct f; discriminate.
Theorem raw_dofs k t P phi J F q w f i j c : straight t P phi J -> symmetric_rule q w -> in_reference q ->
  nth_error (walk k t) f = Some (i, j) -> nth_error (cochain_indices k t) f = Some c ->
  exists A B, nth_error P i = Some A /\ nth_error P j = Some B /\ nth_error (raw k t phi J F q w) c = Some (edge_sum (along_or_through k) F q w A B).
Proof.
  intros H Q I W C.
  assert (S : smooth2 phi J). { intros x y _ _. destruct H; [apply quad9_jac|apply tri5_jac|now apply ortho_rect_jac]. }
  destruct H as [A B C0 D|A B C0|rd8 ox oy dx dy E1 E2]; destruct k; cbn [walk cochain_indices] in W, C.
  - destruct (quad_inner _ _ F q w S Q I) as (L & H0 & H1 & H2 & H3). faces f W C L H0 H1 H2 H3 Q.
  - destruct (quad_outer _ _ F q w S Q I) as (L & H0 & H1 & H2 & H3). faces f W C L H0 H1 H2 H3 Q.
  - destruct (tri_inner _ _ F q w S Q I) as (L & H0 & H1 & H2). faces f W C L H0 H1 H2 H2 Q.
  - destruct (tri_outer _ _ F q w S Q I) as (L & H0 & H1 & H2). faces f W C L H0 H1 H2 H2 Q.
  - destruct (quad_inner _ _ F q w S Q I) as (L & H0 & H1 & H2 & H3). faces f W C L H0 H1 H2 H3 Q.
  - destruct (quad_outer _ _ F q w S Q I) as (L & H0 & H1 & H2 & H3). faces f W C L H0 H1 H2 H3 Q.
Qed.

(** * meshes of straight elements *)
Theorem edges_directed k X F q w : symmetric_rule q w -> directed (edge_value k X F q w).
Proof. intros Q a b. unfold edge_value. apply edge_sum_directed; [destruct k; [exact along_odd|exact right_odd]|exact Q]. Qed.
Theorem straight_measured k m X F q w : straight_mesh k m X F q w -> symmetric_rule q w -> in_reference q -> measured k m (edge_value k X F q w).
Proof.
  intros H Q I x f i j c Hx W C. destruct (H x Hx) as (phi & J & S & E). destruct (raw_dofs k (e_type x) _ phi J F q w f i j c S Q I W C) as (A & B & HA & HB & HC).
  rewrite nth_error_map in HA, HB. destruct (nth_error (e_map x) i) as [a|]; [|discriminate]. destruct (nth_error (e_map x) j) as [b|]; [|discriminate].
  cbn in HA, HB. injection HA as <-. injection HB as <-. exists a, b. rewrite E. repeat split; auto.
Qed.
(** the constant fields of periodic meshes *)
Theorem constant_value k X u v q w a b : total (length w) (fun r => nth r w 0) = 2 ->
  edge_value k X (fun _ => (u, v)) q w a b =
  match k with Inner => u * (fst (X b) - fst (X a)) + v * (snd (X b) - snd (X a)) | Outer => u * (snd (X b) - snd (X a)) - v * (fst (X b) - fst (X a)) end.
Proof.
  intros H. unfold edge_value, edge_sum. rewrite total_scal_r, H. destruct k; unfold along_or_through, along2, to_right; cbn [fst snd]; field.
Qed.

(** * wrong answers *)
Lemma two_rule : symmetric_rule two_points two_weights /\ in_reference two_points /\ total (length two_weights) (fun r => nth r two_weights 0) = 2.
Proof.
  split; [split; [reflexivity|]|split; [repeat constructor; lra|cbn; ring]]. intros r Hr. cbn in Hr. destruct r as [|[|r]]; [| |lia]; cbn; lra.
Qed.
