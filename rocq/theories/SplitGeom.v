(** Proofs about the children of one element. *)
From Coq Require Import List Arith ZArith Reals String Bool Lra Lia.
From Coquelicot Require Import Coquelicot.
From Verif Require Import MappingModel MappingSpec MappingProofs SplitModel SplitSpec.
Import List ListNotations.
Local Open Scope R_scope.
Local Notation mat := MappingModel.mat.

Ltac q9 := unfold in_element2, in_element2_J, quad9, quad9_J, quad_map, bilinear, quad_coef, dot4, xs_of, ys_of, axis, half2, segment, ortho_rect, mat2;
  cbn [map fst snd combine nth fold_right quad_invA].

Definition offsets : list (R * R) := [(-1, -1); (0, -1); (0, 0); (-1, 0)].
Lemma quad_child A B C D k o P xi et : nth_error offsets k = Some o -> nth_error (quad_paras A B C D) k = Some P ->
  quad9 P xi et = in_element2 (quad9 [A; B; C; D]) (fst o) (snd o) 1 1 xi et.
Proof.
  destruct A, B, C, D. destruct k as [|[|[|[|[|k]]]]]; intros [= <-] [= <-]; q9; apply (f_equal2 pair); field.
Qed.
Lemma quad_child_J A B C D k o P xi et : nth_error offsets k = Some o -> nth_error (quad_paras A B C D) k = Some P ->
  forall i j, (i < 2)%nat -> (j < 2)%nat -> quad9_J P xi et i j = in_element2_J (quad9_J [A; B; C; D]) (fst o) (snd o) 1 1 xi et i j.
Proof.
  destruct A, B, C, D. destruct k as [|[|[|[|[|k]]]]]; intros [= <-] [= <-]; intros [|[|i]] [|[|j]] Hi Hj; try lia; q9; cbn [nth]; q9; field.
Qed.
Lemma rect_quad ox oy dx dy xi et : quad9 [(ox, oy); (ox + dx, oy); (ox + dx, oy + dy); (ox, oy + dy)] xi et = ortho_rect ox oy dx dy xi et.
Proof. q9. apply (f_equal2 pair); field. Qed.

(** the determinant shrinks to a quarter, so its sign stays *)
Lemma det_child (J : R -> R -> mat) o0 o1 xi et : det2 (in_element2_J J o0 o1 1 1 xi et) = det2 (J (axis o0 1 xi) (axis o1 1 et)) / 4.
Proof. unfold det2, in_element2_J. cbn [nth]. unfold mat2. cbn [nth]. field. Qed.

(** ** boxes *)
Definition octants : list (R * R * R) := [(-1, -1, -1); (0, -1, -1); (-1, 0, -1); (0, 0, -1); (-1, -1, 0); (0, -1, 0); (-1, 0, 0); (0, 0, 0)].
Lemma box_child ox oy oz dx dy dz nA nB nD nC nK nL nM nN k c x s m : nth_error octants k = Some c ->
  nth_error (split_box (ox, oy, oz) (dx, dy, dz) nA nB nD nC nK nL nM nN) k = Some (x, s, m) ->
  let px := ox + (fst (fst c) + 1) * (dx / 2) in let py := oy + (snd (fst c) + 1) * (dy / 2) in let pz := oz + (snd c + 1) * (dz / 2) in
  s = Voxel (box_corners (px, py, pz) (dx / 2, dy / 2, dz / 2)).
Proof.
  destruct k as [|[|[|[|[|[|[|[|[|k]]]]]]]]]; intros [= <-] [= <- <- <-]; cbv zeta; unfold box_corners, half2; cbn [fst snd]; f_equal;
    repeat (apply (f_equal2 cons); [apply (f_equal2 pair); [apply (f_equal2 pair)|]; field|]); reflexivity.
Qed.
Lemma voxel_box_corners px py pz ex ey ez : voxel_box (box_corners (px, py, pz) (ex, ey, ez)) = Some ((px, py, pz), (ex, ey, ez)).
Proof. cbn. f_equal. apply (f_equal2 pair); auto. apply (f_equal2 pair); [apply (f_equal2 pair)|]; ring. Qed.
Lemma hex_child ox oy oz dx dy dz c0 c1 c2 xi et sg :
  ortho_hex (ox + (c0 + 1) * (dx / 2)) (oy + (c1 + 1) * (dy / 2)) (oz + (c2 + 1) * (dz / 2)) (dx / 2) (dy / 2) (dz / 2) xi et sg =
  in_element3 (ortho_hex ox oy oz dx dy dz) c0 c1 c2 1 1 1 xi et sg.
Proof. unfold in_element3, ortho_hex, axis. apply (f_equal2 pair); [apply (f_equal2 pair)|]; field. Qed.
Lemma box_children_straight o d nA nB nD nC nK nL nM nN x s m : In (x, s, m) (split_box o d nA nB nD nC nK nL nM nN) -> straight s.
Proof.
  destruct o as [[ox oy] oz], d as [[dx dy] dz]. intros H. apply In_nth_error in H as [k H].
  assert (K : (k < length (split_box (ox, oy, oz) (dx, dy, dz) nA nB nD nC nK nL nM nN))%nat) by (apply nth_error_Some; congruence).
  change (k < 8)%nat in K.
  destruct (nth_error octants k) as [c|] eqn:E; [|apply nth_error_None in E; simpl in E; lia].
  rewrite (box_child _ _ _ _ _ _ _ _ _ _ _ _ _ _ k c x s m E H). cbn [straight]. eexists _, _. reflexivity.
Qed.

(** ** triangles *)
Definition tri2 (A B C : pt2) : R := (fst B - fst A) * (snd C - snd A) - (snd B - snd A) * (fst C - fst A).
Lemma area2_triangle A B C : area2 [A; B; C] = tri2 A B C.
Proof. unfold area2, tri2, cross. cbn. ring. Qed.
Lemma triangle_child_area A B C n0 n1 n2 x P m : In (x, Quad P, m) (split_triangle A B C n0 n1 n2) -> area2 P = area2 [A; B; C] / 3.
Proof.
  destruct A, B, C. intros [[= <- <- <-]|[[= <- <- <-]|[[= <- <- <-]|[]]]]; unfold area2, cross, half2; cbn; field.
Qed.
Lemma triangle_child_det A B C n0 n1 n2 x P m xi et : In (x, Quad P, m) (split_triangle A B C n0 n1 n2) ->
  det2 (quad9_J P xi et) = tri2 A B C / 4 * (1 / 4 - (xi + 1) / 24 - (et + 1) / 24).
Proof.
  destruct A, B, C. intros [[= <- <- <-]|[[= <- <- <-]|[[= <- <- <-]|[]]]]; unfold det2, tri2; q9; cbn [nth fst snd]; q9; cbn [nth fst snd]; field.
Qed.
Lemma triangle_child_positive A B C n0 n1 n2 x P m xi et : In (x, Quad P, m) (split_triangle A B C n0 n1 n2) -> 0 < area2 [A; B; C] ->
  -1 <= xi <= 1 -> -1 <= et <= 1 -> 0 < det2 (quad9_J P xi et).
Proof.
  intros H. rewrite area2_triangle. rewrite (triangle_child_det _ _ _ _ _ _ _ _ _ xi et H). intros T X Y.
  apply Rmult_lt_0_compat; lra.
Qed.
(** the child at a corner lies in the part of the triangle that is nearer to that corner in barycentric coordinates *)
Lemma triangle_child_place A B C n0 n1 n2 k x P m xi et : nth_error (split_triangle A B C n0 n1 n2) k = Some (x, Quad P, m) -> -1 <= xi <= 1 -> -1 <= et <= 1 ->
  exists a b c, 0 <= a /\ 0 <= b /\ 0 <= c /\ a + b + c = 1 /\
    quad9 P xi et = (a * fst A + b * fst B + c * fst C, a * snd A + b * snd B + c * snd C) /\
    match k with O => b <= a /\ c <= a | S O => a <= b /\ c <= b | _ => a <= c /\ b <= c end.
Proof.
  intros H X Y. set (r := (xi + 1) / 2). set (s := (et + 1) / 2). assert (0 <= r <= 1) by (unfold r; lra). assert (0 <= s <= 1) by (unfold s; lra).
  assert (0 <= r * s <= 1) by nra. assert (r * s <= r /\ r * s <= s) by nra.
  set (u := r / 2 - r * s / 6). set (v := s / 2 - r * s / 6).
  assert (Hu : 0 <= u) by (unfold u; lra). assert (Hv : 0 <= v) by (unfold v; lra).
  assert (u + v + u <= 1 /\ u + v + v <= 1). { unfold u, v. split; nra. }
  destruct A, B, C. destruct k as [|[|[|[|k]]]]; cbn in H; try discriminate; injection H as <- <- <-.
  - exists (1 - u - v), u, v. repeat split; try lra. unfold u, v, r, s. q9. apply (f_equal2 pair); field.
  - exists v, (1 - u - v), u. repeat split; try lra. unfold u, v, r, s. q9. apply (f_equal2 pair); field.
  - exists u, v, (1 - u - v). repeat split; try lra. unfold u, v, r, s. q9. apply (f_equal2 pair); field.
Qed.
Lemma quad_children_area A B C D : fold_right Rplus 0 (map area2 (quad_paras A B C D)) = area2 [A; B; C; D].
Proof. destruct A, B, C, D. unfold area2, cross, quad_paras, half2. cbn. field. Qed.

(** ** sides of the children make up the sides of the parent; inner sides cancel *)
Lemma chain_quad (w : node -> node -> R) n0 n1 n2 n3 : antisymmetric w ->
  fold_right Rplus 0 (map (around_sum w) (quad_maps n0 n1 n2 n3)) =
  fold_right Rplus 0 (map (fun e => w (Int (fst e)) (pair_ (fst e) (snd e)) + w (pair_ (fst e) (snd e)) (Int (snd e))) (ends [n0; n1; n2; n3])).
Proof.
  intros A. unfold around_sum, quad_maps, ends. cbn [map fold_right fst snd combine app].
  rewrite (A (pair_ n0 n1) (Tup [n0; n1; n2; n3])), (A (pair_ n1 n2) (Tup [n0; n1; n2; n3])), (A (pair_ n2 n3) (Tup [n0; n1; n2; n3])), (A (pair_ n3 n0) (Tup [n0; n1; n2; n3])). ring.
Qed.
Lemma pair_swap a b : pair_ a b = pair_ b a.
Proof. unfold pair_. cbn. destruct (Z.leb_spec a b), (Z.leb_spec b a); f_equal; try lia; f_equal; try lia; f_equal; lia. Qed.
Lemma chain_triangle (w : node -> node -> R) A B C n0 n1 n2 : antisymmetric w ->
  fold_right Rplus 0 (map (fun q => around_sum w (snd q)) (split_triangle A B C n0 n1 n2)) =
  fold_right Rplus 0 (map (fun e => w (Int (fst e)) (pair_ (fst e) (snd e)) + w (pair_ (fst e) (snd e)) (Int (snd e))) (ends [n0; n1; n2])).
Proof.
  intros S. unfold around_sum, split_triangle, ends. cbn [map fold_right fst snd combine app]. rewrite (pair_swap n2 n0).
  rewrite (S (pair_ n0 n1) (Tup [n0; n1; n2])), (S (pair_ n1 n2) (Tup [n0; n1; n2])), (S (pair_ n0 n2) (Tup [n0; n1; n2])). ring.
Qed.
Lemma chain_one (w : node -> node -> R) s m c : antisymmetric w -> sound s m -> split_one s m = Some c ->
  fold_right Rplus 0 (map (fun q => around_sum w (snd q)) c) =
  fold_right Rplus 0 (map (fun e => w (Int (fst e)) (pair_ (fst e) (snd e)) + w (pair_ (fst e) (snd e)) (Int (snd e))) (ends (cycle s m))).
Proof.
  intros A [_ H]. destruct s; try contradiction; cbn [split_one].
  - destruct P as [|a [|b [|d [|? P]]]], m as [|n0 [|n1 [|n2 [|? m]]]]; try discriminate. intros [= <-]. cbn [cycle]. now apply chain_triangle.
  - destruct P as [|a [|b [|d [|e [|? P]]]]], m as [|n0 [|n1 [|n2 [|n3 [|? m]]]]]; try discriminate. intros [= <-]. cbn [cycle]. now rewrite <- (chain_quad w).
  - destruct m as [|n0 [|n1 [|n2 [|n3 [|? m]]]]]; try discriminate. intros [= <-]. cbn [cycle]. now rewrite <- (chain_quad w).
  - destruct m as [|n0 [|n1 [|n2 [|n3 [|? m]]]]]; try discriminate. intros [= <-]. cbn [cycle]. now rewrite <- (chain_quad w).
Qed.
