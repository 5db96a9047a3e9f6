(** Proofs about sizes, orientation, regions, corners and names of the children of an element. *)
From Coq Require Import List Arith ZArith Reals String Ascii Bool Lra Lia Permutation.
From Coquelicot Require Import Coquelicot.
From Verif Require Import MappingModel MappingSpec MappingProofs SplitModel SplitSpec SplitGeom SplitConf.
Import List ListNotations.
Local Open Scope R_scope.
Local Notation mat := MappingModel.mat.
Local Notation length := List.length.

(** ** which lists have children *)
Lemma straight_cases s : straight s ->
  (exists A B C, s = Triangle [A; B; C]) \/ (exists A B C D, s = Quad [A; B; C; D]) \/ (exists o d, s = Rect o d) \/ (exists o d, s = Hex o d) \/ (exists o d, s = Voxel (box_corners o d)).
Proof.
  destruct s as [P|P|o d|o d|P|f J|]; cbn; intros H; try contradiction.
  - left. destruct P as [|A [|B [|C [|? ?]]]]; try discriminate. eauto.
  - right; left. destruct P as [|A [|B [|C [|D [|? ?]]]]]; try discriminate. eauto 6.
  - eauto 6.
  - eauto 8.
  - destruct H as (o & d & ->). eauto 8.
Qed.
Lemma triangle_children A B C m c : split_one (Triangle [A; B; C]) m = Some c -> exists n0 n1 n2, m = [n0; n1; n2] /\ c = split_triangle A B C n0 n1 n2.
Proof. destruct m as [|a [|b [|d [|? ?]]]]; try discriminate. intros [= <-]. eauto 6. Qed.
Lemma quad_children A B C D m c : split_one (Quad [A; B; C; D]) m = Some c -> exists n0 n1 n2 n3, m = [n0; n1; n2; n3] /\ c = split_quad A B C D n0 n1 n2 n3.
Proof. destruct m as [|a [|b [|d [|e [|? ?]]]]]; try discriminate. intros [= <-]. eauto 8. Qed.
Lemma rect_children o d m c : split_one (Rect o d) m = Some c -> exists n0 n1 n3 n2, m = [n0; n1; n3; n2] /\ c = split_rect o d n0 n1 n3 n2.
Proof. destruct m as [|a [|b [|d0 [|e [|? ?]]]]]; try discriminate. intros [= <-]. eauto 8. Qed.
Lemma curved_children f J m c : split_one (Curved f J) m = Some c -> exists n0 n1 n2 n3, m = [n0; n1; n2; n3] /\ c = split_curved f J n0 n1 n2 n3.
Proof. destruct m as [|a [|b [|d0 [|e [|? ?]]]]]; try discriminate. intros [= <-]. eauto 8. Qed.
Lemma hex_children o d m c : split_one (Hex o d) m = Some c ->
  exists nA nB nD nC nK nL nM nN, m = [nA; nB; nD; nC; nK; nL; nM; nN] /\ c = split_box o d nA nB nD nC nK nL nM nN.
Proof. destruct m as [|n0 [|n1 [|n2 [|n3 [|n4 [|n5 [|n6 [|n7 [|? ?]]]]]]]]]; try discriminate. intros H. change (Some (split_box o d n0 n1 n2 n3 n4 n5 n6 n7) = Some c) in H. exists n0, n1, n2, n3, n4, n5, n6, n7. split; congruence. Qed.
Lemma voxel_children o d m c : split_one (Voxel (box_corners o d)) m = Some c ->
  exists nA nB nD nC nK nL nM nN, m = [nA; nB; nD; nC; nK; nL; nM; nN] /\ c = split_box o d nA nB nD nC nK nL nM nN.
Proof.
  destruct o as [[ox oy] oz], d as [[dx dy] dz].
  destruct m as [|n0 [|n1 [|n2 [|n3 [|n4 [|n5 [|n6 [|n7 [|? ?]]]]]]]]]; try discriminate. unfold split_one. rewrite voxel_box_corners.
  intros H. exists n0, n1, n2, n3, n4, n5, n6, n7. split; congruence.
Qed.

(** ** sizes *)
Lemma measure_box o d : measure (Voxel (box_corners o d)) = measure (Hex o d).
Proof. destruct o as [[ox oy] oz], d as [[dx dy] dz]. cbn. ring. Qed.
Lemma measure_split_box o d nA nB nD nC nK nL nM nN : total (shapes (split_box o d nA nB nD nC nK nL nM nN)) = measure (Hex o d).
Proof.
  destruct o as [[ox oy] oz], d as [[dx dy] dz]. unfold total, shapes, split_box, half2. cbn [map fst snd measure fold_right]. field.
Qed.
Lemma measure_quad A B C D n0 n1 n2 n3 : total (shapes (split_quad A B C D n0 n1 n2 n3)) = measure (Quad [A; B; C; D]).
Proof. pose proof (quad_children_area A B C D) as H. unfold total, shapes, split_quad, four, quad_paras, quad_maps in *. cbn [map fst snd measure fold_right combine] in *. lra. Qed.
Lemma measure_children s m c : straight s -> split_one s m = Some c -> total (shapes c) = measure s.
Proof.
  intros H E. destruct (straight_cases s H) as [(A & B & C & ->)|[(A & B & C & D & ->)|[(o & d & ->)|[(o & d & ->)|(o & d & ->)]]]].
  - destruct (triangle_children _ _ _ _ _ E) as (n0 & n1 & n2 & -> & ->). destruct A, B, C. unfold total, shapes, split_triangle. cbn [map fst snd fold_right measure]. unfold area2, ends, cross, half2. cbn [map fst snd fold_right combine app]. field.
  - destruct (quad_children _ _ _ _ _ _ E) as (n0 & n1 & n2 & n3 & -> & ->). apply measure_quad.
  - destruct (rect_children _ _ _ _ E) as (n0 & n1 & n3 & n2 & -> & ->). destruct o as [ox oy], d as [dx dy].
    change (total (shapes (split_rect (ox, oy) (dx, dy) n0 n1 n3 n2))) with (total (shapes (split_quad (ox, oy) (ox + dx, oy) (ox + dx, oy + dy) (ox, oy + dy) n0 n1 n2 n3))).
    rewrite measure_quad. cbn. unfold area2, cross. cbn. field.
  - destruct (hex_children _ _ _ _ E) as (nA & nB & nD & nC & nK & nL & nM & nN & -> & ->). apply measure_split_box.
  - destruct (voxel_children _ _ _ _ E) as (nA & nB & nD & nC & nK & nL & nM & nN & -> & ->). rewrite measure_box. apply measure_split_box.
Qed.
Lemma straight_children s m c x s' m' : straight s -> split_one s m = Some c -> In (x, s', m') c -> straight s'.
Proof.
  intros H E I. destruct (straight_cases s H) as [(A & B & C & ->)|[(A & B & C & D & ->)|[(o & d & ->)|[(o & d & ->)|(o & d & ->)]]]].
  - destruct (triangle_children _ _ _ _ _ E) as (n0 & n1 & n2 & -> & ->). destruct I as [[= <- <- <-]|[[= <- <- <-]|[[= <- <- <-]|[]]]]; reflexivity.
  - destruct (quad_children _ _ _ _ _ _ E) as (n0 & n1 & n2 & n3 & -> & ->). apply four_in in I as (k & Hs & _). apply nth_map_some in Hs as (P & HP & ->). exact (paras_length _ _ _ _ _ _ HP).
  - destruct (rect_children _ _ _ _ E) as (n0 & n1 & n3 & n2 & -> & ->). apply four_in in I as (k & Hs & _). apply nth_map_some in Hs as (P & HP & ->). exact (paras_length _ _ _ _ _ _ HP).
  - destruct (hex_children _ _ _ _ E) as (nA & nB & nD & nC & nK & nL & nM & nN & -> & ->). eapply box_children_straight; eauto.
  - destruct (voxel_children _ _ _ _ E) as (nA & nB & nD & nC & nK & nL & nM & nN & -> & ->). eapply box_children_straight; eauto.
Qed.

(** ** orientation *)
Lemma det2_ext (J K : mat) : (forall i j, (i < 2)%nat -> (j < 2)%nat -> J i j = K i j) -> det2 J = det2 K.
Proof. intros H. unfold det2. rewrite !H by lia. reflexivity. Qed.
Lemma axis_part k o t u : nth_error offsets k = Some o -> -1 <= t <= 1 -> -1 <= u <= 1 -> -1 <= axis (fst o) 1 t <= 1 /\ -1 <= axis (snd o) 1 u <= 1.
Proof.
  destruct k as [|[|[|[|k]]]]; [| | | |destruct k; discriminate]; intros [= <-]; unfold axis; cbn [fst snd]; lra.
Qed.
Lemma quad_rect_det ox oy dx dy xi et : det2 (quad9_J [(ox, oy); (ox + dx, oy); (ox + dx, oy + dy); (ox, oy + dy)] xi et) = dx * dy / 4.
Proof. unfold det2. q9. cbn [nth fst snd]. q9. cbn [nth fst snd]. field. Qed.
Lemma oriented_quad_children A B C D suf n0 n1 n2 n3 x s' m' : (forall xi et, -1 <= xi <= 1 -> -1 <= et <= 1 -> 0 < det2 (quad9_J [A; B; C; D] xi et)) ->
  In (x, s', m') (four suf (map Quad (quad_paras A B C D)) (quad_maps n0 n1 n2 n3)) -> oriented s'.
Proof.
  intros O I. apply four_in in I as (k & Hs & _ & K). apply nth_map_some in Hs as (P & HP & ->). destruct (offset_at k K) as [o Ho].
  intros xi et X Y. rewrite (det2_ext _ _ (quad_child_J A B C D k o P xi et Ho HP)), det_child. destruct (axis_part k o xi et Ho X Y) as [X' Y'].
  specialize (O _ _ X' Y'). lra.
Qed.
Lemma oriented_box_children o d nA nB nD nC nK nL nM nN x s' m' : 0 < measure (Hex o d) -> In (x, s', m') (split_box o d nA nB nD nC nK nL nM nN) -> oriented s'.
Proof.
  destruct o as [[ox oy] oz], d as [[dx dy] dz]. cbn [measure]. intros P H. apply In_nth_error in H as [k H].
  assert (K : (k < length (split_box (ox, oy, oz) (dx, dy, dz) nA nB nD nC nK nL nM nN))%nat) by (apply nth_error_Some; congruence).
  change (k < 8)%nat in K.
  destruct (nth_error octants k) as [c|] eqn:E; [|apply nth_error_None in E; simpl in E; lia].
  rewrite (box_child _ _ _ _ _ _ _ _ _ _ _ _ _ _ k c x s' m' E H). cbn [oriented]. rewrite measure_box. cbn [measure]. lra.
Qed.
Lemma oriented_children s m c x s' m' : sound s m \/ straight s -> oriented s -> split_one s m = Some c -> In (x, s', m') c -> oriented s'.
Proof.
  intros V O E I. destruct s as [P|P|o d|o d|P|f J|].
  - assert (L : length P = 3%nat) by (destruct V as [[_ [V _]]|V]; exact V). destruct P as [|A [|B [|C [|? ?]]]]; try discriminate.
    destruct (triangle_children _ _ _ _ _ E) as (n0 & n1 & n2 & -> & ->). cbn [oriented] in O.
    assert (Q : exists P, s' = Quad P) by (destruct I as [[= <- <- <-]|[[= <- <- <-]|[[= <- <- <-]|[]]]]; eauto). destruct Q as (P & ->).
    intros xi et X Y. eapply triangle_child_positive; eauto.
  - assert (L : length P = 4%nat) by (destruct V as [[_ [V _]]|V]; exact V). destruct P as [|A [|B [|C [|D [|? ?]]]]]; try discriminate.
    destruct (quad_children _ _ _ _ _ _ E) as (n0 & n1 & n2 & n3 & -> & ->). exact (oriented_quad_children _ _ _ _ _ _ _ _ _ _ _ _ O I).
  - destruct (rect_children _ _ _ _ E) as (n0 & n1 & n3 & n2 & -> & ->). destruct o as [ox oy], d as [dx dy]. cbn in O.
    refine (oriented_quad_children _ _ _ _ _ _ _ _ _ _ _ _ _ I). intros xi et _ _. cbn [fst snd]. rewrite quad_rect_det. lra.
  - destruct (hex_children _ _ _ _ E) as (nA & nB & nD & nC & nK & nL & nM & nN & -> & ->). exact (oriented_box_children _ _ _ _ _ _ _ _ _ _ _ _ _ O I).
  - assert (exists o d, P = box_corners o d) as (o & d & ->) by (destruct V as [[_ []]|V]; exact V).
    destruct (voxel_children _ _ _ _ E) as (nA & nB & nD & nC & nK & nL & nM & nN & -> & ->). cbn [oriented] in O. rewrite measure_box in O. exact (oriented_box_children _ _ _ _ _ _ _ _ _ _ _ _ _ O I).
  - destruct (curved_children _ _ _ _ E) as (n0 & n1 & n2 & n3 & -> & ->). apply four_in in I as (k & Hs & _ & K). destruct (offset_at k K) as [o Ho].
    assert (Q : s' = Curved (in_element2 f (fst o) (snd o) 1 1) (in_element2_J J (fst o) (snd o) 1 1)).
    { destruct k as [|[|[|[|k]]]]; [| | | |lia]; injection Ho as <-; injection Hs as <-; reflexivity. }
    subst s'. intros xi et X Y. rewrite det_child. destruct (axis_part k o xi et Ho X Y) as [X' Y']. specialize (O _ _ X' Y'). lra.
  - destruct V as [[_ []]|[]].
Qed.

(** ** regions *)
Lemma region4 s p : (exists P, s = Quad P) \/ (exists o d, s = Rect o d) \/ (exists f J, s = Curved f J) ->
  (in_region s p <-> exists xi et, -1 <= xi <= 1 /\ -1 <= et <= 1 /\ p = mapf s xi et).
Proof. intros [(P & ->)|[(o & d & ->)|(f & J & ->)]]; reflexivity. Qed.
Lemma part_region f o s' p : is_part f o s' -> (in_region s' p <-> exists xi et, -1 <= xi <= 1 /\ -1 <= et <= 1 /\ p = f (axis (fst o) 1 xi) (axis (snd o) 1 et)).
Proof.
  intros [(P & -> & _ & E)|(J & ->)]; [|reflexivity]. cbn [in_region]. split; intros (xi & et & X & Y & ->); exists xi, et; repeat split; try tauto; rewrite E; reflexivity.
Qed.
Lemma children4_all s m c n0 n1 n2 n3 k o : cycle s m = [n0; n1; n2; n3] -> sound s m -> split_one s m = Some c -> nth_error offsets k = Some o ->
  exists x s' m', In (x, s', m') c /\ is_part (mapf s) o s'.
Proof.
  intros C So E Ho.
  assert (K : (k < 4)%nat) by (change 4%nat with (length offsets); apply nth_error_Some; congruence).
  assert (F : forall suf ss, length ss = 4%nat -> (forall s', nth_error ss k = Some s' -> is_part (mapf s) o s') -> c = four suf ss (quad_maps n0 n1 n2 n3) -> exists x s' m', In (x, s', m') c /\ is_part (mapf s) o s').
  { intros suf ss L Q ->. destruct ss as [|s0 [|s1 [|s2 [|s3 [|? ?]]]]]; try discriminate. unfold four, quad_maps. cbn [map combine fst snd].
    destruct k as [|[|[|[|k]]]]; [| | | |lia]; specialize (Q _ eq_refl); eexists _, _, _; (split; [|exact Q]).
    - left; reflexivity.
    - right; left; reflexivity.
    - do 2 right; left; reflexivity.
    - do 3 right; left; reflexivity. }
  destruct So as [_ So]. destruct s as [P|P|o0 d| | |f J|]; try (destruct So; fail).
  - destruct So as [_ L]. cbn in C. subst m. discriminate.
  - destruct So as [L1 L]. cbn in C. subst m. destruct P as [|A [|B [|C0 [|D [|? ?]]]]]; try discriminate. injection E as <-.
    eapply F; [| |reflexivity]; [reflexivity|]. intros s' Hs. apply nth_map_some in Hs as (P & HP & ->). left. exists P. split; auto. split; [eapply paras_length; eauto|]. intros xi et. apply (quad_child A B C0 D k o P xi et Ho HP).
  - destruct m as [|a [|b [|d0 [|c0 [|? ?]]]]]; try discriminate. cbn in C. injection C as -> -> -> ->. injection E as <-.
    eapply F; [| |reflexivity]; [reflexivity|]. intros s' Hs. apply nth_map_some in Hs as (P & HP & ->). left. exists P. split; auto. split; [eapply paras_length; eauto|]. intros xi et.
    rewrite (quad_child _ _ _ _ k o P xi et Ho HP). unfold in_element2. destruct o0 as [ox oy], d as [dx dy]. cbn [fst snd mapf]. apply rect_quad.
  - cbn in C. subst m. injection E as <-. eapply F; [| |reflexivity]; [reflexivity|]. intros s' Hs.
    right. destruct k as [|[|[|[|k]]]]; [| | | |lia]; injection Ho as <-; injection Hs as <-; eexists; reflexivity.
Qed.
Lemma offsets_cover x y : -1 <= x <= 1 -> -1 <= y <= 1 -> exists k o xi et, nth_error offsets k = Some o /\ -1 <= xi <= 1 /\ -1 <= et <= 1 /\ x = axis (fst o) 1 xi /\ y = axis (snd o) 1 et.
Proof.
  intros X Y. unfold axis. destruct (Rle_dec x 0), (Rle_dec y 0).
  - exists 0%nat, (-1, -1), (2 * x + 1), (2 * y + 1). cbn [fst snd]. repeat split; try lra; try field.
  - exists 3%nat, (-1, 0), (2 * x + 1), (2 * y - 1). cbn [fst snd]. repeat split; try lra; try field.
  - exists 1%nat, (0, -1), (2 * x - 1), (2 * y + 1). cbn [fst snd]. repeat split; try lra; try field.
  - exists 2%nat, (0, 0), (2 * x - 1), (2 * y - 1). cbn [fst snd]. repeat split; try lra; try field.
Qed.
(** the child at a corner contains everything nearest to it *)
Lemma solve_uv b c : 0 <= b -> 0 <= c -> 2 * b + c <= 1 -> b + 2 * c <= 1 -> exists r s, 0 <= r <= 1 /\ 0 <= s <= 1 /\ b = r / 2 - r * s / 6 /\ c = s / 2 - r * s / 6.
Proof.
  intros B C H1 H2. set (dl := 2 * (b - c)). set (D := (3 - dl) * (3 - dl) - 24 * c).
  assert (Ed : D = (3 + dl) * (3 + dl) - 24 * b) by (unfold D, dl; ring).
  assert (HD : 0 <= D). { unfold D, dl. destruct (Rle_dec b (1 / 3)).
    - assert (Q : 0 <= (2 - 3 * b) * (2 - 3 * b)) by nra. assert (Q2 : 0 <= ((1 - b) / 2 - c) * (12 + 8 * b - 4 * c - 2 * (1 - b))) by (apply Rmult_le_pos; lra). lra.
    - assert (Q : 0 <= (1 - 6 * b) * (1 - 6 * b)) by nra. assert (Q2 : 0 <= (1 - 2 * b - c) * (12 + 8 * b - 4 * c - 4 * (1 - 2 * b))) by (apply Rmult_le_pos; lra). lra. }
  pose proof (sqrt_sqrt D HD) as SS. pose proof (sqrt_pos D) as SP. set (q := sqrt D) in *.
  assert (Q1 : q <= 3 - dl). { apply Rsqr_incr_0_var; [unfold Rsqr; rewrite SS; unfold D; lra|unfold dl; lra]. }
  assert (Q2 : q <= 3 + dl). { apply Rsqr_incr_0_var; [unfold Rsqr; rewrite SS; rewrite Ed; lra|unfold dl; lra]. }
  assert (Q3 : 1 - dl <= q). { destruct (Rle_dec (1 - dl) 0); [lra|]. apply Rsqr_incr_0_var; [unfold Rsqr; rewrite SS; unfold D, dl; lra|lra]. }
  assert (Q4 : 1 + dl <= q). { destruct (Rle_dec (1 + dl) 0); [lra|]. apply Rsqr_incr_0_var; [unfold Rsqr; rewrite SS; rewrite Ed; unfold dl; lra|lra]. }
  exists ((3 + dl - q) / 2), ((3 - dl - q) / 2). split; [lra|]. split; [lra|].
  assert (P : (3 + dl - q) / 2 * ((3 - dl - q) / 2) = (9 - dl * dl - 6 * q + D) / 4) by (rewrite <- SS; field).
  rewrite P. unfold D, dl. split; field.
Qed.
Lemma region_children s m c p : sound s m -> split_one s m = Some c -> (in_region s p <-> exists x s' m', In (x, s', m') c /\ in_region s' p).
Proof.
  intros So E. destruct (sound_cases s m So) as [(A & B & C & n0 & n1 & n2 & -> & ->)|(n0 & n1 & n2 & n3 & C)].
  - injection E as <-. split.
    + cbn [in_region]. intros (a & b & c & Ha & Hb & Hc & S1 & ->).
      assert (G : forall k u v, nth_error [((a, (b, c)), (A, B, C)); ((b, (c, a)), (B, C, A)); ((c, (a, b)), (C, A, B))] k = Some (u, v) -> fst (snd u) <= fst u -> snd (snd u) <= fst u ->
        exists x s' m', In (x, s', m') (split_triangle A B C n0 n1 n2) /\ in_region s' (a * fst A + b * fst B + c * fst C, a * snd A + b * snd B + c * snd C)).
      { intros k [a1 [b1 c1]] v Hk L1 L2. cbn [fst snd] in L1, L2.
        assert (Z : 0 <= b1 /\ 0 <= c1 /\ a1 + b1 + c1 = 1).
        { destruct k as [|[|[|k]]]; cbn in Hk; [injection Hk as <- <- <- _; lra|injection Hk as <- <- <- _; lra|injection Hk as <- <- <- _; lra|destruct k; discriminate]. }
        destruct Z as (Z1 & Z2 & Z3). destruct (solve_uv b1 c1) as (r & s & Hr & Hs & Eb & Ec); try lra.
        destruct A as [ax ay], B as [bx by_], C as [cx cy].
        destruct k as [|[|[|k]]]; cbn in Hk; [injection Hk as E1 E2 E3 _|injection Hk as E1 E2 E3 _|injection Hk as E1 E2 E3 _|destruct k; discriminate].
        - eexists _, _, _. split; [left; reflexivity|]. exists (2 * r - 1), (2 * s - 1). split; [lra|]. split; [lra|]. rewrite <- E1, <- E2, <- E3 in *. replace a with (1 - b - c) by lra. rewrite Eb, Ec.
          q9. apply (f_equal2 pair); field.
        - eexists _, _, _. split; [right; left; reflexivity|]. exists (2 * r - 1), (2 * s - 1). split; [lra|]. split; [lra|]. rewrite <- E1, <- E2, <- E3 in *. replace b with (1 - c - a) by lra. rewrite Eb, Ec.
          q9. apply (f_equal2 pair); field.
        - eexists _, _, _. split; [do 2 right; left; reflexivity|]. exists (2 * r - 1), (2 * s - 1). split; [lra|]. split; [lra|]. rewrite <- E1, <- E2, <- E3 in *. replace c with (1 - a - b) by lra. rewrite Eb, Ec.
          q9. apply (f_equal2 pair); field. }
      destruct (Rle_dec b a) as [L1|L1], (Rle_dec c a) as [L2|L2].
      * apply (G 0%nat (a, (b, c)) (A, B, C) eq_refl); cbn [fst snd]; lra.
      * apply (G 2%nat (c, (a, b)) (C, A, B) eq_refl); cbn [fst snd]; lra.
      * apply (G 1%nat (b, (c, a)) (B, C, A) eq_refl); cbn [fst snd]; lra.
      * destruct (Rle_dec b c).
        -- apply (G 2%nat (c, (a, b)) (C, A, B) eq_refl); cbn [fst snd]; lra.
        -- apply (G 1%nat (b, (c, a)) (B, C, A) eq_refl); cbn [fst snd]; lra.
    + intros (x & s' & m' & I & R0).
      assert (Q : exists P, s' = Quad P) by (destruct I as [[= <- <- <-]|[[= <- <- <-]|[[= <- <- <-]|[]]]]; eauto). destruct Q as (P & ->).
      destruct R0 as (xi & et & X & Y & ->). apply In_nth_error in I as [k I].
      destruct (triangle_child_place A B C n0 n1 n2 k x P m' xi et I X Y) as (a & b & c & Ha & Hb & Hc & S1 & Ep & _). exists a, b, c. auto.
  - assert (F4 : (exists P, s = Quad P) \/ (exists o d, s = Rect o d) \/ (exists f J, s = Curved f J)).
    { destruct So as [_ So]. destruct s as [P|P|o d| | |f J|]; try (destruct So; fail); eauto 6. destruct So as [_ L]. cbn in C. subst m. discriminate. }
    rewrite (region4 s p F4). split.
    + intros (xi & et & X & Y & ->). destruct (offsets_cover xi et X Y) as (k & o & x' & e' & Ho & X' & Y' & Ex & Ey).
      destruct (children4_all s m c n0 n1 n2 n3 k o C So E Ho) as (x & s' & m' & I & Pt). exists x, s', m'. split; auto. apply (part_region _ _ _ _ Pt).
      exists x', e'. split; auto. split; auto. congruence.
    + intros (x & s' & m' & I & R0). destruct (children4 s m c n0 n1 n2 n3 x s' m' C So E I) as (k & o & Ho & _ & Pt).
      apply (part_region _ _ _ _ Pt) in R0 as (xi & et & X & Y & ->). destruct (axis_part k o xi et Ho X Y) as [X' Y']. eexists _, _. split; [exact X'|]. split; [exact Y'|]. reflexivity.
Qed.
