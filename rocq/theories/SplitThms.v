(** Proofs about the nodes and names of split meshes and about repeated splitting. *)
From Coq Require Import List Arith ZArith Reals String Ascii Bool Lra Lia Permutation.
From Coquelicot Require Import Coquelicot.
From Verif Require Import MappingModel MappingSpec MappingProofs SplitModel SplitSpec SplitGeom SplitConf SplitParts.
Import List ListNotations.
Local Open Scope R_scope.
Local Notation length := List.length.

(** ** places of the new nodes *)
Lemma zinsert_perm x l : Permutation (zinsert x l) (x :: l).
Proof. induction l as [|y l IH]; cbn; auto. destruct (x <=? y)%Z; auto. rewrite IH. apply perm_swap. Qed.
Lemma zsort_perm l : Permutation (zsort l) l.
Proof. induction l as [|x l IH]; cbn; auto. rewrite zinsert_perm. auto. Qed.
Lemma sum_perm l l' : Permutation l l' -> fold_right Rplus 0 l = fold_right Rplus 0 l'.
Proof. induction 1; cbn; lra. Qed.
Lemma mean_perm l l' : Permutation l l' -> mean l = mean l'.
Proof.
  intros P. unfold mean. rewrite (Permutation_length P).
  rewrite (sum_perm _ _ (Permutation_map (fun p : pt3 => fst (fst p)) P)), (sum_perm _ _ (Permutation_map (fun p : pt3 => snd (fst p)) P)), (sum_perm _ _ (Permutation_map (fun p : pt3 => snd p) P)). reflexivity.
Qed.
Lemma pos_pair pos a b : node_pos pos (pair_ a b) = mean [pos a; pos b].
Proof. unfold pair_, node_pos. apply mean_perm. apply (Permutation_map pos (zsort_perm [a; b])). Qed.
Lemma pos_quad pos a b c d : node_pos pos (quad_ a b c d) = mean [pos a; pos b; pos c; pos d].
Proof. unfold quad_, node_pos. apply mean_perm. apply (Permutation_map pos (zsort_perm [a; b; c; d])). Qed.

Ltac pts := repeat (apply (f_equal2 cons)); try reflexivity; (apply (f_equal2 pair); [apply (f_equal2 pair)|]); field.
Ltac means := unfold mean; cbn [map fold_right length INR fst snd].
Lemma quad_corners pos A B C D n0 n1 n2 n3 k P M : map flat [A; B; C; D] = map pos [n0; n1; n2; n3] ->
  nth_error (quad_paras A B C D) k = Some P -> nth_error (quad_maps n0 n1 n2 n3) k = Some M -> map flat P = map (node_pos pos) M.
Proof.
  cbn [map]. intros [= H0 H1 H2 H3]. destruct A, B, C, D. unfold flat in *. cbn [fst snd] in *.
  destruct k as [|[|[|[|k]]]]; [| | | |destruct k; discriminate]; intros [= <-] [= <-]; cbn [map]; change (Tup (zsort ?l)) with (Tup (zsort l));
    fold (pair_ n0 n1) (pair_ n1 n2) (pair_ n2 n3) (pair_ n3 n0); rewrite ?pos_pair; cbn [node_pos map]; rewrite <- ?H0, <- ?H1, <- ?H2, <- ?H3; means; unfold half2; cbn [fst snd]; pts.
Qed.
Lemma box_corners_pos pos o d nA nB nD nC nK nL nM nN x s' m' : box_corners o d = map pos [nA; nB; nD; nC; nK; nL; nM; nN] ->
  In (x, s', m') (split_box o d nA nB nD nC nK nL nM nN) -> corners s' = map (node_pos pos) m'.
Proof.
  destruct o as [[ox oy] oz], d as [[dx dy] dz]. unfold box_corners. cbn [map]. intros [= H0 H1 H2 H3 H4 H5 H6 H7].
  assert (Pp : forall a b, node_pos pos (pair_ a b) = mean [pos a; pos b]) by (intros; apply pos_pair).
  assert (Pq : forall a b c d, node_pos pos (quad_ a b c d) = mean [pos a; pos b; pos c; pos d]) by (intros; apply pos_quad).
  unfold split_box, half2. cbn [fst snd]. intros I. cbn [In] in I.
  assert (G : forall (x0 : string) P0 m0, (x0, Voxel P0, m0) = (x, s', m') -> P0 = map (node_pos pos) m0 -> corners s' = map (node_pos pos) m') by (intros x0 P0 m0 E; injection E as _ <- <-; auto).
  repeat (destruct I as [I|I]; [apply (G _ _ _ I); clear I G; cbn [map]; rewrite ?Pp, ?Pq; cbn [node_pos map]; rewrite <- ?H0, <- ?H1, <- ?H2, <- ?H3, <- ?H4, <- ?H5, <- ?H6, <- ?H7; means; pts|]).
  destruct I.
Qed.
Lemma corner_children pos s m c x s' m' : straight s -> corners s = map pos m -> split_one s m = Some c -> In (x, s', m') c -> corners s' = map (node_pos pos) m'.
Proof.
  intros H Cn E I. destruct (straight_cases s H) as [(A & B & C & ->)|[(A & B & C & D & ->)|[(o & d & ->)|[(o & d & ->)|(o & d & ->)]]]].
  - destruct (triangle_children _ _ _ _ _ E) as (n0 & n1 & n2 & -> & ->). cbn [corners map] in Cn. injection Cn as H0 H1 H2. destruct A, B, C. unfold flat in *. cbn [fst snd] in *.
    assert (Pp : forall a b, node_pos pos (pair_ a b) = mean [pos a; pos b]) by (intros; apply pos_pair).
    assert (G : forall (x0 : string) P0 m0, (x0, Quad P0, m0) = (x, s', m') -> map flat P0 = map (node_pos pos) m0 -> corners s' = map (node_pos pos) m') by (intros x0 P0 m0 E0; injection E0 as _ <- <-; auto).
    unfold split_triangle in I. cbn [In] in I.
    repeat (destruct I as [I|I]; [apply (G _ _ _ I); clear I G; cbn [map]; rewrite ?Pp; cbn [node_pos map]; rewrite <- ?H0, <- ?H1, <- ?H2; means; unfold half2, flat; cbn [fst snd]; pts|]).
    destruct I.
  - destruct (quad_children _ _ _ _ _ _ E) as (n0 & n1 & n2 & n3 & -> & ->). apply four_in in I as (k & Hs & Hm & _). apply nth_map_some in Hs as (P & HP & ->). exact (quad_corners pos A B C D n0 n1 n2 n3 k P m' Cn HP Hm).
  - destruct (rect_children _ _ _ _ E) as (n0 & n1 & n3 & n2 & -> & ->). apply four_in in I as (k & Hs & Hm & _). apply nth_map_some in Hs as (P & HP & ->).
    refine (quad_corners pos _ _ _ _ n0 n1 n2 n3 k P m' _ HP Hm). cbn [corners map] in *. destruct o, d. cbn [fst snd] in *. congruence.
  - destruct (hex_children _ _ _ _ E) as (nA & nB & nD & nC & nK & nL & nM & nN & -> & ->). exact (box_corners_pos pos o d _ _ _ _ _ _ _ _ x s' m' Cn I).
  - destruct (voxel_children _ _ _ _ E) as (nA & nB & nD & nC & nK & nL & nM & nN & -> & ->). exact (box_corners_pos pos o d _ _ _ _ _ _ _ _ x s' m' Cn I).
Qed.

(** ** old nodes stay *)
Lemma olds_quad n0 n1 n2 n3 z : In (Int z) (concat (quad_maps n0 n1 n2 n3)) <-> In z [n0; n1; n2; n3].
Proof.
  unfold quad_maps, pair_. cbn [concat app In]. split.
  - intros H. repeat (destruct H as [H|H]; [try discriminate H; try (injection H as <-; auto 6)|]). destruct H.
  - intros [<-|[<-|[<-|[<-|[]]]]]; auto 20.
Qed.
Lemma olds_four suf ss n0 n1 n2 n3 : length ss = 4%nat -> map snd (four suf ss (quad_maps n0 n1 n2 n3)) = quad_maps n0 n1 n2 n3.
Proof. destruct ss as [|s0 [|s1 [|s2 [|s3 [|? ?]]]]]; try discriminate. reflexivity. Qed.
Lemma olds_box o d nA nB nD nC nK nL nM nN z : In (Int z) (concat (map snd (split_box o d nA nB nD nC nK nL nM nN))) <-> In z [nA; nB; nD; nC; nK; nL; nM; nN].
Proof.
  destruct o as [[ox oy] oz], d as [[dx dy] dz]. unfold split_box, pair_, quad_. cbn [map snd fst concat app In]. split.
  - intros H. repeat (destruct H as [H|H]; [try discriminate H; try (injection H as <-; auto 10)|]). destruct H.
  - intros H. repeat (destruct H as [<-|H]; [repeat (first [left; reflexivity|right])|]). destruct H.
Qed.
Lemma old_children s m c z : split_one s m = Some c -> In (Int z) (concat (map snd c)) <-> In z m.
Proof.
  intros E. destruct s as [P|P|o d|o d|P|f J|].
  - destruct P as [|A [|B [|C [|? ?]]]]; try discriminate. destruct (triangle_children _ _ _ _ _ E) as (n0 & n1 & n2 & -> & ->).
    unfold split_triangle, pair_. cbn [map snd concat app In]. split.
    + intros H. repeat (destruct H as [H|H]; [try discriminate H; try (injection H as <-; auto 6)|]). destruct H.
    + intros [<-|[<-|[<-|[]]]]; auto 20.
  - destruct P as [|A [|B [|C [|D [|? ?]]]]]; try discriminate. destruct (quad_children _ _ _ _ _ _ E) as (n0 & n1 & n2 & n3 & -> & ->).
    unfold split_quad. rewrite olds_four by reflexivity. apply olds_quad.
  - destruct (rect_children _ _ _ _ E) as (n0 & n1 & n3 & n2 & -> & ->). unfold split_rect. rewrite olds_four by reflexivity. rewrite olds_quad. cbn [In]. tauto.
  - destruct (hex_children _ _ _ _ E) as (nA & nB & nD & nC & nK & nL & nM & nN & -> & ->). apply olds_box.
  - destruct m as [|m0 [|m1 [|m2 [|m3 [|m4 [|m5 [|m6 [|m7 [|? ?]]]]]]]]]; try discriminate. cbn [split_one] in E. destruct (voxel_box P) as [[o d]|]; [|discriminate].
    assert (E' : c = split_box o d m0 m1 m2 m3 m4 m5 m6 m7) by congruence. rewrite E'. apply olds_box.
  - destruct (curved_children _ _ _ _ E) as (n0 & n1 & n2 & n3 & -> & ->). unfold split_curved. cbv zeta. rewrite olds_four by reflexivity. apply olds_quad.
  - discriminate.
Qed.
Lemma in_map_snd {A B} (l : list (A * B)) y : In y (map snd l) <-> exists x, In (x, y) l.
Proof. rewrite in_map_iff. split; [intros ([x y'] & <- & H); eauto|intros (x & H); exists (x, y); auto]. Qed.
Lemma split_all_parent es ls e s m : split_all es = Some ls -> In (e, s, m) es -> exists c, split_one s m = Some c /\ forall y s' m', In (y, s', m') c -> In (append e y, s', m') ls.
Proof.
  revert ls. induction es as [|[[e0 s0] m0] es IH]; intros ls; cbn; [intros _ []|].
  destruct (split_one s0 m0) as [c|] eqn:E; [|discriminate]. destruct (split_all es) as [t|] eqn:Et; [|discriminate]. intros [= <-] [[= -> -> ->]|H].
  - exists c. split; auto. intros y s' m' H. apply in_or_app. left. apply in_map_iff. exists (y, s', m'). auto.
  - destruct (IH t eq_refl H) as (c0 & H1 & H2). exists c0. split; auto. intros. apply in_or_app. right. auto.
Qed.
Lemma old_all es ls z : split_all es = Some ls -> In (Int z) (concat (map snd ls)) <-> In z (concat (map snd es)).
Proof.
  intros E. rewrite !in_concat. split.
  - intros (m' & H & Hz). apply in_map_snd in H as ([x s'] & H). destruct (split_all_in es ls x s' m' E H) as (e & s & m & c & y & H1 & H2 & H3 & _).
    exists m. split; [apply in_map_snd; eauto|]. apply (old_children s m c z H2). apply in_concat. exists m'. split; auto. apply in_map_snd. eauto.
  - intros (m & H & Hz). apply in_map_snd in H as ([e s] & H). destruct (split_all_parent es ls e s m E H) as (c & H1 & H2).
    apply (old_children s m c z H1) in Hz. apply in_concat in Hz as (m' & H3 & Hz). apply in_map_snd in H3 as ([y s'] & H3). exists m'. split; auto. apply in_map_snd. eauto.
Qed.
