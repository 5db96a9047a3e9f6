(** C71: the dofs of one form that lie on each dof of another.  Only statements and references to proofs; vocabulary in DofcorSpec.v and
    AxisSpec.v; model in DofcorModel.v.  None stands for an exception. *)
From Coq Require Import QArith Qabs List Lqa Lia Bool Arith.
From Verif Require Import AxisModel AxisSpec AxisThms AxisUnion DofcorModel DofcorSpec DofcorThms DofcorRect.
Import ListNotations.
Local Open Scope Q_scope.

(** * any geometries *)

(** every dof found has a place that is contained in a place of the dof it is found for *)
Theorem dofcor_sound : forall {G K} (X : geometry G K) ranks0 ranks1 c cor d0 d1, (forall k k', g_keyeq X k k' = true <-> k = k') ->
  computer X ranks0 ranks1 = Some (c, cor) -> listed cor d0 d1 -> part_of X ranks0 ranks1 d0 d1.
Proof. exact (@cor_sound). Qed.
Print Assumptions dofcor_sound.

(** a dof of form 0 has one, nonempty, list; a dof of form 1 stands in one list, once *)
Theorem dofcor_once : forall {G K} (X : geometry G K) ranks0 ranks1 c cor, (forall k k', g_keyeq X k k' = true <-> k = k') ->
  computer X ranks0 ranks1 = Some (c, cor) ->
  NoDup (map fst cor) /\ NoDup (concat (map snd cor)) /\ forall d0 l, In (d0, l) cor -> l <> [].
Proof. exact (@cor_once). Qed.
Print Assumptions dofcor_once.

(** a dof that is a part of some dof with the same key is found, though perhaps for another one *)
Theorem dofcor_some : forall {G K} (X : geometry G K) ranks0 ranks1 c cor d0 d1, (forall k k', g_keyeq X k k' = true <-> k = k') ->
  coherent X ranks0 ranks1 -> computer X ranks0 ranks1 = Some (c, cor) ->
  part_of X ranks0 ranks1 d0 d1 -> keys_agree X ranks0 ranks1 d0 d1 -> exists d0', listed cor d0' d1.
Proof. exact (@cor_some). Qed.
Print Assumptions dofcor_some.

(** exactly the parts are found if keys of parts agree and no dof is a part of two *)
Theorem dofcor_found : forall {G K} (X : geometry G K) ranks0 ranks1 c cor, (forall k k', g_keyeq X k k' = true <-> k = k') ->
  coherent X ranks0 ranks1 ->
  (forall d0 d1, part_of X ranks0 ranks1 d0 d1 -> keys_agree X ranks0 ranks1 d0 d1) ->
  (forall d0 d0' d1, part_of X ranks0 ranks1 d0 d1 -> part_of X ranks0 ranks1 d0' d1 -> d0 = d0') ->
  computer X ranks0 ranks1 = Some (c, cor) -> forall d0 d1, listed cor d0 d1 <-> part_of X ranks0 ranks1 d0 d1.
Proof. exact (@cor_iff). Qed.
Print Assumptions dofcor_found.

(** the distribution over ranks and the order of elements do not matter then *)
Theorem dofcor_ranks : forall {G K} (X : geometry G K) ranks0 ranks1 ranks0' ranks1' c cor c' cor', (forall k k', g_keyeq X k k' = true <-> k = k') ->
  (forall d g, lies ranks0 d g <-> lies ranks0' d g) -> (forall d g, lies ranks1 d g <-> lies ranks1' d g) ->
  coherent X ranks0 ranks1 ->
  (forall d0 d1, part_of X ranks0 ranks1 d0 d1 -> keys_agree X ranks0 ranks1 d0 d1) ->
  (forall d0 d0' d1, part_of X ranks0 ranks1 d0 d1 -> part_of X ranks0 ranks1 d0' d1 -> d0 = d0') ->
  computer X ranks0 ranks1 = Some (c, cor) -> computer X ranks0' ranks1' = Some (c', cor') ->
  forall d0 d1, listed cor d0 d1 <-> listed cor' d0 d1.
Proof. exact (@cor_ranks). Qed.
Print Assumptions dofcor_ranks.

(** complete: every dof of form 0 has a list and passes the union test with places of the dofs in its list *)
Theorem dofcor_complete : forall {G K} (X : geometry G K) ranks0 ranks1 cor, (forall k k', g_keyeq X k k' = true <-> k = k') ->
  computer X ranks0 ranks1 = Some (true, cor) ->
  (forall d0 g, lies ranks0 d0 g -> exists l, In (d0, l) cor) /\
  (forall d0 l, In (d0, l) cor -> exists g0 gs, lies ranks0 d0 g0 /\ g_union X g0 gs = Some true /\
     forall g, In g gs -> exists d1, In d1 l /\ lies ranks1 d1 g).
Proof. exact (@cor_complete). Qed.
Print Assumptions dofcor_complete.

(** a rank gets the lists of the dofs it has, with dofs it has *)
Theorem dofcor_rank_part : forall {G K} (X : geometry G K) own0 own1 cor m, rank_part X own0 own1 cor = Some m ->
  (forall d0 l, In (d0, l) m <-> In (d0, l) cor /\ exists g, In (d0, g) own0) /\
  (forall d0 l d1, In (d0, l) m -> In d1 l -> exists g, In (d1, g) own1).
Proof. exact (@rank_part_some). Qed.
Print Assumptions dofcor_rank_part.

(** it raises exactly if it has a dof of form 0 but not all dofs of its list *)
Theorem dofcor_rank_part_raises : forall {G K} (X : geometry G K) own0 own1 cor, rank_part X own0 own1 cor = None <->
  exists d0 l d1, In (d0, l) cor /\ (exists g, In (d0, g) own0) /\ In d1 l /\ ~ exists g, In (d1, g) own1.
Proof. exact (@rank_part_none). Qed.
Print Assumptions dofcor_rank_part_raises.

(** no list gets lost between the ranks *)
Theorem dofcor_rank_parts : forall {G K} (X : geometry G K) ranks0 ranks1 c cor d0 l, (forall k k', g_keyeq X k k' = true <-> k = k') ->
  computer X ranks0 ranks1 = Some (c, cor) -> In (d0, l) cor ->
  exists own0, In own0 ranks0 /\ forall own1 m, rank_part X own0 own1 cor = Some m -> In (d0, l) m.
Proof. exact (@rank_parts_all). Qed.
Print Assumptions dofcor_rank_parts.

(** * axis-parallel rectangles *)

Theorem dofcor_rectangles_run : forall ranks0 ranks1, exists c cor, computer rects ranks0 ranks1 = Some (c, cor).
Proof. exact (rect_no_exception). Qed.
Print Assumptions dofcor_rectangles_run.

(** the dofs found are those whose points are points of the other *)
Theorem dofcor_rectangles : forall C ranks0 ranks1, corners_apart tol8 C -> built C ranks0 -> built C ranks1 ->
  one_place ranks0 -> one_place ranks1 -> disjoint ranks0 ->
  forall c cor, computer rects ranks0 ranks1 = Some (c, cor) -> forall d0 d1, listed cor d0 d1 <->
    exists g0 g1, lies ranks0 d0 g0 /\ lies ranks1 d1 g1 /\ forall p, points_of g1 p -> points_of g0 p.
Proof. exact (rect_listed). Qed.
Print Assumptions dofcor_rectangles.

(** complete exactly if every rectangle of form 0 is a union of rectangles of form 1 *)
Theorem dofcor_rectangles_complete : forall C ranks0 ranks1, corners_apart (1 # 3000) C -> built C ranks0 -> built C ranks1 ->
  one_place ranks0 -> one_place ranks1 -> disjoint ranks0 -> disjoint ranks1 ->
  forall c cor, computer rects ranks0 ranks1 = Some (c, cor) ->
  (c = true <-> forall d0 g0, lies ranks0 d0 g0 -> union_of_places ranks1 g0).
Proof. exact (rect_complete). Qed.
Print Assumptions dofcor_rectangles_complete.

(** a periodic dof with the places g0 and h0: it is found or not, according to the order in which the places of the other form are met *)
Theorem dofcor_periodic_refuted : exists C g0 g1 h0 h1,
  corners_apart (1 # 3000) C /\
  built C [[(0%nat, g0); (0%nat, h0)]] /\ built C [[(0%nat, g1); (0%nat, h1)]] /\ built C [[(0%nat, h1); (0%nat, g1)]] /\
  same_points (points_of g0) (points_of g1) /\ same_points (points_of h0) (points_of h1) /\
  computer rects [[(0%nat, g0); (0%nat, h0)]] [[(0%nat, g1); (0%nat, h1)]] = Some (true, [(0%nat, [0%nat])]) /\
  computer rects [[(0%nat, g0); (0%nat, h0)]] [[(0%nat, h1); (0%nat, g1)]] = Some (false, []).
Proof. exact (rect_periodic_refuted). Qed.
Print Assumptions dofcor_periodic_refuted.

(** two rectangles that are equal for == are not found for each other *)
Theorem dofcor_rounding_refuted : exists g0 g1, (exists a o d, new_rect a o d = Some g0) /\ (exists a o d, new_rect a o d = Some g1) /\
  rect_contain g0 g1 = true /\ rect_eq g0 g1 = true /\
  computer rects [[(0%nat, g0)]] [[(0%nat, g1)]] = Some (false, []).
Proof. exact (rect_rounding_refuted). Qed.
Print Assumptions dofcor_rounding_refuted.

(** * examples *)

(** two faces of form 0 on two ranks; four halves of form 1; dof 5 of form 0 and dofs 1, 2 of form 1 are on both ranks *)
Definition rx (x y w : Q) : rect3 := rect_of AX x (sort2 y (y + w)) (sort2 0 (0 + 1)).
Definition ex_corners : list (point3 * point3) :=
  [(mkP 0 0 0, mkP 0 2 1); (mkP 1 0 0, mkP 0 2 1); (mkP 0 0 0, mkP 0 1 1); (mkP 0 1 0, mkP 0 1 1);
   (mkP 1 0 0, mkP 0 1 1); (mkP 1 1 0, mkP 0 1 1)].
Definition ex_ranks0 : list (list (nat * rect3)) := [[(5%nat, rx 0 0 2)]; [(5%nat, rx 0 0 2); (7%nat, rx 1 0 2)]].
Definition ex_ranks1 : list (list (nat * rect3)) :=
  [[(1%nat, rx 0 0 1); (2%nat, rx 0 1 1)]; [(2%nat, rx 0 1 1); (1%nat, rx 0 0 1); (3%nat, rx 1 0 1); (4%nat, rx 1 1 1)]].

Example ex_run : computer rects ex_ranks0 ex_ranks1 = Some (true, [(5%nat, [1%nat; 2%nat]); (7%nat, [3%nat; 4%nat])]).
Proof. vm_compute. reflexivity. Qed.

Example ex_incomplete : computer rects ex_ranks0 [[(1%nat, rx 0 0 1)]; [(3%nat, rx 1 0 1); (4%nat, rx 1 1 1)]] =
  Some (false, [(5%nat, [1%nat]); (7%nat, [3%nat; 4%nat])]).
Proof. vm_compute. reflexivity. Qed.

Example ex_rank_parts : rank_part rects (nth 0 ex_ranks0 []) (nth 0 ex_ranks1 []) [(5%nat, [1%nat; 2%nat]); (7%nat, [3%nat; 4%nat])] =
  Some [(5%nat, [1%nat; 2%nat])].
Proof. vm_compute. reflexivity. Qed.

Ltac lies_cases H :=
  let r := fresh "r" in let H1 := fresh in let H2 := fresh in destruct H as (r & H1 & H2);
  cbn [In ex_ranks0 ex_ranks1] in H1; unfold ex_ranks0, ex_ranks1 in H1; cbn [In] in H1; repeat (destruct H1 as [<-|H1]); try contradiction; cbn [In] in H2; repeat (destruct H2 as [H2|H2]); try contradiction;
  let E1 := fresh in let E2 := fresh in pose proof (f_equal fst H2) as E1; pose proof (f_equal snd H2) as E2; cbn [fst snd] in E1, E2; clear H2; subst.

Example ex_apart : corners_apart (1 # 3000) ex_corners.
Proof.
  intros b x y Hx Hy; destruct b; cbn in Hx, Hy; repeat match goal with H : _ \/ _ |- _ => destruct H as [H|H] end; try contradiction;
    subst x y; intros E; first [reflexivity | exfalso; apply E; reflexivity].
Qed.

Ltac rbuild := exists AX;
  first [exists (mkP 0 0 0), (mkP 0 2 1); split; [cbn; tauto|reflexivity] | exists (mkP 1 0 0), (mkP 0 2 1); split; [cbn; tauto|reflexivity]
        |exists (mkP 0 0 0), (mkP 0 1 1); split; [cbn; tauto|reflexivity] | exists (mkP 0 1 0), (mkP 0 1 1); split; [cbn; tauto|reflexivity]
        |exists (mkP 1 0 0), (mkP 0 1 1); split; [cbn; tauto|reflexivity] | exists (mkP 1 1 0), (mkP 0 1 1); split; [cbn; tauto|reflexivity]].

Example ex_built : built ex_corners ex_ranks0 /\ built ex_corners ex_ranks1.
Proof. split; intros dof g H; lies_cases H; rbuild. Qed.

Example ex_one_place : one_place ex_ranks0 /\ one_place ex_ranks1.
Proof. split; intros dof g g' H H' p; lies_cases H; lies_cases H'; first [discriminate | reflexivity]. Qed.

Lemma rx_inner : forall x y w p, 0 < w -> tol4 < w -> inner_of (rx x y w) p -> px p == x /\ y < py p /\ py p < y + w.
Proof.
  intros x y w p W W4 H.
  assert (R : new_rect AX (mkP x y 0) (mkP 0 w 1) = Some (rx x y w)).
  { unfold new_rect, rx; cbn [px py pz].
    replace (Qeq_bool 0 0) with true by reflexivity. replace (qgt (Qabs 1) tol4) with true by reflexivity.
    replace (qgt (Qabs w) tol4) with true; [reflexivity|]. symmetry. apply qgt_true. rewrite Qabs_pos; lra. }
  apply (inner_of_box _ _ _ _ _ R) in H. destruct H as (H1 & H2). specialize (H2 AY ltac:(discriminate)).
  unfold lo, hi, sort2 in H2; cbn [coo px py pz fst snd] in *.
  destruct (Qle_bool y (y + w)) eqn:E; cbn [fst snd] in H2; [lra|].
  exfalso. assert (T : Qle_bool y (y + w) = true) by (apply Qle_bool_iff; lra). congruence.
Qed.

Example ex_disjoint : disjoint ex_ranks0 /\ disjoint ex_ranks1.
Proof.
  assert (T1 : tol4 < 1) by reflexivity. assert (T2 : tol4 < 2) by reflexivity.
  split; intros dof dof' g g' N H H' p (I & I'); lies_cases H; lies_cases H'; try congruence;
    apply rx_inner in I; try lra; apply rx_inner in I'; lra.
Qed.

(** boxes have no key: all dofs are searched through *)
Example ex_boxes : match new_hexa (mkP 0 0 0) (mkP 2 2 2), new_hexa (mkP 0 0 0) (mkP 2 2 1), new_hexa (mkP 0 0 1) (mkP 2 2 1) with
  | Some b, Some b1, Some b2 => computer hexas [[(0%nat, b)]] [[(3%nat, b1)]; [(4%nat, b2)]]
  | _, _, _ => None
  end = Some (true, [(0%nat, [3%nat; 4%nat])]).
Proof. vm_compute. reflexivity. Qed.
