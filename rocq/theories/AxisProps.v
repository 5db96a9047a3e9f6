(** C70: axis-parallel segments, rectangles and boxes.  Only statements and references to proofs; vocabulary in AxisSpec.v; model in
    AxisModel.v.  None stands for an exception. *)
From Coq Require Import QArith Qabs List Lqa Lia Bool.
From Verif Require Import AxisModel AxisSpec AxisCells AxisThms AxisUnion AxisFinal.
Import ListNotations.
Local Open Scope Q_scope.


(** * equal and contained *)

Theorem axis_points_equal : forall p q, point_eq p q = true <-> forall b, Qabs (coo b p - coo b q) < tol8.
Proof. exact (point_eq_iff). Qed.
Print Assumptions axis_points_equal.

(** an exception exactly if two of the points are equal; otherwise whether one is the point *)
Theorem axis_points_union : forall s gs,
  (point_union s gs = None <-> exists i j p q, (i < j)%nat /\ nth_error gs i = Some p /\ nth_error gs j = Some q /\
      forall b, Qabs (coo b p - coo b q) < tol8) /\
  (point_union s gs = Some true -> exists g, In g gs /\ forall b, Qabs (coo b g - coo b s) < tol8) /\
  (point_union s gs = Some false -> forall g, In g gs -> ~ forall b, Qabs (coo b g - coo b s) < tol8).
Proof. exact (point_union_iff). Qed.
Print Assumptions axis_points_union.

(** contained: every point is within 1e-8 of a point of the other, whatever the axes, signs of lengths and positions *)
Theorem axis_segment_contains : forall a o len s a' o' len' g, new_seg a o len = Some s -> new_seg a' o' len' = Some g ->
  (seg_contain s g = true <-> within tol8 (seg_points a' o' len') (seg_points a o len)).
Proof. exact (seg_contain_iff). Qed.
Print Assumptions axis_segment_contains.

Theorem axis_segment_equal : forall a o len s a' o' len' g, new_seg a o len = Some s -> new_seg a' o' len' = Some g ->
  (seg_eq s g = true <->
   within tol8 (seg_points a' o' len') (seg_points a o len) /\ within tol8 (seg_points a o len) (seg_points a' o' len')).
Proof. exact (seg_eq_iff). Qed.
Print Assumptions axis_segment_equal.

Theorem axis_rectangle_contains : forall a o d s a' o' d' g, new_rect a o d = Some s -> new_rect a' o' d' = Some g ->
  (rect_contain s g = true <-> within tol8 (rect_points a' o' d') (rect_points a o d)).
Proof. exact (rect_contain_iff). Qed.
Print Assumptions axis_rectangle_contains.

Theorem axis_rectangle_equal : forall a o d s a' o' d' g, new_rect a o d = Some s -> new_rect a' o' d' = Some g ->
  (rect_eq s g = true <->
   within tol8 (rect_points a' o' d') (rect_points a o d) /\ within tol8 (rect_points a o d) (rect_points a' o' d')).
Proof. exact (rect_eq_iff). Qed.
Print Assumptions axis_rectangle_equal.

(** for boxes this needs equal (signed) sides along x and y *)
Theorem axis_box_contains : forall o d s o' d' g, new_hexa o d = Some s -> new_hexa o' d' = Some g ->
  px d == py d -> px d' == py d' ->
  (hexa_contain s g = true <-> within tol8 (box_points o' d') (box_points o d)).
Proof. exact (hexa_contain_iff). Qed.
Print Assumptions axis_box_contains.

Theorem axis_box_equal : forall o d s o' d' g, new_hexa o d = Some s -> new_hexa o' d' = Some g ->
  (hexa_eq s g = true -> within ((3 # 2) * tol8) (box_points o' d') (box_points o d) /\
                         within ((3 # 2) * tol8) (box_points o d) (box_points o' d')) /\
  (within ((2 # 5) * tol8) (box_points o' d') (box_points o d) -> within ((2 # 5) * tol8) (box_points o d) (box_points o' d') ->
   hexa_eq s g = true).
Proof. exact (hexa_eq_near). Qed.
Print Assumptions axis_box_equal.

(** line 506 takes the side along y for that along x: a box does not contain its half, and contains a box twice as long *)
Theorem axis_box_contains_refuted :
  (exists o d s o' d' g, new_hexa o d = Some s /\ new_hexa o' d' = Some g /\
     within 0 (box_points o' d') (box_points o d) /\ hexa_contain s g = false) /\
  (exists o d s o' d' g, new_hexa o d = Some s /\ new_hexa o' d' = Some g /\
     ~ within (1 # 2) (box_points o' d') (box_points o d) /\ hexa_contain s g = true).
Proof. exact (hexa_contain_refuted). Qed.
Print Assumptions axis_box_contains_refuted.

(** * unions: coordinates that differ by no more than the tolerance are equal, the given parts are separate *)

Theorem axis_segment_union : forall a o len s (ins : list segarg) gs,
  new_seg a o len = Some s ->
  Forall2 (fun i g => new_seg (fst (fst i)) (snd (fst i)) (snd i) = Some g) ins gs ->
  0 < len -> Forall (fun i => 0 < snd i) ins ->
  corners_apart tol8 (sa_box (a, o, len) :: map sa_box ins) ->
  separate (fun i p => fst (fst i) = a /\ seg_inner (fst (fst i)) (snd (fst i)) (snd i) p) ins ->
  (seg_union s gs = true <->
   union_of_part (fun i => seg_points (fst (fst i)) (snd (fst i)) (snd i)) (seg_points a o len) ins).
Proof. exact (seg_union_iff). Qed.
Print Assumptions axis_segment_union.

(** lengths keep their sign: a segment is not the union of itself given from the other end *)
Theorem axis_segment_union_refuted : forall a o len s, new_seg a o len = Some s ->
  exists r, new_seg a (shift a o len) (- len) = Some r /\
  same_points (seg_points a o len) (seg_points a (shift a o len) (- len)) /\
  seg_eq s r = true /\ seg_union s [s] = true /\ seg_union s [r] = false.
Proof. exact (seg_union_direction_refuted). Qed.
Print Assumptions axis_segment_union_refuted.

Theorem axis_rectangle_union : forall a o d s (ins : list rectarg) gs,
  new_rect a o d = Some s ->
  Forall2 (fun i g => new_rect (fst (fst i)) (snd (fst i)) (snd i) = Some g) ins gs ->
  corners_apart (1 # 3000) (ra_box (a, o, d) :: map ra_box ins) ->
  separate (fun i p => fst (fst i) = a /\ rect_inner (fst (fst i)) (snd (fst i)) (snd i) p) ins ->
  (rect_union s gs = true <->
   union_of_part (fun i => rect_points (fst (fst i)) (snd (fst i)) (snd i)) (rect_points a o d) ins).
Proof. exact (rect_union_iff). Qed.
Print Assumptions axis_rectangle_union.

(** a rectangle of area below 1e-7 is the union of nothing *)
Theorem axis_rectangle_union_refuted : forall a o d s, new_rect a o d = Some s -> rc_area s < tol7 -> rect_union s [] = true.
Proof. exact (rect_union_small_refuted). Qed.
Print Assumptions axis_rectangle_union_refuted.

Theorem axis_box_union : forall o d s (ins : list boxarg) gs,
  new_hexa o d = Some s ->
  Forall2 (fun i g => new_hexa (fst i) (snd i) = Some g) ins gs ->
  px d == py d -> Forall (fun i => px (snd i) == py (snd i)) ins ->
  corners_apart (1 # 200) ((o, d) :: ins) ->
  separate (fun i => box_inner (fst i) (snd i)) ins ->
  (hexa_union s gs = true <->
   union_of_part (fun i => box_points (fst i) (snd i)) (box_points o d) ins).
Proof. exact (hexa_union_iff). Qed.
Print Assumptions axis_box_union.

Theorem axis_box_union_small_refuted : forall o d s, new_hexa o d = Some s -> hx_volume s < tol7 -> hexa_union s [] = true.
Proof. exact (hexa_union_small_refuted). Qed.
Print Assumptions axis_box_union_small_refuted.

(** two halves of a box are not accepted *)
Theorem axis_box_union_refuted : exists o d s o1 o2 h g1 g2,
  new_hexa o d = Some s /\ new_hexa o1 h = Some g1 /\ new_hexa o2 h = Some g2 /\
  separate (fun x => box_inner x h) [o1; o2] /\
  same_points (box_points o d) (fun p => box_points o1 h p \/ box_points o2 h p) /\
  hexa_union s [g1; g2] = false.
Proof. exact (hexa_union_refuted). Qed.
Print Assumptions axis_box_union_refuted.

(** * keys *)

Theorem axis_segment_key : forall a o len s a' o' len' g, new_seg a o len = Some s -> new_seg a' o' len' = Some g ->
  corners_apart tol8 [sa_box (a, o, len); sa_box (a', o', len')] ->
  seg_contain s g = true -> seg_key s = seg_key g.
Proof. exact (seg_key_same). Qed.
Print Assumptions axis_segment_key.

Theorem axis_rectangle_key : forall a o d s a' o' d' g, new_rect a o d = Some s -> new_rect a' o' d' = Some g ->
  corners_apart tol8 [(o, d); (o', d')] ->
  rect_contain s g = true -> rect_key s = rect_key g.
Proof. exact (rect_key_same). Qed.
Print Assumptions axis_rectangle_key.

(** 0 and -1e-9 are equal coordinates but have different keys *)
Theorem axis_keys_refuted :
  (exists p q, point_contain p q = true /\ point_key p <> point_key q) /\
  (exists a o len s o' len' g, new_seg a o len = Some s /\ new_seg a o' len' = Some g /\
     seg_contain s g = true /\ seg_key s <> seg_key g) /\
  (exists a o d s o' d' g, new_rect a o d = Some s /\ new_rect a o' d' = Some g /\
     rect_contain s g = true /\ rect_key s <> rect_key g).
Proof. exact (keys_refuted). Qed.
Print Assumptions axis_keys_refuted.

(** * examples *)
Ltac apart_tac :=
  let b := fresh "b" in let x := fresh "x" in let y := fresh "y" in
  intros b x y Hx Hy; destruct b; cbn in Hx, Hy;
  repeat match goal with H : _ \/ _ |- _ => destruct H as [H|H] end; try contradiction;
  subst x y; intros E; first [reflexivity | exfalso; apply E; reflexivity].

Definition seg_whole : axis * point3 * Q := (AY, mkP 1 0 2, 3).
Definition seg_parts : list (axis * point3 * Q) :=
  [(AY, mkP 1 0 2, 1); (AX, mkP 0 1 2, 2); (AY, mkP 1 1 2, 1 # 2); (AY, mkP 1 (3 # 2) 2, 3 # 2); (AY, mkP 4 0 2, 1)].
Example seg_parts_built : exists gs, Forall2 (fun i g => new_seg (fst (fst i)) (snd (fst i)) (snd i) = Some g) seg_parts gs.
Proof. eexists. repeat (apply Forall2_cons; [reflexivity|]). apply Forall2_nil. Qed.
Example seg_parts_apart : corners_apart tol8 (sa_box seg_whole :: map sa_box seg_parts).
Proof. apart_tac. Qed.
Example seg_parts_separate : separate (fun i p => fst (fst i) = AY /\ seg_inner (fst (fst i)) (snd (fst i)) (snd i) p) seg_parts.
Proof.
  intros i j x y D Hx Hy p ((A1 & S1 & C1) & (A2 & S2 & C2)).
  destruct i as [|[|[|[|[|i]]]]]; destruct j as [|[|[|[|[|j]]]]]; cbn in Hx, Hy;
    try congruence; try (destruct i; discriminate); try (destruct j; discriminate);
    injection Hx as <-; injection Hy as <-; cbn in A1, A2; try discriminate;
    unfold strictly in *; cbn [fst snd coo px py pz] in *;
    pose proof (C1 AX ltac:(discriminate)); pose proof (C2 AX ltac:(discriminate)); cbn [coo px] in *; lra.
Qed.
Example seg_parts_union : forall s gs, new_seg AY (mkP 1 0 2) 3 = Some s ->
  Forall2 (fun i g => new_seg (fst (fst i)) (snd (fst i)) (snd i) = Some g) seg_parts gs ->
  seg_union s gs = true.
Proof.
  intros s gs Hs Hg. vm_compute in Hs. injection Hs as <-.
  repeat (match goal with H : Forall2 _ (_ :: _) _ |- _ => inversion H; subst; clear H
          | H : Forall2 _ seg_parts _ |- _ => unfold seg_parts in H
          | H : Forall2 _ [] _ |- _ => inversion H; subst; clear H end).
  repeat match goal with H : new_seg _ _ _ = Some _ |- _ => vm_compute in H; injection H as <- end. reflexivity.
Qed.

(** three rectangles in the plane x = 1 *)
Definition rect_parts : list (axis * point3 * point3) :=
  [(AX, mkP 1 0 0, mkP 0 1 2); (AX, mkP 1 1 0, mkP 0 1 1); (AX, mkP 1 2 2, mkP 0 (-1) (-1))].
Example rect_parts_apart : corners_apart (1 # 3000) (ra_box (AX, mkP 1 0 0, mkP 0 2 2) :: map ra_box rect_parts).
Proof. apart_tac. Qed.
Example rect_parts_union : match new_rect AX (mkP 1 0 0) (mkP 0 2 2), new_rect AX (mkP 1 0 0) (mkP 0 1 2), new_rect AX (mkP 1 1 0) (mkP 0 1 1),
    new_rect AX (mkP 1 2 2) (mkP 0 (-1) (-1)) with
  | Some s, Some a, Some b, Some c => rect_union s [a; b; c] = true /\ rect_union s [a; b] = false
  | _, _, _, _ => False end.
Proof. vm_compute. split; reflexivity. Qed.
Example rect_parts_separate : separate (fun i p => fst (fst i) = AX /\ rect_inner (fst (fst i)) (snd (fst i)) (snd i) p) rect_parts.
Proof.
  intros i j x y D Hx Hy p ((A1 & S1 & C1) & (A2 & S2 & C2)).
  destruct i as [|[|[|i]]]; destruct j as [|[|[|j]]]; cbn in Hx, Hy;
    try congruence; try (destruct i; discriminate); try (destruct j; discriminate);
    injection Hx as <-; injection Hy as <-;
    pose proof (C1 AY ltac:(discriminate)); pose proof (C2 AY ltac:(discriminate));
    pose proof (C1 AZ ltac:(discriminate)); pose proof (C2 AZ ltac:(discriminate));
    unfold strictly in *; cbn [fst snd coo px py pz] in *; lra.
Qed.
(** a cube cut across z *)
Example box_parts : match new_hexa (mkP 0 0 0) (mkP 1 1 1), new_hexa (mkP 0 0 0) (mkP 1 1 (1 # 2)), new_hexa (mkP 0 0 1) (mkP 1 1 (- (1 # 2))) with
  | Some s, Some a, Some b => hexa_union s [a; b] = true /\ hexa_union s [a] = false
  | _, _, _ => False end.
Proof. vm_compute. split; reflexivity. Qed.
(** 3e-4 by 3e-4, and a box with sides 4e-3 *)
Example small_rect : exists s, new_rect AZ (mkP 0 0 0) (mkP (3 # 10000) (3 # 10000) 0) = Some s /\ rc_area s < tol7.
Proof. eexists. split; [reflexivity|reflexivity]. Qed.
Example small_box : exists s, new_hexa (mkP 0 0 0) (mkP (4 # 1000) (4 # 1000) (4 # 1000)) = Some s /\ hx_volume s < tol7.
Proof. eexists. split; [reflexivity|reflexivity]. Qed.

