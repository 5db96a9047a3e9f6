From Coq Require Import Reals Bool List Arith Lra Lia.
From Verif Require Import SgModel SgSpec SgThms SgThms2 SgPoly.
Import ListNotations.
Local Open Scope R_scope.

(** the vertex after the i-th, around the polygon *)
Definition next (v : list pt) (i : nat) : pt := nth ((i + 1) mod length v) v (mkPt 0 0).
Definition edges_long (v : list pt) : Prop :=
  forall i, (i < length v)%nat -> / 10 ^ 3 < dist (nth i v (mkPt 0 0)) (next v i).

Lemma edge_is v i s : edge v i = Some s <->
  (i < length v)%nat /\ s = mkSeg (nth i v (mkPt 0 0)) (next v i) /\ / 10 ^ 3 < dist (nth i v (mkPt 0 0)) (next v i).
Proof.
  unfold edge, next. destruct (Nat.ltb_spec i (length v)) as [H|H].
  - destruct (Nat.ltb_spec i (length v - 1)) as [H1|H1].
    + rewrite new_seg_is, Nat.mod_small by lia; tauto.
    + replace (length v - 1)%nat with i by lia.
      replace ((i + 1) mod length v)%nat with 0%nat; [rewrite new_seg_is; tauto|].
      replace (i + 1)%nat with (length v) by lia; symmetry; apply Nat.mod_same; lia.
  - split; [discriminate | intros [X _]; lia].
Qed.
Lemma edge_long v i : edges_long v -> (i < length v)%nat -> edge v i = Some (mkSeg (nth i v (mkPt 0 0)) (next v i)).
Proof. intros H Hi; apply edge_is; auto. Qed.

Lemma loop_value v p : edges_long v -> forall k i, (i + k <= length v)%nat ->
  exists b, edges_loop v p k i = Some b /\
    (b = true <-> exists j, (i <= j < i + k)%nat /\ on_seg p (mkSeg (nth j v (mkPt 0 0)) (next v j)) = true).
Proof.
  intros HL; induction k as [|k IH]; intros i Hi; cbn [edges_loop].
  - exists false; split; auto; split; [discriminate | intros (j & J & _); lia].
  - rewrite edge_long by (auto; lia). destruct (on_seg p _) eqn:E.
    + exists true; split; auto; split; auto; intros _; exists i; split; [lia|auto].
    + destruct (IH (i + 1)%nat ltac:(lia)) as (b & B & C); exists b; split; auto. rewrite C; split.
      * intros (j & J & F); exists j; split; [lia|auto].
      * intros (j & J & F); exists j; split; auto.
        destruct (Nat.eq_dec j i); [subst j; congruence | lia].
Qed.
(** a polygon with long edges: on an edge, or what matplotlib says *)
Lemma in_poly_value path v p : edges_long v -> exists b, in_poly path v p = Some b /\
  (b = true <-> (exists j, (j < length v)%nat /\ on_seg p (mkSeg (nth j v (mkPt 0 0)) (next v j)) = true) \/ path v p = true).
Proof.
  intros HL; unfold in_poly. destruct (loop_value v p HL (length v) 0 ltac:(lia)) as (b & -> & C).
  destruct b.
  - exists true; split; auto; split; auto; intros _; left. destruct (proj1 C eq_refl) as (j & J & F); exists j; split; [lia|auto].
  - exists (path v p); split; auto; split; [auto|]. intros [(j & J & F)|F]; auto.
    exfalso; assert (false = true) by (apply C; exists j; split; [lia|auto]); discriminate.
Qed.
Lemma edge_point path v j t : edges_long v -> (j < length v)%nat -> 0 <= t <= 1 ->
  in_poly path v (at_ (mkSeg (nth j v (mkPt 0 0)) (next v j)) t) = Some true.
Proof.
  intros HL Hj Ht; destruct (in_poly_value path v (at_ (mkSeg (nth j v (mkPt 0 0)) (next v j)) t) HL) as (b & -> & C).
  f_equal; apply C; left; exists j; split; auto; apply on_seg_at; auto.
Qed.
Lemma vertex_in path v p : edges_long v -> In p v -> in_poly path v p = Some true.
Proof.
  intros HL Hp; destruct (In_nth v p (mkPt 0 0) Hp) as (j & Hj & E).
  rewrite <- (edge_point path v j 0 HL Hj) by lra. rewrite at_0; cbn [sA]; rewrite E; auto.
Qed.
Lemma contain_vertices path v w : edges_long v -> incl w v -> poly_contain path v w = Some true.
Proof.
  intros HL Hi; unfold poly_contain; destruct (poly_eq v w); auto.
  induction w as [|p w IH]; [reflexivity|]; cbn [all_in].
  rewrite vertex_in by (auto; apply Hi; left; auto); apply IH; intros q Hq; apply Hi; right; auto.
Qed.
(** a short edge makes the test of points raise, unless an earlier edge has the point *)
Lemma loop_short v p k : forall i j, (i <= j < i + k)%nat -> edge v j = None ->
  (forall m e, (i <= m < j)%nat -> edge v m = Some e -> on_seg p e = false) -> edges_loop v p k i = None.
Proof.
  induction k as [|k IH]; intros i j Hj Hn He; [lia|]; cbn [edges_loop].
  destruct (edge v i) as [e|] eqn:E; auto.
  destruct (Nat.eq_dec i j); [subst; congruence|].
  rewrite (He i e) by (auto; lia). apply (IH (i + 1)%nat j); auto; try lia.
  intros m e' Hm; apply He; lia.
Qed.
Lemma short_edge path v p j : (j < length v)%nat -> dist (nth j v (mkPt 0 0)) (next v j) <= / 10 ^ 3 ->
  (forall m, (m < j)%nat -> on_seg p (mkSeg (nth m v (mkPt 0 0)) (next v m)) = false) -> in_poly path v p = None.
Proof.
  intros Hj Hd He; unfold in_poly; rewrite (loop_short v p (length v) 0 j); auto; try lia.
  - destruct (edge v j) as [s|] eqn:E; auto; apply edge_is in E; lra.
  - intros m e Hm E; apply edge_is in E as (_ & -> & _); apply He; lia.
Qed.
Lemma dist_same p : dist p p = 0.
Proof. unfold dist; replace (_ + _) with 0 by ring; apply sqrt_0. Qed.
(** rings as shapely gives them, the first vertex again at the end, have no last edge *)
Lemma closed_ring v p : edge (p :: v ++ [p]) (S (length v)) = None.
Proof.
  destruct (edge _ _) as [s|] eqn:E; auto; exfalso. apply edge_is in E as (_ & _ & H); revert H; unfold next.
  assert (L : length (p :: v ++ [p]) = S (S (length v))) by (cbn [length]; rewrite app_length; cbn [length]; lia).
  rewrite L; replace ((S (length v) + 1) mod S (S (length v)))%nat with 0%nat.
  2: { replace (S (length v) + 1)%nat with (S (S (length v))) by lia; symmetry; apply Nat.mod_same; lia. }
  cbn [nth]; rewrite app_nth2, Nat.sub_diag by lia; cbn [nth]; rewrite dist_same; lra.
Qed.
Lemma poly_eq_refl v : poly_eq v v = true.
Proof.
  unfold poly_eq; rewrite Nat.eqb_refl; induction v as [|p v IH]; cbn [all_eq]; auto; rewrite pt_eq_refl; auto.
Qed.
Lemma poly_eq_is v w : poly_eq v w = true <-> length v = length w /\
  forall i, (i < length v)%nat -> pt_eq (nth i v (mkPt 0 0)) (nth i w (mkPt 0 0)) = true.
Proof.
  unfold poly_eq; destruct (Nat.eqb_spec (length v) (length w)) as [L|L]; [|split; [discriminate|intros [X _]; contradiction]].
  revert w L; induction v as [|p v IH]; intros [|q w] L; try discriminate L; cbn [all_eq].
  - split; auto; intros _; split; auto; cbn; lia.
  - cbn [length] in L; injection L as L. destruct (pt_eq p q) eqn:E.
    + rewrite (IH w L); split; intros [_ H]; (split; [cbn [length]; lia|]).
      * intros [|i] Hi; cbn [nth]; auto; apply H; cbn [length] in Hi; lia.
      * intros i Hi; apply (H (S i)); cbn [length]; lia.
    + split; [discriminate|]. intros [_ H]. rewrite <- E; apply (H 0%nat); cbn [length]; lia.
Qed.

(** examples *)
Definition tri := [mkPt 0 0; mkPt 4 0; mkPt 2 4].
Definition arrow := [mkPt 0 0; mkPt 2 1; mkPt 4 0; mkPt 2 4].
Lemma far_x p q : 1 <= ptx q - ptx p -> / 10 ^ 3 < dist p q.
Proof. intros H; eapply Rlt_le_trans; [|apply dist_ge_x]; lra. Qed.
Lemma far_x' p q : 1 <= ptx p - ptx q -> / 10 ^ 3 < dist p q.
Proof. intros H; rewrite dist_sym; apply far_x; auto. Qed.
Lemma arrow_long : edges_long arrow.
Proof.
  intros i Hi; unfold arrow, next in *; cbn [length] in *.
  destruct i as [|[|[|[|i]]]]; [| | | |lia]; cbn; first [apply far_x; cbn [ptx]; lra | apply far_x'; cbn [ptx]; lra].
Qed.
(** p is in the triangle a b c *)
Definition in_tri (a b c p : pt) : Prop := exists r s t, 0 <= r /\ 0 <= s /\ 0 <= t /\ r + s + t = 1 /\
  ptx p = r * ptx a + s * ptx b + t * ptx c /\ pty p = r * pty a + s * pty b + t * pty c.
Lemma concave path : poly_contain path arrow tri = Some true /\
  in_tri (mkPt 0 0) (mkPt 4 0) (mkPt 2 4) (mkPt 2 (/ 2)) /\
  ~ in_tri (mkPt 0 0) (mkPt 2 1) (mkPt 2 4) (mkPt 2 (/ 2)) /\ ~ in_tri (mkPt 2 1) (mkPt 4 0) (mkPt 2 4) (mkPt 2 (/ 2)).
Proof.
  repeat split.
  - apply contain_vertices; [exact arrow_long|]. intros p Hp; unfold tri, arrow in *; cbn in *; tauto.
  - exists (7 / 16), (7 / 16), (1 / 8); cbn [ptx pty]; repeat split; lra.
  - intros (r & s & t & H); cbn [ptx pty] in H; lra.
  - intros (r & s & t & H); cbn [ptx pty] in H; lra.
Qed.
Lemma rotated : poly_eq tri [mkPt 4 0; mkPt 2 4; mkPt 0 0] = false.
Proof.
  unfold poly_eq, tri; cbn [length Nat.eqb all_eq]. rewrite (pt_neq 0 4); auto; try lra. rewrite Rabs_left1; lra.
Qed.
(** a square of side 1/1000: every point off its first edge *)
Definition small := [mkPt 0 0; mkPt (/ 1000) 0; mkPt (/ 1000) (/ 1000); mkPt 0 (/ 1000)].
Lemma small_raises path p : in_poly path small p = None.
Proof.
  apply (short_edge path small p 0); cbn [length small nth next]; try lia.
  unfold next; cbn. rewrite dist_x by lra. lra.
Qed.
Lemma contain_value path v w : edges_long v -> exists b, poly_contain path v w = Some b /\
  (b = true <-> poly_eq v w = true \/ forall p, In p w -> in_poly path v p = Some true).
Proof.
  intros HL; unfold poly_contain; destruct (poly_eq v w).
  - exists true; split; auto; split; auto.
  - assert (G : exists b, all_in path v w = Some b /\ (b = true <-> forall p, In p w -> in_poly path v p = Some true)).
    { induction w as [|p w IH]; cbn [all_in].
      - exists true; split; auto; split; auto; intros _ q [].
      - destruct (in_poly_value path v p HL) as (b & B & _); rewrite B; destruct b.
        + destruct IH as (b & I & C); exists b; split; auto; rewrite C; split.
          * intros H q [<-|Hq]; auto.
          * intros H q Hq; apply H; right; auto.
        + exists false; split; auto; split; [discriminate|]. intros H. specialize (H p (or_introl eq_refl)); congruence. }
    destruct G as (b & I & C); exists b; split; auto; rewrite C; split; auto. intros [H|H]; [discriminate|auto].
Qed.
