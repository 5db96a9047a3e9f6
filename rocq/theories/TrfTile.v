(** Triangles as sets of points: halves, quarters, the points where the refining function is evaluated, the maps. *)
From Coq Require Import List ZArith QArith Qcanon Bool Lia Lqa.
From Verif Require Import TrfModel TrfSpec TrfLattice TrfLattice2 TrfSide TrfGlue TrfStatic TrfConform TrfLeaves TrfPairs TrfDynamic.
Import ListNotations.
Local Open Scope Qc_scope.

Lemma this_plus a b : (this (a + b) == this a + this b)%Q. Proof. unfold Qcplus. cbn [this Q2Qc]. apply Qred_correct. Qed.
Lemma this_mult a b : (this (a * b) == this a * this b)%Q. Proof. unfold Qcmult. cbn [this Q2Qc]. apply Qred_correct. Qed.
Lemma this_opp a : (this (- a) == - this a)%Q. Proof. unfold Qcopp. cbn [this Q2Qc]. apply Qred_correct. Qed.
Lemma this_minus a b : (this (a - b) == this a - this b)%Q. Proof. unfold Qcminus. rewrite this_plus, this_opp. reflexivity. Qed.
Lemma this_half : (this half == 1 # 2)%Q. Proof. reflexivity. Qed.
Lemma this_1 : (this 1 == 1)%Q. Proof. reflexivity. Qed.
Lemma this_0 : (this 0 == 0)%Q. Proof. reflexivity. Qed.
Lemma this_third : (this third == 1 # 3)%Q. Proof. reflexivity. Qed.
Lemma eq_this a b : a = b -> (this a == this b)%Q. Proof. intros ->. reflexivity. Qed.
Ltac qc := unfold Qcle, Qclt in *; repeat progress (rewrite ?this_minus, ?this_plus, ?this_mult, ?this_opp, ?this_half, ?this_third, ?this_1, ?this_0 in * ); try lra.
Ltac qceq := apply Qc_is_canon; qc.

Lemma one_half : 1 = half + half. Proof. apply Qc_is_canon; reflexivity. Qed.
Lemma weights_unique v a b c a' b' c' : (match v with (v0, v1, v2) => area2 v0 v1 v2 <> 0 end) -> a + b + c = 1 -> a' + b' + c' = 1 ->
  at_weights v a b c = at_weights v a' b' c' -> b = b' /\ c = c'.
Proof.
  destruct v as [[[x0 y0] [x1 y1]] [x2 y2]]. unfold area2, cross, minus_pt. cbn [fst snd at_weights]. intros D S1 S2 E. apply pair_equal_spec in E. destruct E as [Ex Ey].
  assert (A : a = 1 - b - c) by (rewrite <- S1; ring). assert (A' : a' = 1 - b' - c') by (rewrite <- S2; ring). subst a a'.
  assert (X : (b - b') * (x1 - x0) + (c - c') * (x2 - x0) = 0).
  { transitivity (((1 - b - c) * x0 + b * x1 + c * x2) - ((1 - b' - c') * x0 + b' * x1 + c' * x2)); [ring|rewrite Ex; ring]. }
  assert (Y : (b - b') * (y1 - y0) + (c - c') * (y2 - y0) = 0).
  { transitivity (((1 - b - c) * y0 + b * y1 + c * y2) - ((1 - b' - c') * y0 + b' * y1 + c' * y2)); [ring|rewrite Ey; ring]. }
  assert (B : (b - b') * ((x1 - x0) * (y2 - y0) - (y1 - y0) * (x2 - x0)) = 0).
  { transitivity (((b - b') * (x1 - x0) + (c - c') * (x2 - x0)) * (y2 - y0) - ((b - b') * (y1 - y0) + (c - c') * (y2 - y0)) * (x2 - x0)); [ring|rewrite X, Y; ring]. }
  assert (C : (c - c') * ((x1 - x0) * (y2 - y0) - (y1 - y0) * (x2 - x0)) = 0).
  { transitivity (((b - b') * (y1 - y0) + (c - c') * (y2 - y0)) * (x1 - x0) - ((b - b') * (x1 - x0) + (c - c') * (x2 - x0)) * (y1 - y0)); [ring|rewrite X, Y; ring]. }
  apply Qcmult_integral in B. apply Qcmult_integral in C. destruct B as [B | B]; [|tauto]. destruct C as [C | C]; [|tauto].
  split; [transitivity (b - b' + b'); [ring|rewrite B; ring]|transitivity (c - c' + c'); [ring|rewrite C; ring]].
Qed.
Lemma area_neq s p : match verts s p with (v0, v1, v2) => area2 v0 v1 v2 <> 0 end.
Proof.
  pose proof (area_verts s p) as A. destruct (verts s p) as [[a b] c]. rewrite A. pose proof (two_pos _ (pow_pos (length p))) as P. intros E. rewrite E in P. exact (Qclt_not_eq _ _ P eq_refl).
Qed.
(** weights in a half and in the whole *)
Lemma half0_weights v a b c : at_weights (split_verts v h0) a b c = at_weights v b (c + a * half) (a * half).
Proof. destruct v as [[v0 v1] v2]. cbn [split_verts at_weights]. unfold mid. cbn [fst snd]. f_equal; ring. Qed.
Lemma half2_weights v a b c : at_weights (split_verts v h2) a b c = at_weights v c (a * half) (b + a * half).
Proof. destruct v as [[v0 v1] v2]. cbn [split_verts at_weights]. unfold mid. cbn [fst snd]. f_equal; ring. Qed.
Lemma tri_child e s p q : in_elem (Tri e s p) q -> exists h, in_elem (Tri e s (p ++ [h])) q.
Proof.
  intros (a & b & c & A & B & C & Sm & ->). assert (Sm' := eq_this _ _ Sm).
  destruct (Qclt_le_dec b c) as [L | L].
  - exists h2. cbn [in_elem]. exists (b * (1 + 1)), (c - b), a. rewrite verts_snoc, half2_weights. repeat split; try (qc; fail).
    + qceq.
    + f_equal; qceq.
  - exists h0. cbn [in_elem]. exists (c * (1 + 1)), a, (b - c). rewrite verts_snoc, half0_weights. repeat split; try (qc; fail).
    + qceq.
    + f_equal; qceq.
Qed.
Lemma inside_child e s p h q : inside_elem (Tri e s (p ++ [h])) q -> exists a b c, 0 < a /\ 0 < b /\ 0 < c /\ a + b + c = 1 /\ q = at_weights (verts s p) a b c /\
  match h with h0 => c < b | h2 => b < c end.
Proof.
  intros (a & b & c & A & B & C & Sm & ->). assert (Sm' := eq_this _ _ Sm). rewrite verts_snoc. destruct h.
  - rewrite half0_weights. exists b, (c + a * half), (a * half). repeat split; try (qc; fail). qceq.
  - rewrite half2_weights. exists c, (a * half), (b + a * half). repeat split; try (qc; fail). qceq.
Qed.
Lemma inside_up e s p h q : inside_elem (Tri e s (p ++ [h])) q -> inside_elem (Tri e s p) q.
Proof. intros H. apply inside_child in H. destruct H as (a & b & c & A & B & C & Sm & E & _). exists a, b, c. auto. Qed.
Lemma halves_disjoint e s p h h' q : inside_elem (Tri e s (p ++ [h])) q -> inside_elem (Tri e s (p ++ [h'])) q -> h = h'.
Proof.
  intros H H'. apply inside_child in H. apply inside_child in H'. destruct H as (a & b & c & _ & _ & _ & S1 & E & O), H' as (a' & b' & c' & _ & _ & _ & S2 & E' & O').
  rewrite E in E'. destruct (weights_unique _ _ _ _ _ _ _ (area_neq s p) S1 S2 E') as [-> ->].
  destruct h, h'; auto; exfalso; exact (Qclt_not_le _ _ O (Qclt_le_weak _ _ O')).
Qed.
(** the four triangles of the square *)
Definition sgn_of (s : side) (x y : Qc) : Prop :=
  match s with North => x <= y /\ x + y <= 0 | South => y <= x /\ 0 <= x + y | West => y <= x /\ x + y <= 0 | East => x <= y /\ 0 <= x + y end.
Definition sgn_in (s : side) (x y : Qc) : Prop :=
  match s with North => x < y /\ x + y < 0 | South => y < x /\ 0 < x + y | West => y < x /\ x + y < 0 | East => x < y /\ 0 < x + y end.
Lemma in_root e s x y : in_square (x, y) -> sgn_of s x y -> in_elem (Tri e s []) (x, y).
Proof.
  intros (A & B & C & D) Sg. cbn [fst snd] in *. cbn [in_elem]. change (verts s []) with (verts0 s). destruct s; cbn [verts0 at_weights fst snd]; destruct Sg as [P Q].
  - exists (1 + x), ((y - x) * half), ((- x - y) * half). repeat split; try (qc; fail); try qceq. f_equal; qceq.
  - exists (1 + y), ((- x - y) * half), ((x - y) * half). repeat split; try (qc; fail); try qceq. f_equal; qceq.
  - exists (1 - y), ((x + y) * half), ((y - x) * half). repeat split; try (qc; fail); try qceq. f_equal; qceq.
  - exists (1 - x), ((x - y) * half), ((x + y) * half). repeat split; try (qc; fail); try qceq. f_equal; qceq.
Qed.
Lemma inside_root e s q : inside_elem (Tri e s []) q -> inside_elem (Base e) q /\ sgn_in s (fst q) (snd q).
Proof.
  intros (a & b & c & A & B & C & Sm & ->). assert (Sm' := eq_this _ _ Sm). change (verts s []) with (verts0 s).
  destruct s; cbn [verts0 at_weights fst snd inside_elem sgn_in]; repeat split; qc.
Qed.
Lemma root_cover e q : in_square q -> exists s, in_elem (Tri e s []) q.
Proof.
  destruct q as [x y]. intros H. destruct (Qclt_le_dec x y) as [L | L], (Qclt_le_dec (x + y) 0) as [L' | L'].
  - exists North. apply in_root; auto. split; apply Qclt_le_weak; assumption.
  - exists East. apply in_root; auto. split; [apply Qclt_le_weak|]; assumption.
  - exists West. apply in_root; auto. split; [|apply Qclt_le_weak]; assumption.
  - exists South. apply in_root; auto. split; assumption.
Qed.
Lemma sgn_disjoint s s' x y : sgn_in s x y -> sgn_in s' x y -> s = s'.
Proof. destruct s, s'; cbn; intros [A B] [C D]; auto; exfalso; qc. Qed.

(** splitting any of the elements keeps a tiling *)
Lemma tiles_step M els (g : elem -> list elem) : tiles M els ->
  (forall x y, In y (g x) -> of_base y = of_base x /\ forall p, inside_elem y p -> inside_elem x p) ->
  (forall x p, In x els -> in_elem x p -> exists y, In y (g x) /\ in_elem y p) ->
  (forall x y y' p, In y (g x) -> In y' (g x) -> inside_elem y p -> inside_elem y' p -> y = y') ->
  tiles M (flat_map g els).
Proof.
  intros (T1 & T2 & T3) A B C. split; [|split].
  - intros y H. apply in_flat_map in H. destruct H as (x & I & H). rewrite (proj1 (A _ _ H)). auto.
  - intros e p I H. destruct (T2 e p I H) as (x & Ix & E & Hp). destruct (B x p Ix Hp) as (y & Iy & Hy). exists y. split; [apply in_flat_map; eauto|]. split; auto. rewrite (proj1 (A _ _ Iy)). exact E.
  - intros y y' p H H' E P P'. apply in_flat_map in H. apply in_flat_map in H'. destruct H as (x & I & H), H' as (x' & I' & H').
    destruct (A _ _ H) as [E1 U1], (A _ _ H') as [E2 U2]. assert (x = x') by (apply (T3 x x' p); auto; congruence). subst x'. eapply C; eauto.
Qed.
Lemma tiles_one M R els : tiles M els -> tiles M (split_one R els).
Proof.
  intros T. apply tiles_step; [exact T| | |].
  - intros x y H. destruct (emem x R); [|destruct H as [<- | []]; auto]. destruct x as [e|e s p]; [|destruct H as [<- | []]; auto].
    assert (X : exists s, y = Tri e s []) by (destruct H as [<- | [<- | [<- | [<- | []]]]]; eauto). destruct X as (s & ->). split; auto. intros p Hp. apply inside_root in Hp. apply Hp.
  - intros x p _ H. destruct (emem x R); [|exists x; cbn; auto]. destruct x as [e|e s r]; [|exists (Tri e s r); cbn; auto].
    destruct (root_cover e p H) as (s & Hs). exists (Tri e s []). split; auto. destruct s; cbn; auto 6.
  - intros x y y' p H H' P P'. destruct (emem x R); [|destruct H as [<- | []], H' as [<- | []]; auto]. destruct x as [e|e s r]; [|destruct H as [<- | []], H' as [<- | []]; auto].
    assert (X : exists s, y = Tri e s []) by (destruct H as [<- | [<- | [<- | [<- | []]]]]; eauto).
    assert (X' : exists s, y' = Tri e s []) by (destruct H' as [<- | [<- | [<- | [<- | []]]]]; eauto). destruct X as (s & ->), X' as (s' & ->).
    apply inside_root in P. apply inside_root in P'. rewrite (sgn_disjoint s s' _ _ (proj2 P) (proj2 P')). reflexivity.
Qed.
Lemma tiles_high M R els : tiles M els -> tiles M (split_high R els).
Proof.
  intros T. apply tiles_step; [exact T| | |].
  - intros x y H. destruct (emem x R); [|destruct H as [<- | []]; auto]. destruct x as [e|e s p]; [destruct H as [<- | []]; auto|].
    assert (X : exists h, y = Tri e s (p ++ [h])) by (destruct H as [<- | [<- | []]]; eauto). destruct X as (h & ->). split; auto. intros q. apply inside_up.
  - intros x p _ H. destruct (emem x R); [|exists x; cbn; auto]. destruct x as [e|e s r]; [exists (Base e); cbn; auto|].
    destruct (tri_child e s r p H) as (h & Hh). exists (Tri e s (r ++ [h])). split; auto. destruct h; cbn; auto.
  - intros x y y' p H H' P P'. destruct (emem x R); [|destruct H as [<- | []], H' as [<- | []]; auto]. destruct x as [e|e s r]; [destruct H as [<- | []], H' as [<- | []]; auto|].
    assert (X : exists h, y = Tri e s (r ++ [h])) by (destruct H as [<- | [<- | []]]; eauto).
    assert (X' : exists h, y' = Tri e s (r ++ [h])) by (destruct H' as [<- | [<- | []]]; eauto). destruct X as (h & ->), X' as (h' & ->).
    rewrite (halves_disjoint _ _ _ _ _ _ P P'). reflexivity.
Qed.
Lemma refine_tiles fl M bd val ts els : refine fl M bd val ts = Some els -> tiles M els.
Proof.
  destruct ts as [|t ts]; cbn [refine]; [discriminate|]. destruct (level_one M val t) as [R|]; [|discriminate].
  assert (T : tiles M (split_one R (map (fun x => Base (fst x)) M))).
  { apply tiles_one. split; [|split].
    - intros x H. apply in_map_iff in H. destruct H as (y & <- & I). cbn. apply in_map. exact I.
    - intros e p I H. apply in_map_iff in I. destruct I as (y & <- & I). exists (Base (fst y)). split; [apply in_map_iff; eauto|]. auto.
    - intros x y p H H' E _ _. apply in_map_iff in H. apply in_map_iff in H'. destruct H as (a & <- & _), H' as (b & <- & _). cbn in E. rewrite E. reflexivity. }
  revert T. generalize (split_one R (map (fun x => Base (fst x)) M)). induction ts as [|t' ts IH]; cbn [high_levels]; intros l T E.
  - injection E. intros <-. exact T.
  - destruct (level_high fl M bd val t' l) as [R'|]; [|discriminate]. eapply IH; [|exact E]. apply tiles_high. exact T.
Qed.

(** the evaluation points *)
Lemma center_weights v : tri_center v = at_weights v third third third.
Proof.
  destruct v as [[[a a'] [b b']] [c c']]. unfold tri_center, at_weights, mid. cbn [fst snd]. f_equal; qceq.
Qed.
Lemma points_in s p e q : In q (tri_points (verts s p)) -> in_elem (Tri e s p) q.
Proof.
  pose proof (center_weights (verts s p)) as CW. cbn [in_elem]. unfold tri_points. destruct (verts s p) as [[[a a'] [b b']] [c c']]. rewrite CW. 
  assert (W : forall u v w, 0 <= u -> 0 <= v -> 0 <= w -> u + v + w = 1 -> q = at_weights ((a, a'), (b, b'), (c, c')) u v w ->
    exists u v w, 0 <= u /\ 0 <= v /\ 0 <= w /\ u + v + w = 1 /\ q = at_weights ((a, a'), (b, b'), (c, c')) u v w) by (intros u v w; exists u, v, w; auto).
  assert (Z0 : 0 <= 0) by apply Qcle_refl. assert (Z1 : 0 <= 1) by discriminate. assert (ZH : 0 <= half) by discriminate. assert (ZT : 0 <= third) by discriminate.
  intros [<- | [<- | [<- | [<- | [<- | [<- | [<- | []]]]]]]].
  - apply (W 1 0 0); auto. unfold at_weights. cbn [fst snd]. f_equal; ring.
  - apply (W 0 1 0); auto. unfold at_weights. cbn [fst snd]. f_equal; ring.
  - apply (W 0 0 1); auto. unfold at_weights. cbn [fst snd]. f_equal; ring.
  - apply (W third third third); auto. apply Qc_is_canon. reflexivity.
  - apply (W 0 half half); auto; try (apply Qc_is_canon; reflexivity); unfold at_weights, mid; cbn [fst snd]; f_equal; ring.
  - apply (W half half 0); auto; try (apply Qc_is_canon; reflexivity); unfold at_weights, mid; cbn [fst snd]; f_equal; ring.
  - apply (W half 0 half); auto; try (apply Qc_is_canon; reflexivity); unfold at_weights, mid; cbn [fst snd]; f_equal; ring.
Qed.
(** the map of a triangle in a curvilinear quadrilateral: the segment from vertex 0 to the points between the vertices 1 and 2 *)
Lemma tct_weights v xi et : tct_point v xi et = at_weights v ((1 - xi) * half) ((1 + xi) * half * ((1 - et) * half)) ((1 + xi) * half * ((1 + et) * half)).
Proof.
  destruct v as [[[a a'] [b b']] [c c']]. unfold tct_point, tct_row, at_weights. cbn [fst snd].
  assert (Hq : TrfModel.quarter = half * half) by (apply Qc_is_canon; reflexivity). rewrite Hq.
  assert (H1 := one_half). 
  assert (X : forall a b c : Qc, (- half * a + half * half * b + half * half * c) * xi + (- half * b + half * c) * (et * (xi + 1) * half) + (half * a + half * half * b + half * half * c) =
    (1 - xi) * half * a + (1 + xi) * half * ((1 - et) * half) * b + (1 + xi) * half * ((1 + et) * half) * c) by (intros; ring).
  f_equal; apply X.
Qed.

(** triangles of a bilinear quadrilateral are not inverted *)
Definition axis (v : pt * pt * pt) : Prop :=
  match v with (v0, v1, v2) => (snd v1 = snd v0 /\ fst v2 = fst v0) \/ (fst v1 = fst v0 /\ snd v2 = snd v0) end.
Definition diag (v : pt * pt * pt) : Prop :=
  match v with (v0, v1, v2) => (fst v1 = fst v2 /\ snd v1 + snd v2 = snd v0 + snd v0) \/ (snd v1 = snd v2 /\ fst v1 + fst v2 = fst v0 + fst v0) end.
Lemma twice_half x : (x + x) * half = x. Proof. transitivity (x * (half + half)); [ring|rewrite <- one_half; ring]. Qed.
Lemma diag_axis v h : diag v -> axis (split_verts v h).
Proof.
  destruct v as [[[x0 y0] [x1 y1]] [x2 y2]]. unfold diag, axis, mid. cbn [fst snd]. intros [[A B] | [A B]]; destruct h; cbn [split_verts mid fst snd].
  - subst x2. rewrite B, !twice_half. auto. - subst x2. rewrite B, !twice_half. auto.
  - subst y2. rewrite B, !twice_half. auto. - subst y2. rewrite B, !twice_half. auto.
Qed.
Lemma half_twice a b : (a + b) * half + (a + b) * half = a + b. Proof. transitivity ((a + b) * (half + half)); [ring|rewrite <- one_half; ring]. Qed.
Lemma axis_diag v h : axis v -> diag (split_verts v h).
Proof.
  destruct v as [[[x0 y0] [x1 y1]] [x2 y2]]. unfold diag, axis, mid. cbn [fst snd]. intros [[A B] | [A B]]; destruct h; cbn [split_verts mid fst snd]; rewrite ?half_twice; subst; auto.
  - right. split; auto. ring. - left. split; auto. ring. - left. split; auto. ring. - right. split; auto. ring.
Qed.
Lemma verts_kind s p : axis (verts s p) \/ diag (verts s p).
Proof.
  induction p as [|h p IH] using rev_ind; [right; destruct s; cbn; [left|right|right|left]; split; auto; apply Qc_is_canon; reflexivity|].
  rewrite verts_snoc. destruct IH as [H | H]; [right; apply axis_diag|left; apply diag_axis]; exact H.
Qed.
Definition jac (A B C D : pt) (v : pt) : Qc :=
  let r := (fst v + 1) * half in let s := (snd v + 1) * half in
  (1 - r) * (1 - s) * area2 A B D + r * (1 - s) * area2 B C A + r * s * area2 C D B + (1 - r) * s * area2 D A C.
Lemma unit_of x : -(1) <= x -> x <= 1 -> 0 <= (x + 1) * half /\ 0 <= 1 - (x + 1) * half.
Proof. intros A B. split; qc. Qed.
Lemma mul_nonneg a b : 0 <= a -> 0 <= b -> 0 <= a * b.
Proof. intros A B. rewrite <- (Qcmult_0_l b). apply Qcmult_le_compat_r; assumption. Qed.
Lemma combo_pos a b c d A B C D : 0 <= a -> 0 <= b -> 0 <= c -> 0 <= d -> a + b + c + d = 1 -> 0 < A -> 0 < B -> 0 < C -> 0 < D -> 0 < a * A + b * B + c * C + d * D.
Proof.
  intros a0 b0 c0 d0 Sm A0 B0 C0 D0. apply eq_this in Sm. unfold Qclt, Qcle in *. rewrite ?this_plus, ?this_mult, ?this_0, ?this_1 in *.
  generalize dependent (this a). generalize dependent (this b). generalize dependent (this c). generalize dependent (this d).
  generalize dependent (this A). generalize dependent (this B). generalize dependent (this C). generalize dependent (this D). intros.
  assert (N1 := Qmult_le_0_compat _ _ a0 (Qlt_le_weak _ _ A0)). assert (N2 := Qmult_le_0_compat _ _ b0 (Qlt_le_weak _ _ B0)).
  assert (N3 := Qmult_le_0_compat _ _ c0 (Qlt_le_weak _ _ C0)). assert (N4 := Qmult_le_0_compat _ _ d0 (Qlt_le_weak _ _ D0)).
  match goal with |- (0 < ?w * ?W + ?x * ?X + ?y * ?Y + ?z * ?Z)%Q =>
    destruct (Qlt_le_dec 0 w) as [P | P]; [assert (T := Qmult_lt_0_compat _ _ P A0); lra|];
    destruct (Qlt_le_dec 0 x) as [P1 | P1]; [assert (T := Qmult_lt_0_compat _ _ P1 B0); lra|];
    destruct (Qlt_le_dec 0 y) as [P2 | P2]; [assert (T := Qmult_lt_0_compat _ _ P2 C0); lra|];
    destruct (Qlt_le_dec 0 z) as [P3 | P3]; [assert (T := Qmult_lt_0_compat _ _ P3 D0); lra|]; lra end.
Qed.
Lemma jac_pos A B C D v : convex A B C D -> in_square v -> 0 < jac A B C D v.
Proof.
  intros (a & b & c & d) (X1 & X2 & Y1 & Y2). unfold jac. destruct (unit_of _ X1 X2) as [R1 R2], (unit_of _ Y1 Y2) as [S1 S2].
  apply combo_pos; auto using mul_nonneg. ring.
Qed.
Lemma image_axis A B C D v : axis v -> match v with (v0, v1, v2) =>
  area2 (bilinear A B C D v0) (bilinear A B C D v1) (bilinear A B C D v2) = half * half * area2 v0 v1 v2 * jac A B C D v0 end.
Proof.
  destruct v as [[[x0 y0] [x1 y1]] [x2 y2]], A as [Ax Ay], B as [Bx By], C as [Cx Cy], D as [Dx Dy].
  unfold axis, jac, bilinear, area2, cross, minus_pt. cbn [fst snd]. intros [[-> ->] | [-> ->]]; ring.
Qed.
Lemma image_diag A B C D v : diag v -> match v with (v0, v1, v2) =>
  area2 (bilinear A B C D v0) (bilinear A B C D v1) (bilinear A B C D v2) = half * half * area2 v0 v1 v2 * jac A B C D (mid v1 v2) end.
Proof.
  destruct v as [[[x0 y0] [x1 y1]] [x2 y2]], A as [Ax Ay], B as [Bx By], C as [Cx Cy], D as [Dx Dy].
  unfold diag, jac, bilinear, area2, cross, minus_pt, mid. cbn [fst snd]. intros [[<- E] | [<- E]]; rewrite E, !twice_half.
  - assert (E2 : y2 = y0 + y0 - y1) by (rewrite <- E; ring). subst y2. ring.
  - assert (E2 : x2 = x0 + x0 - x1) by (rewrite <- E; ring). subst x2. ring.
Qed.
Lemma not_inverted A B C D s p : convex A B C D -> match verts s p with (v0, v1, v2) =>
  0 < area2 (bilinear A B C D v0) (bilinear A B C D v1) (bilinear A B C D v2) end.
Proof.
  intros H. pose proof (verts_kind s p) as K. pose proof (area_verts s p) as Ar. pose proof (image_axis A B C D (verts s p)) as IA. pose proof (image_diag A B C D (verts s p)) as ID.
  destruct (vert_sq s p) as (V0 & _ & _). pose proof (tmid_sq s p) as Vm. rewrite tmid_eta in Vm. rewrite verts_eta in *.
  assert (PM : forall x y, 0 < x -> 0 < y -> 0 < x * y) by (intros x y X Y; rewrite <- (Qcmult_0_l y); apply Qcmult_lt_compat_r; assumption).
  assert (PP : 0 < half * half * ((1 + 1) * half ^ length p)) by (apply PM; [reflexivity|]; apply two_pos, pow_pos).
  destruct K as [K | K]; [rewrite (IA K)|rewrite (ID K)]; rewrite Ar; apply PM; auto using jac_pos.
Qed.

(** regions *)
Definition rank (l : label) : nat := match l with Old _ => 0 | Mid2 _ _ => 1 | Ctr _ => 2 end.
Lemma ranks r l : In l (quads_of r) -> (exists a b c, r = RTri a b c) -> match l with (a, b, c, d) => rank a = 0 /\ rank b = 1 /\ rank c = 2 /\ rank d = 1 end%nat.
Proof. intros H (a & b & c & ->). destruct H as [<- | [<- | [<- | []]]]; cbn; auto. Qed.
Lemma triangles_same num rs M : (forall a b, In a (labels rs) -> In b (labels rs) -> num a = num b -> a = b) -> (forall r, In r rs -> exists a b c, r = RTri a b c) ->
  (forall e q, In (e, q) M -> In q (quads_numbered num rs)) -> same_directions Msehtt M.
Proof.
  intros J T HM e q s e' q' s' n n' I I' F F'. apply HM in I. apply HM in I'.
  assert (X : forall q s n n', In q (quads_numbered num rs) -> side_from Msehtt q s n n' ->
    exists l l', n = num l /\ n' = num l' /\ (rank l < rank l')%nat /\ In l (labels rs) /\ In l' (labels rs)).
  { clear - T. intros q s n n' I F. unfold quads_numbered in I. apply in_map_iff in I. destruct I as ((((a & b) & c) & d) & <- & I).
    assert (L : forall x, In x [a; b; c; d] -> In x (labels rs)) by (intros x Hx; apply in_flat_map; exists (a, b, c, d); auto).
    apply in_flat_map in I. destruct I as (r & Ir & I).
    apply ranks in I; [|apply T; exact Ir]. destruct I as (A & B & C & D). apply side_face_eq in F.
    destruct s; cbn in F; apply pair_equal_spec in F; destruct F as [<- <-]; do 2 eexists; (split; [reflexivity|]); (split; [reflexivity|]); (split; [lia|]); split; apply L; cbn; auto. }
  destruct (X _ _ _ _ I F) as (l & l' & -> & -> & L & Il & Il'), (X _ _ _ _ I' F') as (m & m' & E & E' & L' & Im & Im'). apply J in E; auto. apply J in E'; auto. subst. lia.
Qed.
