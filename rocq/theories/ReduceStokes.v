(** Integral theorems for reconstructed fields on mapped elements in 2-d. *)
From Coq Require Import List Arith Reals Lra Lia.
From Coquelicot Require Import Coquelicot.
From Verif Require Import MappingModel MappingSpec MappingProofs JacobianSpec JacobianModel JacobianProofs PolyModel PolySpec PolyProofs PolyCalc NdArray LocalNumberingModel IncidenceModel IncidenceSpec IncidenceThms TensorModel TensorSpec TensorAct TensorProofs TensorThms ReduceModel ReduceSpec ReduceProofs ReduceForms ReduceRound.
Import List ListNotations.
Local Open Scope R_scope.
Local Notation mat := MappingModel.mat.
Local Notation i0 := 0%nat.
Local Notation i1 := 1%nat.
Local Notation i2 := 2%nat.

Lemma int_ext (f g : R -> R) (a b l : R) : a <= b -> (forall t, a <= t <= b -> f t = g t) -> is_RInt f a b l -> is_RInt g a b l.
Proof. intros ab H. apply is_RInt_ext. intros x. rewrite Rmin_left, Rmax_right by exact ab. intros. apply H. lra. Qed.
Lemma int2_ext (f g : R -> R -> R) (a b c d l : R) : a <= b -> c <= d -> (forall x y, a <= x <= b -> c <= y <= d -> f x y = g x y) -> integral2 f a b c d l -> integral_on2 g a b c d l.
Proof. intros ab cd H (h & Hh & I). exists h. split; [| exact I]. intros y Hy. eapply int_ext; [exact ab | | apply Hh]. intros. now apply H. Qed.
Lemma coef_of_applied ln N E c d m ix : numbering_bijective ln N -> applied E N c d -> (exists r, num ln m ix r) -> rcoef (cochain d) ln m ix = rcoef (apply E (cochain c)) ln m ix.
Proof. intros B A [r Nm]. exact (applied_coef ln N E c d m ix r B A Nm). Qed.

Section Stokes2.
Variables (phi : R -> R -> pt2) (J : R -> R -> mat) (sx sy c d : list R) (vx vy : R -> R -> R * R).
Hypotheses (Hx : nodes_ok sx) (Hy : nodes_ok sy) (Rx : in_reference sx) (Ry : in_reference sy)
  (HS : smooth2 phi J) (HM : moves2 phi vx vy) (D : forall x y, ref x -> ref y -> determinant 2 (J x y) <> 0).
Notation px := (degree sx). Notation py := (degree sy).
Ltac deg2 := destruct (deg_len sx Hx) as [?Dx _]; destruct (deg_len sy Hy) as [?Dy _].
Ltac refs := first [eapply ref_edge; cycle 3; [eassumption | assumption | assumption | assumption] | apply ref_node; [assumption | unfold degree in *; destruct Hx, Hy; lia]].

(** the integral over an edge is the coefficient *)
Lemma inner_edges V : length c = nd_m2n2k1 px py ->
  (forall x y, ref x -> ref y -> rc_vector2 push_inner2 J [x] [y] (rc_m2n2k1_inner sx sy [x] [y] c) = Some [[fst (V (phi x y))]; [snd (V (phi x y))]]) ->
  (forall i j, (i < px)%nat -> (j < length sy)%nat ->
     is_RInt (fun t => along2 (V (phi t (node sy j))) (vx t (node sy j))) (node sx i) (node sx (S i)) (rcoef (cochain c) (ln_m2n2k1_inner px py) 0 [i; j])) /\
  (forall i j, (i < length sx)%nat -> (j < py)%nat ->
     is_RInt (fun t => along2 (V (phi (node sx i) t)) (vy (node sx i) t)) (node sy j) (node sy (S j)) (rcoef (cochain c) (ln_m2n2k1_inner px py) 1 [i; j])).
Proof.
  intros Lc H. deg2. split; intros i j Hi Hj.
  - eapply int_ext; [now apply node_le | | exact (red_EN (cochain c) _ 0 sx sy Hx Hy i j Hi Hj)]. intros t Ht.
    assert (Tx : ref t) by refs. assert (Ty : ref (node sy j)) by refs. destruct (columns2 phi J vx vy t (node sy j) HS HM Tx Ty) as [-> _].
    destruct (inner_point J sx sy c t (node sy j) _ _ Hx Hy Lc (D _ _ Tx Ty) (H _ _ Tx Ty)) as [<- _]. unfold along2; cbn [fst snd]. ring.
  - eapply int_ext; [now apply node_le | | exact (red_NE (cochain c) _ 1 sx sy Hx Hy i j Hi Hj)]. intros t Ht.
    assert (Ty : ref t) by refs. assert (Tx : ref (node sx i)) by refs. destruct (columns2 phi J vx vy (node sx i) t HS HM Tx Ty) as [_ ->].
    destruct (inner_point J sx sy c (node sx i) t _ _ Hx Hy Lc (D _ _ Tx Ty) (H _ _ Tx Ty)) as [_ <-]. unfold along2; cbn [fst snd]. ring.
Qed.
Lemma outer_edges V : length c = nd_m2n2k1 px py ->
  (forall x y, ref x -> ref y -> rc_vector2 push_outer2 J [x] [y] (rc_m2n2k1_outer sx sy [x] [y] c) = Some [[fst (V (phi x y))]; [snd (V (phi x y))]]) ->
  (forall i j, (i < length sx)%nat -> (j < py)%nat ->
     is_RInt (fun t => to_right (V (phi (node sx i) t)) (vy (node sx i) t)) (node sy j) (node sy (S j)) (rcoef (cochain c) (ln_m2n2k1_outer px py) 0 [i; j])) /\
  (forall i j, (i < px)%nat -> (j < length sy)%nat ->
     is_RInt (fun t => to_left (V (phi t (node sy j))) (vx t (node sy j))) (node sx i) (node sx (S i)) (rcoef (cochain c) (ln_m2n2k1_outer px py) 1 [i; j])).
Proof.
  intros Lc H. deg2. split; intros i j Hi Hj.
  - eapply int_ext; [now apply node_le | | exact (red_NE (cochain c) _ 0 sx sy Hx Hy i j Hi Hj)]. intros t Ht.
    assert (Ty : ref t) by refs. assert (Tx : ref (node sx i)) by refs. destruct (columns2 phi J vx vy (node sx i) t HS HM Tx Ty) as [_ ->].
    destruct (outer_point J sx sy c (node sx i) t _ _ Hx Hy Lc (D _ _ Tx Ty) (H _ _ Tx Ty)) as [<- _]. unfold to_right; cbn [fst snd]. ring.
  - eapply int_ext; [now apply node_le | | exact (red_EN (cochain c) _ 1 sx sy Hx Hy i j Hi Hj)]. intros t Ht.
    assert (Tx : ref t) by refs. assert (Ty : ref (node sy j)) by refs. destruct (columns2 phi J vx vy t (node sy j) HS HM Tx Ty) as [-> _].
    destruct (outer_point J sx sy c t (node sy j) _ _ Hx Hy Lc (D _ _ Tx Ty) (H _ _ Tx Ty)) as [_ <-]. unfold to_left; cbn [fst snd]. ring.
Qed.
Lemma cells (e : list R) g : length e = nd_m2n2k2 px py ->
  (forall x y, ref x -> ref y -> rc_density2 J [x] [y] (rc_m2n2k2 sx sy [x] [y] e) = Some [[g (phi x y)]]) ->
  forall i j, (i < px)%nat -> (j < py)%nat ->
    integral_on2 (fun x y => g (phi x y) * area2 (vx x y) (vy x y)) (node sx i) (node sx (S i)) (node sy j) (node sy (S j)) (rcoef (cochain e) (ln_m2n2k2 px py) 0 [i; j]).
Proof.
  intros Le H i j Hi Hj. eapply int2_ext; [now apply node_le | now apply node_le | | exact (red_EE (cochain e) _ 0 sx sy Hx Hy i j Hi Hj)].
  intros x y Kx Ky. assert (Tx : ref x) by refs. assert (Ty : ref y) by refs. rewrite (det_area phi J vx vy x y HS HM Tx Ty).
  symmetry. apply (density_point J); auto.
Qed.

Ltac dof2 := deg2; rewrite ?ln_m2n2k1_inner_eq, ?ln_m2n2k1_outer_eq, ?ln_m2n2k2_eq; eapply ex2; [reflexivity | lia | lia].
(** Gauss: the integral of the divergence over the image of a cell is the flux out of it *)
Lemma gauss2 E V g : E_m2n2k1_outer px py = Some E -> length c = nd_m2n2k1 px py -> applied E (nd_m2n2k2 px py) c d ->
  (forall x y, ref x -> ref y -> rc_vector2 push_outer2 J [x] [y] (rc_m2n2k1_outer sx sy [x] [y] c) = Some [[fst (V (phi x y))]; [snd (V (phi x y))]]) ->
  (forall x y, ref x -> ref y -> rc_density2 J [x] [y] (rc_m2n2k2 sx sy [x] [y] d) = Some [[g (phi x y)]]) ->
  forall i j, (i < px)%nat -> (j < py)%nat -> exists right left top bottom,
    is_RInt (fun t => to_right (V (phi (node sx (S i)) t)) (vy (node sx (S i)) t)) (node sy j) (node sy (S j)) right /\
    is_RInt (fun t => to_right (V (phi (node sx i) t)) (vy (node sx i) t)) (node sy j) (node sy (S j)) left /\
    is_RInt (fun t => to_left (V (phi t (node sy (S j)))) (vx t (node sy (S j)))) (node sx i) (node sx (S i)) top /\
    is_RInt (fun t => to_left (V (phi t (node sy j))) (vx t (node sy j))) (node sx i) (node sx (S i)) bottom /\
    integral_on2 (fun x y => g (phi x y) * area2 (vx x y) (vy x y)) (node sx i) (node sx (S i)) (node sy j) (node sy (S j)) (right - left + (top - bottom)).
Proof.
  intros HE Lc A HV Hg i j Hi Hj. destruct (outer_edges V Lc HV) as [EY EX]. assert (C := cells d g (proj1 A) Hg i j Hi Hj).
  rewrite (coef_of_applied _ _ E c d _ _ (bij_m2n2k2 px py) A) in C by dof2.
  rewrite (real_m2n2k1_outer px py E HE (cochain c) i j Hi Hj) in C. deg2.
  eexists _, _, _, _. refine (conj _ (conj _ (conj _ (conj _ C)))); [apply EY | apply EY | apply EX | apply EX]; lia.
Qed.
(** Green: the integral of the rotation is the circulation around the cell *)
Lemma green2 E V g : E_m2n2k1_inner px py = Some E -> length c = nd_m2n2k1 px py -> applied E (nd_m2n2k2 px py) c d ->
  (forall x y, ref x -> ref y -> rc_vector2 push_inner2 J [x] [y] (rc_m2n2k1_inner sx sy [x] [y] c) = Some [[fst (V (phi x y))]; [snd (V (phi x y))]]) ->
  (forall x y, ref x -> ref y -> rc_density2 J [x] [y] (rc_m2n2k2 sx sy [x] [y] d) = Some [[g (phi x y)]]) ->
  forall i j, (i < px)%nat -> (j < py)%nat -> exists right left top bottom,
    is_RInt (fun t => along2 (V (phi (node sx (S i)) t)) (vy (node sx (S i)) t)) (node sy j) (node sy (S j)) right /\
    is_RInt (fun t => along2 (V (phi (node sx i) t)) (vy (node sx i) t)) (node sy j) (node sy (S j)) left /\
    is_RInt (fun t => along2 (V (phi t (node sy (S j)))) (vx t (node sy (S j)))) (node sx i) (node sx (S i)) top /\
    is_RInt (fun t => along2 (V (phi t (node sy j))) (vx t (node sy j))) (node sx i) (node sx (S i)) bottom /\
    integral_on2 (fun x y => g (phi x y) * area2 (vx x y) (vy x y)) (node sx i) (node sx (S i)) (node sy j) (node sy (S j)) (bottom + right - top - left).
Proof.
  intros HE Lc A HV Hg i j Hi Hj. destruct (inner_edges V Lc HV) as [EX EY]. assert (C := cells d g (proj1 A) Hg i j Hi Hj).
  rewrite (coef_of_applied _ _ E c d _ _ (bij_m2n2k2 px py) A) in C by dof2.
  rewrite (real_m2n2k1_inner px py E HE (cochain c) i j Hi Hj) in C. deg2.
  eexists _, _, _, _. refine (conj _ (conj _ (conj _ (conj _ _)))); [apply EY; lia | apply EY; lia | apply EX; lia | apply EX; lia |].
  replace (_ - _) with (rcoef (cochain c) (ln_m2n2k1_inner px py) 1 [S i; j] - rcoef (cochain c) (ln_m2n2k1_inner px py) 1 [i; j]
     - (rcoef (cochain c) (ln_m2n2k1_inner px py) 0 [i; S j] - rcoef (cochain c) (ln_m2n2k1_inner px py) 0 [i; j])) by ring. exact C.
Qed.
End Stokes2.

Section Gradient2.
Variables (phi : R -> R -> pt2) (J : R -> R -> mat) (sx sy c d : list R) (vx vy : R -> R -> R * R).
Hypotheses (Hx : nodes_ok sx) (Hy : nodes_ok sy) (Rx : in_reference sx) (Ry : in_reference sy)
  (HS : smooth2 phi J) (HM : moves2 phi vx vy) (D : forall x y, ref x -> ref y -> determinant 2 (J x y) <> 0).
Notation px := (degree sx). Notation py := (degree sy).
Ltac deg2 := destruct (deg_len sx Hx) as [?Dx _]; destruct (deg_len sy Hy) as [?Dy _].
Ltac refs := first [eapply ref_edge; cycle 3; [eassumption | assumption | assumption | assumption] | apply ref_node; [assumption | unfold degree in *; destruct Hx, Hy; lia]].
Ltac dof2 := deg2; rewrite ?ln_m2n2k1_inner_eq, ?ln_m2n2k1_outer_eq, ?ln_m2n2k2_eq; eapply ex2; [reflexivity | lia | lia].

Lemma scalar_at f i j : length c = nd_m2n2k0 px py -> (forall x y, ref x -> ref y -> rc_m2n2k0 sx sy [x] [y] c = Some [[f (phi x y)]]) ->
  (i < length sx)%nat -> (j < length sy)%nat -> f (phi (node sx i) (node sy j)) = rcoef (cochain c) (ln_m2n2k0 px py) 0 [i; j].
Proof.
  intros Lc H Hi Hj. rewrite (scalar_point sx sy c (node sx i) (node sy j) _ Hx Hy Lc (H (node sx i) (node sy j) ltac:(refs) ltac:(refs))).
  now apply red_NN.
Qed.
(** line integrals of a reconstructed gradient are differences of values *)
Lemma potential2 E V f : E_m2n2k0_inner px py = Some E -> length c = nd_m2n2k0 px py -> applied E (nd_m2n2k1 px py) c d ->
  (forall x y, ref x -> ref y -> rc_m2n2k0 sx sy [x] [y] c = Some [[f (phi x y)]]) ->
  (forall x y, ref x -> ref y -> rc_vector2 push_inner2 J [x] [y] (rc_m2n2k1_inner sx sy [x] [y] d) = Some [[fst (V (phi x y))]; [snd (V (phi x y))]]) ->
  (forall i j, (i < px)%nat -> (j < length sy)%nat ->
     is_RInt (fun t => along2 (V (phi t (node sy j))) (vx t (node sy j))) (node sx i) (node sx (S i)) (f (phi (node sx (S i)) (node sy j)) - f (phi (node sx i) (node sy j)))) /\
  (forall i j, (i < length sx)%nat -> (j < py)%nat ->
     is_RInt (fun t => along2 (V (phi (node sx i) t)) (vy (node sx i) t)) (node sy j) (node sy (S j)) (f (phi (node sx i) (node sy (S j))) - f (phi (node sx i) (node sy j)))).
Proof.
  intros HE Lc A Hf HV. destruct (inner_edges phi J sx sy d vx vy Hx Hy Rx Ry HS HM D V (proj1 A) HV) as [EX EY]. destruct (real_m2n2k0_inner px py E HE (cochain c)) as [RX RY]. deg2.
  split; intros i j Hi Hj; rewrite !scalar_at by (assumption || lia).
  - assert (C := EX i j Hi Hj). rewrite (coef_of_applied _ _ E c d _ _ (bij_m2n2k1i px py) A), RX in C by (lia || dof2). exact C.
  - assert (C := EY i j Hi Hj). rewrite (coef_of_applied _ _ E c d _ _ (bij_m2n2k1i px py) A), RY in C by (lia || dof2). exact C.
Qed.
(** fluxes of a reconstructed curl are differences of the stream function *)
Lemma stream2 E V f : E_m2n2k0_outer px py = Some E -> length c = nd_m2n2k0 px py -> applied E (nd_m2n2k1 px py) c d ->
  (forall x y, ref x -> ref y -> rc_m2n2k0 sx sy [x] [y] c = Some [[f (phi x y)]]) ->
  (forall x y, ref x -> ref y -> rc_vector2 push_outer2 J [x] [y] (rc_m2n2k1_outer sx sy [x] [y] d) = Some [[fst (V (phi x y))]; [snd (V (phi x y))]]) ->
  (forall i j, (i < length sx)%nat -> (j < py)%nat ->
     is_RInt (fun t => to_right (V (phi (node sx i) t)) (vy (node sx i) t)) (node sy j) (node sy (S j)) (f (phi (node sx i) (node sy (S j))) - f (phi (node sx i) (node sy j)))) /\
  (forall i j, (i < px)%nat -> (j < length sy)%nat ->
     is_RInt (fun t => to_left (V (phi t (node sy j))) (vx t (node sy j))) (node sx i) (node sx (S i)) (- (f (phi (node sx (S i)) (node sy j)) - f (phi (node sx i) (node sy j))))).
Proof.
  intros HE Lc A Hf HV. destruct (outer_edges phi J sx sy d vx vy Hx Hy Rx Ry HS HM D V (proj1 A) HV) as [EY EX]. destruct (real_m2n2k0_outer px py E HE (cochain c)) as [RY RX]. deg2.
  split; intros i j Hi Hj; rewrite !scalar_at by (assumption || lia).
  - assert (C := EY i j Hi Hj). rewrite (coef_of_applied _ _ E c d _ _ (bij_m2n2k1o px py) A), RY in C by (lia || dof2). exact C.
  - assert (C := EX i j Hi Hj). rewrite (coef_of_applied _ _ E c d _ _ (bij_m2n2k1o px py) A), RX in C by (lia || dof2). exact C.
Qed.

Lemma applied_form E N ln m bx by' x y : numbering_bijective ln N -> applied E N c d ->
  (forall i j, (i < fst bx)%nat -> (j < fst by')%nat -> exists r, num ln m [i; j] r) ->
  form2 (cochain d) ln m bx by' x y = form2 (apply E (cochain c)) ln m bx by' x y.
Proof.
  intros B A Nm. unfold form2. apply total_ext. intros i Hi. apply total_ext. intros j Hj. f_equal. apply (coef_of_applied ln N E c d m [i; j] B A). now apply Nm.
Qed.
Lemma near (f g : R -> R) x l : -1 < x < 1 -> (forall t, ref t -> f t = g t) -> is_derive f x l -> is_derive g x l.
Proof.
  intros Hx' H. apply is_derive_ext_loc. assert (P : 0 < Rmin (x + 1) (1 - x)) by (apply Rmin_pos; lra). exists (mkposreal _ P). intros t Ht. apply H.
  unfold ball in Ht; cbn in Ht. unfold AbsRing_ball, abs, minus, plus, opp in Ht; cbn in Ht. unfold ref.
  pose proof (Rmin_l (x + 1) (1 - x)). pose proof (Rmin_r (x + 1) (1 - x)). apply Rabs_def2 in Ht. lra.
Qed.
Lemma solve2 (M : mat) a b a' b' : determinant 2 M <> 0 -> M i0 i0 * a + M i1 i0 * b = M i0 i0 * a' + M i1 i0 * b' -> M i0 i1 * a + M i1 i1 * b = M i0 i1 * a' + M i1 i1 * b' -> a = a' /\ b = b'.
Proof.
  rewrite det_expand2. intros Dm A B.
  split; apply (Rmult_eq_reg_l (M i0 i0 * M i1 i1 - M i0 i1 * M i1 i0)); try exact Dm.
  - transitivity (M i1 i1 * (M i0 i0 * a + M i1 i0 * b) - M i1 i0 * (M i0 i1 * a + M i1 i1 * b)); [ring |]. rewrite A, B. ring.
  - transitivity (M i0 i0 * (M i0 i1 * a + M i1 i1 * b) - M i0 i1 * (M i0 i0 * a + M i1 i0 * b)); [ring |]. rewrite A, B. ring.
Qed.
Lemma values_derive f x y gx gy : length c = nd_m2n2k0 px py ->
  (forall x y, ref x -> ref y -> rc_m2n2k0 sx sy [x] [y] c = Some [[f (phi x y)]]) -> -1 < x < 1 -> -1 < y < 1 ->
  differentiable_pt_lim (fun a b => f (a, b)) (fst (phi x y)) (snd (phi x y)) gx gy ->
  let F := form2 (cochain c) (ln_m2n2k0 px py) 0 (nodal sx) (nodal sy) in
  is_derive (fun t => F t y) x (J x y i0 i0 * gx + J x y i1 i0 * gy) /\ is_derive (fun t => F x t) y (J x y i0 i1 * gx + J x y i1 i1 * gy).
Proof.
  intros Lc Hf Ix Iy Hg F. assert (Tx : ref x) by (unfold ref; lra). assert (Ty : ref y) by (unfold ref; lra). destruct (HS x y Tx Ty) as [P Q].
  assert (G := D2_comp (fun a b => f (a, b)) (fun u v => fst (phi u v)) (fun u v => snd (phi u v)) x y _ _ _ _ _ _ Hg P Q). apply D2_partial in G. destruct G as [G0 G1].
  split.
  - apply (near (fun u => f (fst (phi u y), snd (phi u y)))); [exact Ix | |].
    + intros t Ht. rewrite <- surjective_pairing. exact (scalar_point sx sy c t y _ Hx Hy Lc (Hf t y Ht Ty)).
    + eapply is_derive_eq; [exact G0 |]. ring.
  - apply (near (fun u => f (fst (phi x u), snd (phi x u)))); [exact Iy | |].
    + intros t Ht. rewrite <- surjective_pairing. exact (scalar_point sx sy c x t _ Hx Hy Lc (Hf x t Tx Ht)).
    + eapply is_derive_eq; [exact G1 |]. ring.
Qed.
Lemma inner_some e x y : length e = nd_m2n2k1 px py -> exists a b, rc_vector2 push_inner2 J [x] [y] (rc_m2n2k1_inner sx sy [x] [y] e) = Some [[a]; [b]].
Proof.
  intros L. destruct (rc_2d_k1_inner sx sy [x] [y] e Hx Hy L) as (u & v & -> & Gu & Gv).
  destruct (vector2_grid push_inner2 J [x] [y] u v _ _ Gu Gv) as (p & q & -> & Gp & Gq). apply grid2_point in Gp, Gq. subst p q. eexists _, _. reflexivity.
Qed.
Lemma outer_some e x y : length e = nd_m2n2k1 px py -> exists a b, rc_vector2 push_outer2 J [x] [y] (rc_m2n2k1_outer sx sy [x] [y] e) = Some [[a]; [b]].
Proof.
  intros L. destruct (rc_2d_k1_outer sx sy [x] [y] e Hx Hy L) as (u & v & -> & Gu & Gv).
  destruct (vector2_grid push_outer2 J [x] [y] u v _ _ Gu Gv) as (p & q & -> & Gp & Gq). apply grid2_point in Gp, Gq. subst p q. eexists _, _. reflexivity.
Qed.
(** the reconstructed gradient is the gradient *)
Lemma gradient2 E f x y gx gy : E_m2n2k0_inner px py = Some E -> length c = nd_m2n2k0 px py -> applied E (nd_m2n2k1 px py) c d ->
  (forall x y, ref x -> ref y -> rc_m2n2k0 sx sy [x] [y] c = Some [[f (phi x y)]]) -> -1 < x < 1 -> -1 < y < 1 ->
  differentiable_pt_lim (fun a b => f (a, b)) (fst (phi x y)) (snd (phi x y)) gx gy ->
  rc_vector2 push_inner2 J [x] [y] (rc_m2n2k1_inner sx sy [x] [y] d) = Some [[gx]; [gy]].
Proof.
  intros HE Lc A Hf Ix Iy Hg. assert (Tx : ref x) by (unfold ref; lra). assert (Ty : ref y) by (unfold ref; lra).
  destruct (values_derive f x y gx gy Lc Hf Ix Iy Hg) as [G0 G1]. destruct (gradient_2d_inner sx sy E (cochain c) Hx Hy HE x y) as [F0 F1].
  destruct (inner_some d x y (proj1 A)) as (a & b & Eq).
  destruct (inner_point J sx sy d x y _ _ Hx Hy (proj1 A) (D x y Tx Ty) Eq) as [B0 B1].
  rewrite (applied_form E _ _ _ _ _ _ _ (bij_m2n2k1i px py) A) in B0 by (intros; cbn [fst] in *; dof2).
  rewrite (applied_form E _ _ _ _ _ _ _ (bij_m2n2k1i px py) A) in B1 by (intros; cbn [fst] in *; dof2).
  rewrite (is_derive_unique_R _ _ _ _ F0 G0) in B0. rewrite (is_derive_unique_R _ _ _ _ F1 G1) in B1.
  destruct (solve2 (J x y) _ _ _ _ (D x y Tx Ty) B0 B1) as [X Y]. rewrite Eq. now rewrite X, Y.
Qed.
(** the reconstructed curl is the curl *)
Lemma curl2 E f x y gx gy : E_m2n2k0_outer px py = Some E -> length c = nd_m2n2k0 px py -> applied E (nd_m2n2k1 px py) c d ->
  (forall x y, ref x -> ref y -> rc_m2n2k0 sx sy [x] [y] c = Some [[f (phi x y)]]) -> -1 < x < 1 -> -1 < y < 1 ->
  differentiable_pt_lim (fun a b => f (a, b)) (fst (phi x y)) (snd (phi x y)) gx gy ->
  rc_vector2 push_outer2 J [x] [y] (rc_m2n2k1_outer sx sy [x] [y] d) = Some [[gy]; [- gx]].
Proof.
  intros HE Lc A Hf Ix Iy Hg. assert (Tx : ref x) by (unfold ref; lra). assert (Ty : ref y) by (unfold ref; lra).
  destruct (values_derive f x y gx gy Lc Hf Ix Iy Hg) as [G0 G1]. destruct (curl_2d_outer sx sy E (cochain c) Hx Hy HE x y) as (F0 & F1).
  destruct (outer_some d x y (proj1 A)) as (a & b & Eq).
  destruct (outer_point J sx sy d x y _ _ Hx Hy (proj1 A) (D x y Tx Ty) Eq) as [B0 B1].
  rewrite (applied_form E _ _ _ _ _ _ _ (bij_m2n2k1o px py) A) in B0 by (intros; cbn [fst] in *; dof2).
  rewrite (applied_form E _ _ _ _ _ _ _ (bij_m2n2k1o px py) A) in B1 by (intros; cbn [fst] in *; dof2).
  assert (U0 := is_derive_unique_R _ _ _ _ F0 G1). assert (U1 := is_derive_unique_R _ _ _ _ F1 G0).
  destruct (solve2 (J x y) (- b) a gx gy (D x y Tx Ty)) as [X Y]; [rewrite <- U1, <- B1; ring | rewrite <- U0, <- B0; ring |].
  rewrite Eq, <- X, <- Y. now rewrite Ropp_involutive.
Qed.
End Gradient2.
