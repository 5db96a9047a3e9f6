(** On elements with a constant Jacobian matrix, with rules exact for products of
    basis functions, the mass matrices are matrices of integrals. *)
From Coq Require Import List Arith Reals Lia Lra.
From Coquelicot Require Import Coquelicot.
From Verif Require Import PolyModel PolySpec PolyProofs PolyCalc NdArray LocalNumberingModel IncidenceModel IncidenceSpec IncidenceThms TensorModel TensorSpec TensorAct TensorThms MappingModel MappingSpec JacobianModel JacobianSpec JacobianProofs ReduceModel ReduceSpec ReduceProofs ReduceForms ReduceRound ReduceRound3 MassModel MassSpec MassProofs MassThms MassPos.
Import ListNotations.
Local Open Scope R_scope.
Local Notation i0 := 0%nat.
Local Notation i1 := 1%nat.
Local Notation i2 := 2%nat.
Local Notation mat := MappingModel.mat.

Lemma ps_mult m n f g : poly_of_size m f -> poly_of_size n g -> poly_of_size (m + n) (fun x => f x * g x).
Proof.
  intros (c & Lc & Ec) Hg. revert m f Lc Ec. induction c as [| c0 c IH]; intros m f Lc Ec.
  - apply (ps_ext _ (fun _ => 0)); [intros; rewrite Ec; cbn; ring | apply ps_0].
  - cbn [length] in Lc. destruct m as [| m]; [lia |]. cbn [Nat.add].
    apply (ps_ext _ (fun x => c0 * g x + poly c x * g x * ((x - 0) / 1))); [intros x; rewrite Ec; cbn [poly]; field |].
    apply ps_plus; [apply (ps_mono n); [lia |]; now apply ps_scal |]. apply ps_linear. apply (IH m (poly c)); [lia | reflexivity].
Qed.
Lemma rule_sum_ref qn qw f : length qw = length qn -> rule_sum qn qw (-1) 1 f = total (length qn) (fun r => nth r qw 0 * f (nth r qn 0)).
Proof.
  intros L. unfold rule_sum. rewrite L, <- total_scal. apply total_ext. intros r _. replace (-1 + (1 - -1) / 2 * (nth r qn 0 + 1)) with (nth r qn 0) by field. field.
Qed.
Lemma rule_sum_ext_all qn qw a b f g : (forall x, f x = g x) -> rule_sum qn qw a b f = rule_sum qn qw a b g.
Proof. intros H. unfold rule_sum. f_equal. apply total_ext. intros. now rewrite H. Qed.
Lemma exact1 d qx wx f : length wx = length qx -> exact_rule d qx wx -> poly_of_size d f -> is_RInt f (-1) 1 (rule1 qx wx (fun x _ => f x)).
Proof. intros L H P. unfold rule1. rewrite <- (rule_sum_ref qx wx f L). now apply (rule_exact d). Qed.
Lemma exact2 d1 d2 qx wx qy wy f : length wx = length qx -> length wy = length qy -> exact_rule d1 qx wx -> exact_rule d2 qy wy ->
  (forall y, poly_of_size d1 (fun x => f x y)) -> (forall x, poly_of_size d2 (f x)) -> integral2 f (-1) 1 (-1) 1 (rule2 qx wx qy wy (fun x y _ _ => f x y)).
Proof.
  intros Lx Ly H1 H2 P1 P2. pose proof (rule2_exact d1 d2 qx wx qy wy (-1) 1 (-1) 1 f H1 H2 P1 P2) as E. revert E. unfold rule_sum2.
  rewrite rule_sum_ref by assumption. intros E. replace (rule2 _ _ _ _ _) with (total (length qy) (fun r => nth r wy 0 * rule_sum qx wx (-1) 1 (fun x => f x (nth r qy 0)))); [exact E |].
  unfold rule2. rewrite total_swap. apply total_ext. intros q _. rewrite rule_sum_ref, <- total_scal by assumption. apply total_ext. intros. ring.
Qed.
Lemma exact3 d1 d2 d3 qx wx qy wy qz wz f : length wx = length qx -> length wy = length qy -> length wz = length qz ->
  exact_rule d1 qx wx -> exact_rule d2 qy wy -> exact_rule d3 qz wz ->
  (forall y z, poly_of_size d1 (fun x => f x y z)) -> (forall x z, poly_of_size d2 (fun y => f x y z)) -> (forall x y, poly_of_size d3 (f x y)) ->
  integral3 f (-1) 1 (-1) 1 (-1) 1 (rule3 qx wx qy wy qz wz (fun x y z _ _ _ => f x y z)).
Proof.
  intros Lx Ly Lz H1 H2 H3 P1 P2 P3. pose proof (rule3_exact d1 d2 d3 qx wx qy wy qz wz (-1) 1 (-1) 1 (-1) 1 f H1 H2 H3 P1 P2 P3) as E.
  replace (rule3 _ _ _ _ _ _ _) with (rule_sum3 qx wx qy wy qz wz (-1) 1 (-1) 1 (-1) 1 f); [exact E |].
  unfold rule_sum3, rule_sum2, rule3. rewrite rule_sum_ref by assumption. symmetry.
  rewrite (total_ext (length qx) _ (fun p => total (length qz) (fun r => total (length qy) (fun q => nth p wx 0 * nth q wy 0 * nth r wz 0 * f (nth p qx 0) (nth q qy 0) (nth r qz 0))))) by (intros; apply total_swap).
  rewrite total_swap. apply total_ext. intros r _. rewrite total_swap, rule_sum_ref, <- total_scal by assumption. apply total_ext. intros q _.
  rewrite rule_sum_ref, <- !total_scal by assumption. apply total_ext. intros. ring.
Qed.
Lemma rule1_ext qx wx f g : (forall p, (p < length qx)%nat -> f (nth p qx 0) p = g (nth p qx 0) p) -> rule1 qx wx f = rule1 qx wx g.
Proof. intros H. apply total_ext. intros p Hp. now rewrite H. Qed.
Lemma rule2_ext qx wx qy wy f g : (forall p q, (p < length qx)%nat -> (q < length qy)%nat -> f (nth p qx 0) (nth q qy 0) p q = g (nth p qx 0) (nth q qy 0) p q) ->
  rule2 qx wx qy wy f = rule2 qx wx qy wy g.
Proof. intros H. apply total_ext. intros p Hp. apply total_ext. intros q Hq. now rewrite H. Qed.
Lemma rule3_ext qx wx qy wy qz wz f g : (forall p q r, (p < length qx)%nat -> (q < length qy)%nat -> (r < length qz)%nat ->
  f (nth p qx 0) (nth q qy 0) (nth r qz 0) p q r = g (nth p qx 0) (nth q qy 0) (nth r qz 0) p q r) -> rule3 qx wx qy wy qz wz f = rule3 qx wx qy wy qz wz g.
Proof. intros H. apply total_ext. intros p Hp. apply total_ext. intros q Hq. apply total_ext. intros r Hr. now rewrite H. Qed.
Lemma grid3_point v x y z f : grid3 v [x] [y] [z] f -> v = [f x y z].
Proof. intros [L G]. cbn in L. destruct v as [| a [| b v]]; try discriminate. f_equal. exact (G 0%nat 0%nat 0%nat (le_n _) (le_n _) (le_n _)). Qed.
Lemma grid1_point v x f : grid1 v [x] f -> v = [f x].
Proof. intros [L G]. cbn in L. destruct v as [| a [| b v]]; try discriminate. f_equal. exact (G 0%nat (le_n _)). Qed.

(** components of forms are polynomials *)
Lemma ps_nodal s i : nodes_ok s -> (i < fst (nodal s))%nat -> poly_of_size (length s) (snd (nodal s) i).
Proof. intros [I L] H. now apply ps_lagrange. Qed.
Lemma ps_edges' s i : nodes_ok s -> (i < fst (edges s))%nat -> poly_of_size (length s) (snd (edges s) i).
Proof. intros H Hi. apply (ps_mono (degree s)); [unfold degree; lia | now apply ps_edges]. Qed.
Lemma ps_neg n f : poly_of_size n f -> poly_of_size n (fun x => - f x).
Proof. intros H. apply (ps_ext _ (fun x => -1 * f x)); [intros; ring | now apply ps_scal]. Qed.
Ltac psf := intros; first [now apply ps_nodal | now apply ps_edges'].
Ltac psx := repeat first [apply ps_plus | apply ps_scal | apply ps_scal_r | apply ps_minus | apply ps_neg]; first [apply ps_form2_x; psf | apply ps_form2_y; psf | apply ps_form3; psf].
Lemma double n : (2 * n = n + n)%nat. Proof. lia. Qed.

Lemma exact_1d_k0 J0 sx qx wx M a b A B : nodes_ok sx -> length wx = length qx -> exact_rule (2 * length sx) qx wx ->
  mm_m1n1k0 (fun _ => J0) sx qx wx = Some M -> length a = nd_m1n1k0 (degree sx) -> length b = nd_m1n1k0 (degree sx) ->
  (forall x, rc_m1n1k0 sx [x] a = Some [[A x]]) -> (forall x, rc_m1n1k0 sx [x] b = Some [[B x]]) ->
  is_RInt (fun x => determinant 1 J0 * (A x * (B x))) (-1) 1 (bilinear M a b).
Proof.
  intros Hx Lw Ex EM La Lb HA HB.
  assert (PA : forall c C, length c = nd_m1n1k0 (degree sx) -> (forall x, rc_m1n1k0 sx [x] c = Some [[C x]]) -> forall x, C x = form1 (cochain c) (ln_m1n1k0 (degree sx)) 0 (nodal sx) x).
  { intros c C Lc HC x. destruct (rc_1d_k0 sx [x] c Hx Lc) as (u & Eu & Gu). rewrite HC in Eu. apply grid1_point in Gu. subst u. now injection Eu. }
  destruct (rc_1d_k0 sx qx a Hx La) as (u & Eu & Lu & Gu). destruct (rc_1d_k0 sx qx b Hx Lb) as (v & Ev & Lv & Gv).
  destruct (mass_1d_k0 _ sx qx wx a b M u v Hx La Lb EM Eu Ev) as [_ E]. rewrite E.
  rewrite (rule1_ext qx wx _ (fun x _ => determinant 1 J0 * (A x * (B x)))).
  2: { intros p Hp. rewrite Gu, Gv by assumption. now rewrite (PA a A La HA), (PA b B Lb HB). }
  apply (exact1 (2 * length sx)); [assumption | assumption |]. rewrite double. apply ps_scal. apply ps_mult.
  - apply (ps_ext _ (form1 (cochain a) (ln_m1n1k0 (degree sx)) 0 (nodal sx))); [intros; symmetry; now apply PA |]. unfold form1. apply ps_total. intros. apply ps_scal. psf.
  - apply (ps_ext _ (form1 (cochain b) (ln_m1n1k0 (degree sx)) 0 (nodal sx))); [intros; symmetry; now apply PA |]. unfold form1. apply ps_total. intros. apply ps_scal. psf.
Qed.

Lemma exact_1d_k1 J0 sx qx wx M a b A B : nodes_ok sx -> length wx = length qx -> exact_rule (2 * length sx) qx wx ->
  determinant 1 J0 <> 0 ->
  mm_m1n1k1 (fun _ => J0) sx qx wx = Some M -> length a = nd_m1n1k1 (degree sx) -> length b = nd_m1n1k1 (degree sx) ->
  (forall x, rc_m1n1k1 sx [x] a = Some [[A x]]) -> (forall x, rc_m1n1k1 sx [x] b = Some [[B x]]) ->
  is_RInt (fun x => determinant 1 J0 * (A x / determinant 1 J0 * (B x / determinant 1 J0))) (-1) 1 (bilinear M a b).
Proof.
  intros Hx Lw Ex D EM La Lb HA HB.
  assert (PA : forall c C, length c = nd_m1n1k1 (degree sx) -> (forall x, rc_m1n1k1 sx [x] c = Some [[C x]]) -> forall x, C x = form1 (cochain c) (ln_m1n1k1 (degree sx)) 0 (edges sx) x).
  { intros c C Lc HC x. destruct (rc_1d_k1 sx [x] c Hx Lc) as (u & Eu & Gu). rewrite HC in Eu. apply grid1_point in Gu. subst u. now injection Eu. }
  destruct (rc_1d_k1 sx qx a Hx La) as (u & Eu & Lu & Gu). destruct (rc_1d_k1 sx qx b Hx Lb) as (v & Ev & Lv & Gv).
  destruct (mass_1d_k1 _ sx qx wx a b M u v Hx La Lb EM Eu Ev (fun _ _ => D)) as [_ E]. rewrite E.
  rewrite (rule1_ext qx wx _ (fun x _ => determinant 1 J0 * (A x / determinant 1 J0 * (B x / determinant 1 J0)))).
  2: { intros p Hp. rewrite Gu, Gv by assumption. now rewrite (PA a A La HA), (PA b B Lb HB). }
  apply (exact1 (2 * length sx)); [assumption | assumption |]. rewrite double. apply ps_scal. apply ps_mult.
  - unfold Rdiv. apply ps_scal_r. apply (ps_ext _ (form1 (cochain a) (ln_m1n1k1 (degree sx)) 0 (edges sx))); [intros; symmetry; now apply PA |]. unfold form1. apply ps_total. intros. apply ps_scal. psf.
  - unfold Rdiv. apply ps_scal_r. apply (ps_ext _ (form1 (cochain b) (ln_m1n1k1 (degree sx)) 0 (edges sx))); [intros; symmetry; now apply PA |]. unfold form1. apply ps_total. intros. apply ps_scal. psf.
Qed.

Lemma exact_2d_k0 J0 sx sy qx wx qy wy M a b A B : nodes_ok sx -> nodes_ok sy ->
  length wx = length qx -> length wy = length qy -> exact_rule (2 * length sx) qx wx -> exact_rule (2 * length sy) qy wy ->
  mm_m2n2k0 (fun _ _ => J0) sx sy qx wx qy wy = Some M -> length a = nd_m2n2k0 (degree sx) (degree sy) -> length b = nd_m2n2k0 (degree sx) (degree sy) ->
  (forall x y, rc_m2n2k0 sx sy [x] [y] a = Some [[A x y]]) ->
  (forall x y, rc_m2n2k0 sx sy [x] [y] b = Some [[B x y]]) ->
  integral2 (fun x y => determinant 2 J0 * (A x y * (B x y))) (-1) 1 (-1) 1 (bilinear M a b).
Proof.
  intros Hx Hy Lx Ly Ex Ey EM La Lb HA HB.
  assert (PA : forall c (C : R -> R -> R), length c = nd_m2n2k0 (degree sx) (degree sy) -> (forall x y, rc_m2n2k0 sx sy [x] [y] c = Some [[C x y]]) -> forall x y, C x y = form2 (cochain c) (ln_m2n2k0 (degree sx) (degree sy)) 0 (nodal sx) (nodal sy) x y).
  { intros c C Lc HC x y. destruct (rc_2d_k0 sx sy [x] [y] c Hx Hy Lc) as (u & Er & Gu).
    specialize (HC x y). rewrite Er in HC. apply grid2_point in Gu. subst u. now injection HC. }
  destruct (rc_2d_k0 sx sy qx qy a Hx Hy La) as (u & Era & Gu).
  destruct (rc_2d_k0 sx sy qx qy b Hx Hy Lb) as (u2 & Erb & Gu2).
  destruct Gu as [_ Ka0], Gu2 as [_ Kb0]. destruct (mass_2d_k0 _ sx sy qx wx qy wy Hx Hy Lx Ly a b M u u2 La Lb EM Era Erb) as [_ E].
  rewrite E. rewrite (rule2_ext qx wx qy wy _ (fun x y _ _ => determinant 2 J0 * (A x y * (B x y)))).
  2: { intros p q Hp Hq. rewrite Ka0, Kb0 by assumption. now rewrite (PA a A La HA), (PA b B Lb HB). }
  apply (exact2 (2 * length sx) (2 * length sy)); try assumption.
  - intros y. rewrite double. apply ps_scal. apply ps_mult; [apply (ps_ext _ (fun x => form2 (cochain a) (ln_m2n2k0 (degree sx) (degree sy)) 0 (nodal sx) (nodal sy) x y)); [intros; now rewrite (PA a A La HA) |]; psx | apply (ps_ext _ (fun x => form2 (cochain b) (ln_m2n2k0 (degree sx) (degree sy)) 0 (nodal sx) (nodal sy) x y)); [intros; now rewrite (PA b B Lb HB) |]; psx].
  - intros x. rewrite double. apply ps_scal. apply ps_mult; [apply (ps_ext _ (fun y => form2 (cochain a) (ln_m2n2k0 (degree sx) (degree sy)) 0 (nodal sx) (nodal sy) x y)); [intros; now rewrite (PA a A La HA) |]; psx | apply (ps_ext _ (fun y => form2 (cochain b) (ln_m2n2k0 (degree sx) (degree sy)) 0 (nodal sx) (nodal sy) x y)); [intros; now rewrite (PA b B Lb HB) |]; psx].
Qed.

Lemma exact_2d_inner J0 sx sy qx wx qy wy linear M a b A B : nodes_ok sx -> nodes_ok sy ->
  length wx = length qx -> length wy = length qy -> exact_rule (2 * length sx) qx wx -> exact_rule (2 * length sy) qy wy ->
  linear = false \/ diagonal 2 J0 ->
  mm_m2n2k1_inner (fun _ _ => J0) sx sy qx wx qy wy linear = Some M -> length a = nd_m2n2k1 (degree sx) (degree sy) -> length b = nd_m2n2k1 (degree sx) (degree sy) ->
  (forall x y, rc_vector2 push_inner2 (fun _ _ => J0) [x] [y] (rc_m2n2k1_inner sx sy [x] [y] a) = Some [[fst (A x y)]; [snd (A x y)]]) ->
  (forall x y, rc_vector2 push_inner2 (fun _ _ => J0) [x] [y] (rc_m2n2k1_inner sx sy [x] [y] b) = Some [[fst (B x y)]; [snd (B x y)]]) ->
  integral2 (fun x y => determinant 2 J0 * (fst (A x y) * fst (B x y) + snd (A x y) * snd (B x y))) (-1) 1 (-1) 1 (bilinear M a b).
Proof.
  intros Hx Hy Lx Ly Ex Ey Dl EM La Lb HA HB.
  assert (PA : forall c (C : R -> R -> pt2), length c = nd_m2n2k1 (degree sx) (degree sy) -> (forall x y, rc_vector2 push_inner2 (fun _ _ => J0) [x] [y] (rc_m2n2k1_inner sx sy [x] [y] c) = Some [[fst (C x y)]; [snd (C x y)]]) -> forall x y, C x y = push_inner2 (inverse 2 J0) (form2 (cochain c) (ln_m2n2k1_inner (degree sx) (degree sy)) 0 (edges sx) (nodal sy) x y, form2 (cochain c) (ln_m2n2k1_inner (degree sx) (degree sy)) 1 (nodal sx) (edges sy) x y)).
  { intros c C Lc HC x y. destruct (rc_2d_k1_inner sx sy [x] [y] c Hx Hy Lc) as (u & v & Er & Gu & Gv).
    destruct (vector2_grid push_inner2 (fun _ _ => J0) [x] [y] u v _ _  Gu Gv) as (p0 & p1 & Ep & K0 & K1). specialize (HC x y). rewrite Er, Ep in HC.
    apply grid2_point in K0, K1. subst p0 p1. revert HC. destruct (C x y) as [c0 c1]. destruct (push_inner2 _ _) as [d0 d1]. cbn [fst snd]. intros HC. now injection HC as -> ->. }
  destruct (rc_2d_k1_inner sx sy qx qy a Hx Hy La) as (u & v & Era & Gu & Gv).
  destruct (rc_2d_k1_inner sx sy qx qy b Hx Hy Lb) as (u2 & v2 & Erb & Gu2 & Gv2).
  destruct (vector2_grid push_inner2 (fun _ _ => J0) qx qy u v _ _  Gu Gv) as (p0 & p1 & Epa & [_ Ka0] & [_ Ka1]).
  destruct (vector2_grid push_inner2 (fun _ _ => J0) qx qy u2 v2 _ _  Gu2 Gv2) as (o0 & o1 & Epb & [_ Kb0] & [_ Kb1]).
  assert (Dl' : linear = false \/ on_rule2 qx qy (fun _ _ => diagonal 2 J0)) by (destruct Dl as [Dl | Dl]; [now left | right]; repeat intro; now apply Dl).
  destruct (mass_2d_inner (fun _ _ => J0) sx sy qx wx qy wy Hx Hy Lx Ly linear a b M u v u2 v2 p0 p1 o0 o1 La Lb Dl' EM Era Erb Epa Epb) as [_ E].
  rewrite E. rewrite (rule2_ext qx wx qy wy _ (fun x y _ _ => determinant 2 J0 * (fst (A x y) * fst (B x y) + snd (A x y) * snd (B x y)))).
  2: { intros p q Hp Hq. rewrite Ka0, Kb0, Ka1, Kb1 by assumption. now rewrite (PA a A La HA), (PA b B Lb HB). }
  apply (exact2 (2 * length sx) (2 * length sy)); try assumption.
  - intros y. rewrite double. apply ps_scal. apply ps_plus; apply ps_mult.
    + apply (ps_ext _ (fun x => fst (push_inner2 (inverse 2 J0) (form2 (cochain a) (ln_m2n2k1_inner (degree sx) (degree sy)) 0 (edges sx) (nodal sy) x y, form2 (cochain a) (ln_m2n2k1_inner (degree sx) (degree sy)) 1 (nodal sx) (edges sy) x y)))); [intros; now rewrite (PA a A La HA) |]; cbn [push_inner2 fst snd]; psx.
    + apply (ps_ext _ (fun x => fst (push_inner2 (inverse 2 J0) (form2 (cochain b) (ln_m2n2k1_inner (degree sx) (degree sy)) 0 (edges sx) (nodal sy) x y, form2 (cochain b) (ln_m2n2k1_inner (degree sx) (degree sy)) 1 (nodal sx) (edges sy) x y)))); [intros; now rewrite (PA b B Lb HB) |]; cbn [push_inner2 fst snd]; psx.
    + apply (ps_ext _ (fun x => snd (push_inner2 (inverse 2 J0) (form2 (cochain a) (ln_m2n2k1_inner (degree sx) (degree sy)) 0 (edges sx) (nodal sy) x y, form2 (cochain a) (ln_m2n2k1_inner (degree sx) (degree sy)) 1 (nodal sx) (edges sy) x y)))); [intros; now rewrite (PA a A La HA) |]; cbn [push_inner2 fst snd]; psx.
    + apply (ps_ext _ (fun x => snd (push_inner2 (inverse 2 J0) (form2 (cochain b) (ln_m2n2k1_inner (degree sx) (degree sy)) 0 (edges sx) (nodal sy) x y, form2 (cochain b) (ln_m2n2k1_inner (degree sx) (degree sy)) 1 (nodal sx) (edges sy) x y)))); [intros; now rewrite (PA b B Lb HB) |]; cbn [push_inner2 fst snd]; psx.
  - intros x. rewrite double. apply ps_scal. apply ps_plus; apply ps_mult.
    + apply (ps_ext _ (fun y => fst (push_inner2 (inverse 2 J0) (form2 (cochain a) (ln_m2n2k1_inner (degree sx) (degree sy)) 0 (edges sx) (nodal sy) x y, form2 (cochain a) (ln_m2n2k1_inner (degree sx) (degree sy)) 1 (nodal sx) (edges sy) x y)))); [intros; now rewrite (PA a A La HA) |]; cbn [push_inner2 fst snd]; psx.
    + apply (ps_ext _ (fun y => fst (push_inner2 (inverse 2 J0) (form2 (cochain b) (ln_m2n2k1_inner (degree sx) (degree sy)) 0 (edges sx) (nodal sy) x y, form2 (cochain b) (ln_m2n2k1_inner (degree sx) (degree sy)) 1 (nodal sx) (edges sy) x y)))); [intros; now rewrite (PA b B Lb HB) |]; cbn [push_inner2 fst snd]; psx.
    + apply (ps_ext _ (fun y => snd (push_inner2 (inverse 2 J0) (form2 (cochain a) (ln_m2n2k1_inner (degree sx) (degree sy)) 0 (edges sx) (nodal sy) x y, form2 (cochain a) (ln_m2n2k1_inner (degree sx) (degree sy)) 1 (nodal sx) (edges sy) x y)))); [intros; now rewrite (PA a A La HA) |]; cbn [push_inner2 fst snd]; psx.
    + apply (ps_ext _ (fun y => snd (push_inner2 (inverse 2 J0) (form2 (cochain b) (ln_m2n2k1_inner (degree sx) (degree sy)) 0 (edges sx) (nodal sy) x y, form2 (cochain b) (ln_m2n2k1_inner (degree sx) (degree sy)) 1 (nodal sx) (edges sy) x y)))); [intros; now rewrite (PA b B Lb HB) |]; cbn [push_inner2 fst snd]; psx.
Qed.

Lemma exact_2d_outer J0 sx sy qx wx qy wy linear M a b A B : nodes_ok sx -> nodes_ok sy ->
  length wx = length qx -> length wy = length qy -> exact_rule (2 * length sx) qx wx -> exact_rule (2 * length sy) qy wy ->
  linear = false \/ diagonal 2 J0 ->
  mm_m2n2k1_outer (fun _ _ => J0) sx sy qx wx qy wy linear = Some M -> length a = nd_m2n2k1 (degree sx) (degree sy) -> length b = nd_m2n2k1 (degree sx) (degree sy) ->
  (forall x y, rc_vector2 push_outer2 (fun _ _ => J0) [x] [y] (rc_m2n2k1_outer sx sy [x] [y] a) = Some [[fst (A x y)]; [snd (A x y)]]) ->
  (forall x y, rc_vector2 push_outer2 (fun _ _ => J0) [x] [y] (rc_m2n2k1_outer sx sy [x] [y] b) = Some [[fst (B x y)]; [snd (B x y)]]) ->
  integral2 (fun x y => determinant 2 J0 * (fst (A x y) * fst (B x y) + snd (A x y) * snd (B x y))) (-1) 1 (-1) 1 (bilinear M a b).
Proof.
  intros Hx Hy Lx Ly Ex Ey Dl EM La Lb HA HB.
  assert (PA : forall c (C : R -> R -> pt2), length c = nd_m2n2k1 (degree sx) (degree sy) -> (forall x y, rc_vector2 push_outer2 (fun _ _ => J0) [x] [y] (rc_m2n2k1_outer sx sy [x] [y] c) = Some [[fst (C x y)]; [snd (C x y)]]) -> forall x y, C x y = push_outer2 (inverse 2 J0) (form2 (cochain c) (ln_m2n2k1_outer (degree sx) (degree sy)) 0 (nodal sx) (edges sy) x y, form2 (cochain c) (ln_m2n2k1_outer (degree sx) (degree sy)) 1 (edges sx) (nodal sy) x y)).
  { intros c C Lc HC x y. destruct (rc_2d_k1_outer sx sy [x] [y] c Hx Hy Lc) as (u & v & Er & Gu & Gv).
    destruct (vector2_grid push_outer2 (fun _ _ => J0) [x] [y] u v _ _  Gu Gv) as (p0 & p1 & Ep & K0 & K1). specialize (HC x y). rewrite Er, Ep in HC.
    apply grid2_point in K0, K1. subst p0 p1. revert HC. destruct (C x y) as [c0 c1]. destruct (push_outer2 _ _) as [d0 d1]. cbn [fst snd]. intros HC. now injection HC as -> ->. }
  destruct (rc_2d_k1_outer sx sy qx qy a Hx Hy La) as (u & v & Era & Gu & Gv).
  destruct (rc_2d_k1_outer sx sy qx qy b Hx Hy Lb) as (u2 & v2 & Erb & Gu2 & Gv2).
  destruct (vector2_grid push_outer2 (fun _ _ => J0) qx qy u v _ _  Gu Gv) as (p0 & p1 & Epa & [_ Ka0] & [_ Ka1]).
  destruct (vector2_grid push_outer2 (fun _ _ => J0) qx qy u2 v2 _ _  Gu2 Gv2) as (o0 & o1 & Epb & [_ Kb0] & [_ Kb1]).
  assert (Dl' : linear = false \/ on_rule2 qx qy (fun _ _ => diagonal 2 J0)) by (destruct Dl as [Dl | Dl]; [now left | right]; repeat intro; now apply Dl).
  destruct (mass_2d_outer (fun _ _ => J0) sx sy qx wx qy wy Hx Hy Lx Ly linear a b M u v u2 v2 p0 p1 o0 o1 La Lb Dl' EM Era Erb Epa Epb) as [_ E].
  rewrite E. rewrite (rule2_ext qx wx qy wy _ (fun x y _ _ => determinant 2 J0 * (fst (A x y) * fst (B x y) + snd (A x y) * snd (B x y)))).
  2: { intros p q Hp Hq. rewrite Ka0, Kb0, Ka1, Kb1 by assumption. now rewrite (PA a A La HA), (PA b B Lb HB). }
  apply (exact2 (2 * length sx) (2 * length sy)); try assumption.
  - intros y. rewrite double. apply ps_scal. apply ps_plus; apply ps_mult.
    + apply (ps_ext _ (fun x => fst (push_outer2 (inverse 2 J0) (form2 (cochain a) (ln_m2n2k1_outer (degree sx) (degree sy)) 0 (nodal sx) (edges sy) x y, form2 (cochain a) (ln_m2n2k1_outer (degree sx) (degree sy)) 1 (edges sx) (nodal sy) x y)))); [intros; now rewrite (PA a A La HA) |]; cbn [push_outer2 fst snd]; psx.
    + apply (ps_ext _ (fun x => fst (push_outer2 (inverse 2 J0) (form2 (cochain b) (ln_m2n2k1_outer (degree sx) (degree sy)) 0 (nodal sx) (edges sy) x y, form2 (cochain b) (ln_m2n2k1_outer (degree sx) (degree sy)) 1 (edges sx) (nodal sy) x y)))); [intros; now rewrite (PA b B Lb HB) |]; cbn [push_outer2 fst snd]; psx.
    + apply (ps_ext _ (fun x => snd (push_outer2 (inverse 2 J0) (form2 (cochain a) (ln_m2n2k1_outer (degree sx) (degree sy)) 0 (nodal sx) (edges sy) x y, form2 (cochain a) (ln_m2n2k1_outer (degree sx) (degree sy)) 1 (edges sx) (nodal sy) x y)))); [intros; now rewrite (PA a A La HA) |]; cbn [push_outer2 fst snd]; psx.
    + apply (ps_ext _ (fun x => snd (push_outer2 (inverse 2 J0) (form2 (cochain b) (ln_m2n2k1_outer (degree sx) (degree sy)) 0 (nodal sx) (edges sy) x y, form2 (cochain b) (ln_m2n2k1_outer (degree sx) (degree sy)) 1 (edges sx) (nodal sy) x y)))); [intros; now rewrite (PA b B Lb HB) |]; cbn [push_outer2 fst snd]; psx.
  - intros x. rewrite double. apply ps_scal. apply ps_plus; apply ps_mult.
    + apply (ps_ext _ (fun y => fst (push_outer2 (inverse 2 J0) (form2 (cochain a) (ln_m2n2k1_outer (degree sx) (degree sy)) 0 (nodal sx) (edges sy) x y, form2 (cochain a) (ln_m2n2k1_outer (degree sx) (degree sy)) 1 (edges sx) (nodal sy) x y)))); [intros; now rewrite (PA a A La HA) |]; cbn [push_outer2 fst snd]; psx.
    + apply (ps_ext _ (fun y => fst (push_outer2 (inverse 2 J0) (form2 (cochain b) (ln_m2n2k1_outer (degree sx) (degree sy)) 0 (nodal sx) (edges sy) x y, form2 (cochain b) (ln_m2n2k1_outer (degree sx) (degree sy)) 1 (edges sx) (nodal sy) x y)))); [intros; now rewrite (PA b B Lb HB) |]; cbn [push_outer2 fst snd]; psx.
    + apply (ps_ext _ (fun y => snd (push_outer2 (inverse 2 J0) (form2 (cochain a) (ln_m2n2k1_outer (degree sx) (degree sy)) 0 (nodal sx) (edges sy) x y, form2 (cochain a) (ln_m2n2k1_outer (degree sx) (degree sy)) 1 (edges sx) (nodal sy) x y)))); [intros; now rewrite (PA a A La HA) |]; cbn [push_outer2 fst snd]; psx.
    + apply (ps_ext _ (fun y => snd (push_outer2 (inverse 2 J0) (form2 (cochain b) (ln_m2n2k1_outer (degree sx) (degree sy)) 0 (nodal sx) (edges sy) x y, form2 (cochain b) (ln_m2n2k1_outer (degree sx) (degree sy)) 1 (edges sx) (nodal sy) x y)))); [intros; now rewrite (PA b B Lb HB) |]; cbn [push_outer2 fst snd]; psx.
Qed.

Lemma exact_2d_k2 J0 sx sy qx wx qy wy M a b A B : nodes_ok sx -> nodes_ok sy ->
  length wx = length qx -> length wy = length qy -> exact_rule (2 * length sx) qx wx -> exact_rule (2 * length sy) qy wy ->
  determinant 2 J0 <> 0 ->
  mm_m2n2k2 (fun _ _ => J0) sx sy qx wx qy wy = Some M -> length a = nd_m2n2k2 (degree sx) (degree sy) -> length b = nd_m2n2k2 (degree sx) (degree sy) ->
  (forall x y, rc_density2 (fun _ _ => J0) [x] [y] (rc_m2n2k2 sx sy [x] [y] a) = Some [[A x y]]) ->
  (forall x y, rc_density2 (fun _ _ => J0) [x] [y] (rc_m2n2k2 sx sy [x] [y] b) = Some [[B x y]]) ->
  integral2 (fun x y => determinant 2 J0 * (A x y * (B x y))) (-1) 1 (-1) 1 (bilinear M a b).
Proof.
  intros Hx Hy Lx Ly Ex Ey D EM La Lb HA HB.
  assert (PA : forall c (C : R -> R -> R), length c = nd_m2n2k2 (degree sx) (degree sy) -> (forall x y, rc_density2 (fun _ _ => J0) [x] [y] (rc_m2n2k2 sx sy [x] [y] c) = Some [[C x y]]) -> forall x y, C x y = form2 (cochain c) (ln_m2n2k2 (degree sx) (degree sy)) 0 (edges sx) (edges sy) x y * match jac_inv_det 2 J0 with Some d => d | None => 0 end).
  { intros c C Lc HC x y. destruct (rc_2d_k2 sx sy [x] [y] c Hx Hy Lc) as (u & Er & Gu).
    destruct (density2_grid (fun _ _ => J0) [x] [y] u _ Gu) as (p0 & Ep & Gp). specialize (HC x y). rewrite Er, Ep in HC. apply grid2_point in Gp. subst p0. now injection HC. }
  destruct (rc_2d_k2 sx sy qx qy a Hx Hy La) as (u & Era & Gu).
  destruct (rc_2d_k2 sx sy qx qy b Hx Hy Lb) as (u2 & Erb & Gu2).
  destruct (density2_grid (fun _ _ => J0) qx qy u _ Gu) as (p0 & Epa & _ & Ka0). destruct (density2_grid (fun _ _ => J0) qx qy u2 _ Gu2) as (o0 & Epb & _ & Kb0).
  destruct (mass_2d_k2 (fun _ _ => J0) sx sy qx wx qy wy Hx Hy Lx Ly a b M u u2 p0 o0 La Lb (fun _ _ _ _ => D) EM Era Erb Epa Epb) as [_ E].
  rewrite E. rewrite (rule2_ext qx wx qy wy _ (fun x y _ _ => determinant 2 J0 * (A x y * (B x y)))).
  2: { intros p q Hp Hq. rewrite Ka0, Kb0 by assumption. now rewrite (PA a A La HA), (PA b B Lb HB). }
  apply (exact2 (2 * length sx) (2 * length sy)); try assumption.
  - intros y. rewrite double. apply ps_scal. apply ps_mult; [apply (ps_ext _ (fun x => form2 (cochain a) (ln_m2n2k2 (degree sx) (degree sy)) 0 (edges sx) (edges sy) x y * match jac_inv_det 2 J0 with Some d => d | None => 0 end)); [intros; now rewrite (PA a A La HA) |]; psx | apply (ps_ext _ (fun x => form2 (cochain b) (ln_m2n2k2 (degree sx) (degree sy)) 0 (edges sx) (edges sy) x y * match jac_inv_det 2 J0 with Some d => d | None => 0 end)); [intros; now rewrite (PA b B Lb HB) |]; psx].
  - intros x. rewrite double. apply ps_scal. apply ps_mult; [apply (ps_ext _ (fun y => form2 (cochain a) (ln_m2n2k2 (degree sx) (degree sy)) 0 (edges sx) (edges sy) x y * match jac_inv_det 2 J0 with Some d => d | None => 0 end)); [intros; now rewrite (PA a A La HA) |]; psx | apply (ps_ext _ (fun y => form2 (cochain b) (ln_m2n2k2 (degree sx) (degree sy)) 0 (edges sx) (edges sy) x y * match jac_inv_det 2 J0 with Some d => d | None => 0 end)); [intros; now rewrite (PA b B Lb HB) |]; psx].
Qed.

Lemma exact_3d_k0 J0 sx sy sz qx wx qy wy qz wz M a b A B : nodes_ok sx -> nodes_ok sy -> nodes_ok sz ->
  length wx = length qx -> length wy = length qy -> length wz = length qz -> exact_rule (2 * length sx) qx wx -> exact_rule (2 * length sy) qy wy -> exact_rule (2 * length sz) qz wz ->
  mm_m3n3k0 (fun _ _ _ => J0) sx sy sz qx wx qy wy qz wz = Some M -> length a = nd_m3n3k0 (degree sx) (degree sy) (degree sz) -> length b = nd_m3n3k0 (degree sx) (degree sy) (degree sz) ->
  (forall x y z, rc_m3n3k0 sx sy sz [x] [y] [z] a = Some [[A x y z]]) ->
  (forall x y z, rc_m3n3k0 sx sy sz [x] [y] [z] b = Some [[B x y z]]) ->
  integral3 (fun x y z => determinant 3 J0 * (A x y z * (B x y z))) (-1) 1 (-1) 1 (-1) 1 (bilinear M a b).
Proof.
  intros Hx Hy Hz Lx Ly Lz Ex Ey Ez EM La Lb HA HB.
  assert (PA : forall c (C : R -> R -> R -> R), length c = nd_m3n3k0 (degree sx) (degree sy) (degree sz) -> (forall x y z, rc_m3n3k0 sx sy sz [x] [y] [z] c = Some [[C x y z]]) -> forall x y z, C x y z = form3 (cochain c) (ln_m3n3k0 (degree sx) (degree sy) (degree sz)) 0 (nodal sx) (nodal sy) (nodal sz) x y z).
  { intros c C Lc HC x y z. destruct (rc_3d_k0 sx sy sz [x] [y] [z] c Hx Hy Hz Lc) as (u & Er & Gu).
    specialize (HC x y z). rewrite Er in HC. apply grid3_point in Gu. subst u. now injection HC. }
  destruct (rc_3d_k0 sx sy sz qx qy qz a Hx Hy Hz La) as (u & Era & Gu).
  destruct (rc_3d_k0 sx sy sz qx qy qz b Hx Hy Hz Lb) as (u2 & Erb & Gu2).
  destruct Gu as [_ Ka0], Gu2 as [_ Kb0]. destruct (mass_3d_k0 _ sx sy sz qx wx qy wy qz wz Hx Hy Hz Lx Ly Lz a b M u u2 La Lb EM Era Erb) as [_ E].
  rewrite E. rewrite (rule3_ext qx wx qy wy qz wz _ (fun x y z _ _ _ => determinant 3 J0 * (A x y z * (B x y z)))).
  2: { intros p q r Hp Hq Hr. rewrite Ka0, Kb0 by assumption. now rewrite (PA a A La HA), (PA b B Lb HB). }
  apply (exact3 (2 * length sx) (2 * length sy) (2 * length sz)); try assumption.
  - intros y z. rewrite double. apply ps_scal. apply ps_mult; [apply (ps_ext _ (fun x => form3 (cochain a) (ln_m3n3k0 (degree sx) (degree sy) (degree sz)) 0 (nodal sx) (nodal sy) (nodal sz) x y z)); [intros; now rewrite (PA a A La HA) |]; psx | apply (ps_ext _ (fun x => form3 (cochain b) (ln_m3n3k0 (degree sx) (degree sy) (degree sz)) 0 (nodal sx) (nodal sy) (nodal sz) x y z)); [intros; now rewrite (PA b B Lb HB) |]; psx].
  - intros x z. rewrite double. apply ps_scal. apply ps_mult; [apply (ps_ext _ (fun y => form3 (cochain a) (ln_m3n3k0 (degree sx) (degree sy) (degree sz)) 0 (nodal sx) (nodal sy) (nodal sz) x y z)); [intros; now rewrite (PA a A La HA) |]; psx | apply (ps_ext _ (fun y => form3 (cochain b) (ln_m3n3k0 (degree sx) (degree sy) (degree sz)) 0 (nodal sx) (nodal sy) (nodal sz) x y z)); [intros; now rewrite (PA b B Lb HB) |]; psx].
  - intros x y. rewrite double. apply ps_scal. apply ps_mult; [apply (ps_ext _ (fun z => form3 (cochain a) (ln_m3n3k0 (degree sx) (degree sy) (degree sz)) 0 (nodal sx) (nodal sy) (nodal sz) x y z)); [intros; now rewrite (PA a A La HA) |]; psx | apply (ps_ext _ (fun z => form3 (cochain b) (ln_m3n3k0 (degree sx) (degree sy) (degree sz)) 0 (nodal sx) (nodal sy) (nodal sz) x y z)); [intros; now rewrite (PA b B Lb HB) |]; psx].
Qed.

Lemma exact_3d_k1 J0 sx sy sz qx wx qy wy qz wz linear M a b A B : nodes_ok sx -> nodes_ok sy -> nodes_ok sz ->
  length wx = length qx -> length wy = length qy -> length wz = length qz -> exact_rule (2 * length sx) qx wx -> exact_rule (2 * length sy) qy wy -> exact_rule (2 * length sz) qz wz ->
  linear = false \/ diagonal 3 J0 ->
  mm_m3n3k1 (fun _ _ _ => J0) sx sy sz qx wx qy wy qz wz linear = Some M -> length a = nd_m3n3k1 (degree sx) (degree sy) (degree sz) -> length b = nd_m3n3k1 (degree sx) (degree sy) (degree sz) ->
  (forall x y z, rc_vector3 push1_3 (fun _ _ _ => J0) [x] [y] [z] (rc_m3n3k1 sx sy sz [x] [y] [z] a) = Some [[fst (fst (A x y z))]; [snd (fst (A x y z))]; [snd (A x y z)]]) ->
  (forall x y z, rc_vector3 push1_3 (fun _ _ _ => J0) [x] [y] [z] (rc_m3n3k1 sx sy sz [x] [y] [z] b) = Some [[fst (fst (B x y z))]; [snd (fst (B x y z))]; [snd (B x y z)]]) ->
  integral3 (fun x y z => determinant 3 J0 * (fst (fst (A x y z)) * fst (fst (B x y z)) + snd (fst (A x y z)) * snd (fst (B x y z)) + snd (A x y z) * snd (B x y z))) (-1) 1 (-1) 1 (-1) 1 (bilinear M a b).
Proof.
  intros Hx Hy Hz Lx Ly Lz Ex Ey Ez Dl EM La Lb HA HB.
  assert (PA : forall c (C : R -> R -> R -> pt3), length c = nd_m3n3k1 (degree sx) (degree sy) (degree sz) -> (forall x y z, rc_vector3 push1_3 (fun _ _ _ => J0) [x] [y] [z] (rc_m3n3k1 sx sy sz [x] [y] [z] c) = Some [[fst (fst (C x y z))]; [snd (fst (C x y z))]; [snd (C x y z)]]) -> forall x y z, C x y z = push1_3 (inverse 3 J0) (form3 (cochain c) (ln_m3n3k1 (degree sx) (degree sy) (degree sz)) 0 (edges sx) (nodal sy) (nodal sz) x y z, form3 (cochain c) (ln_m3n3k1 (degree sx) (degree sy) (degree sz)) 1 (nodal sx) (edges sy) (nodal sz) x y z, form3 (cochain c) (ln_m3n3k1 (degree sx) (degree sy) (degree sz)) 2 (nodal sx) (nodal sy) (edges sz) x y z)).
  { intros c C Lc HC x y z. destruct (rc_3d_k1 sx sy sz [x] [y] [z] c Hx Hy Hz Lc) as (u & v & w & Er & Gu & Gv & Gw).
    destruct (vector3_grid push1_3 (fun _ _ _ => J0) [x] [y] [z] u v w _ _ _  Gu Gv Gw) as (p0 & p1 & p2 & Ep & K0 & K1 & K2). specialize (HC x y z). rewrite Er, Ep in HC.
    apply grid3_point in K0, K1, K2. subst p0 p1 p2. revert HC. destruct (C x y z) as [[c0 c1] c2]. destruct (push1_3 _ _) as [[d0 d1] d2]. cbn [fst snd]. intros HC. now injection HC as -> -> ->. }
  destruct (rc_3d_k1 sx sy sz qx qy qz a Hx Hy Hz La) as (u & v & w & Era & Gu & Gv & Gw).
  destruct (rc_3d_k1 sx sy sz qx qy qz b Hx Hy Hz Lb) as (u2 & v2 & w2 & Erb & Gu2 & Gv2 & Gw2).
  destruct (vector3_grid push1_3 (fun _ _ _ => J0) qx qy qz u v w _ _ _  Gu Gv Gw) as (p0 & p1 & p2 & Epa & [_ Ka0] & [_ Ka1] & [_ Ka2]).
  destruct (vector3_grid push1_3 (fun _ _ _ => J0) qx qy qz u2 v2 w2 _ _ _  Gu2 Gv2 Gw2) as (o0 & o1 & o2 & Epb & [_ Kb0] & [_ Kb1] & [_ Kb2]).
  assert (Dl' : linear = false \/ on_rule3 qx qy qz (fun _ _ _ => diagonal 3 J0)) by (destruct Dl as [Dl | Dl]; [now left | right]; repeat intro; now apply Dl).
  destruct (mass_3d_k1 (fun _ _ _ => J0) sx sy sz qx wx qy wy qz wz Hx Hy Hz Lx Ly Lz linear a b M u v w u2 v2 w2 p0 p1 p2 o0 o1 o2 La Lb Dl' EM Era Erb Epa Epb) as [_ E].
  rewrite E. rewrite (rule3_ext qx wx qy wy qz wz _ (fun x y z _ _ _ => determinant 3 J0 * (fst (fst (A x y z)) * fst (fst (B x y z)) + snd (fst (A x y z)) * snd (fst (B x y z)) + snd (A x y z) * snd (B x y z)))).
  2: { intros p q r Hp Hq Hr. rewrite Ka0, Kb0, Ka1, Kb1, Ka2, Kb2 by assumption. now rewrite (PA a A La HA), (PA b B Lb HB). }
  apply (exact3 (2 * length sx) (2 * length sy) (2 * length sz)); try assumption.
  - intros y z. rewrite double. apply ps_scal. apply ps_plus; [apply ps_plus |]; apply ps_mult.
    + apply (ps_ext _ (fun x => fst (fst (push1_3 (inverse 3 J0) (form3 (cochain a) (ln_m3n3k1 (degree sx) (degree sy) (degree sz)) 0 (edges sx) (nodal sy) (nodal sz) x y z, form3 (cochain a) (ln_m3n3k1 (degree sx) (degree sy) (degree sz)) 1 (nodal sx) (edges sy) (nodal sz) x y z, form3 (cochain a) (ln_m3n3k1 (degree sx) (degree sy) (degree sz)) 2 (nodal sx) (nodal sy) (edges sz) x y z))))); [intros; now rewrite (PA a A La HA) |]; cbn [push1_3 fst snd]; psx.
    + apply (ps_ext _ (fun x => fst (fst (push1_3 (inverse 3 J0) (form3 (cochain b) (ln_m3n3k1 (degree sx) (degree sy) (degree sz)) 0 (edges sx) (nodal sy) (nodal sz) x y z, form3 (cochain b) (ln_m3n3k1 (degree sx) (degree sy) (degree sz)) 1 (nodal sx) (edges sy) (nodal sz) x y z, form3 (cochain b) (ln_m3n3k1 (degree sx) (degree sy) (degree sz)) 2 (nodal sx) (nodal sy) (edges sz) x y z))))); [intros; now rewrite (PA b B Lb HB) |]; cbn [push1_3 fst snd]; psx.
    + apply (ps_ext _ (fun x => snd (fst (push1_3 (inverse 3 J0) (form3 (cochain a) (ln_m3n3k1 (degree sx) (degree sy) (degree sz)) 0 (edges sx) (nodal sy) (nodal sz) x y z, form3 (cochain a) (ln_m3n3k1 (degree sx) (degree sy) (degree sz)) 1 (nodal sx) (edges sy) (nodal sz) x y z, form3 (cochain a) (ln_m3n3k1 (degree sx) (degree sy) (degree sz)) 2 (nodal sx) (nodal sy) (edges sz) x y z))))); [intros; now rewrite (PA a A La HA) |]; cbn [push1_3 fst snd]; psx.
    + apply (ps_ext _ (fun x => snd (fst (push1_3 (inverse 3 J0) (form3 (cochain b) (ln_m3n3k1 (degree sx) (degree sy) (degree sz)) 0 (edges sx) (nodal sy) (nodal sz) x y z, form3 (cochain b) (ln_m3n3k1 (degree sx) (degree sy) (degree sz)) 1 (nodal sx) (edges sy) (nodal sz) x y z, form3 (cochain b) (ln_m3n3k1 (degree sx) (degree sy) (degree sz)) 2 (nodal sx) (nodal sy) (edges sz) x y z))))); [intros; now rewrite (PA b B Lb HB) |]; cbn [push1_3 fst snd]; psx.
    + apply (ps_ext _ (fun x => snd (push1_3 (inverse 3 J0) (form3 (cochain a) (ln_m3n3k1 (degree sx) (degree sy) (degree sz)) 0 (edges sx) (nodal sy) (nodal sz) x y z, form3 (cochain a) (ln_m3n3k1 (degree sx) (degree sy) (degree sz)) 1 (nodal sx) (edges sy) (nodal sz) x y z, form3 (cochain a) (ln_m3n3k1 (degree sx) (degree sy) (degree sz)) 2 (nodal sx) (nodal sy) (edges sz) x y z)))); [intros; now rewrite (PA a A La HA) |]; cbn [push1_3 fst snd]; psx.
    + apply (ps_ext _ (fun x => snd (push1_3 (inverse 3 J0) (form3 (cochain b) (ln_m3n3k1 (degree sx) (degree sy) (degree sz)) 0 (edges sx) (nodal sy) (nodal sz) x y z, form3 (cochain b) (ln_m3n3k1 (degree sx) (degree sy) (degree sz)) 1 (nodal sx) (edges sy) (nodal sz) x y z, form3 (cochain b) (ln_m3n3k1 (degree sx) (degree sy) (degree sz)) 2 (nodal sx) (nodal sy) (edges sz) x y z)))); [intros; now rewrite (PA b B Lb HB) |]; cbn [push1_3 fst snd]; psx.
  - intros x z. rewrite double. apply ps_scal. apply ps_plus; [apply ps_plus |]; apply ps_mult.
    + apply (ps_ext _ (fun y => fst (fst (push1_3 (inverse 3 J0) (form3 (cochain a) (ln_m3n3k1 (degree sx) (degree sy) (degree sz)) 0 (edges sx) (nodal sy) (nodal sz) x y z, form3 (cochain a) (ln_m3n3k1 (degree sx) (degree sy) (degree sz)) 1 (nodal sx) (edges sy) (nodal sz) x y z, form3 (cochain a) (ln_m3n3k1 (degree sx) (degree sy) (degree sz)) 2 (nodal sx) (nodal sy) (edges sz) x y z))))); [intros; now rewrite (PA a A La HA) |]; cbn [push1_3 fst snd]; psx.
    + apply (ps_ext _ (fun y => fst (fst (push1_3 (inverse 3 J0) (form3 (cochain b) (ln_m3n3k1 (degree sx) (degree sy) (degree sz)) 0 (edges sx) (nodal sy) (nodal sz) x y z, form3 (cochain b) (ln_m3n3k1 (degree sx) (degree sy) (degree sz)) 1 (nodal sx) (edges sy) (nodal sz) x y z, form3 (cochain b) (ln_m3n3k1 (degree sx) (degree sy) (degree sz)) 2 (nodal sx) (nodal sy) (edges sz) x y z))))); [intros; now rewrite (PA b B Lb HB) |]; cbn [push1_3 fst snd]; psx.
    + apply (ps_ext _ (fun y => snd (fst (push1_3 (inverse 3 J0) (form3 (cochain a) (ln_m3n3k1 (degree sx) (degree sy) (degree sz)) 0 (edges sx) (nodal sy) (nodal sz) x y z, form3 (cochain a) (ln_m3n3k1 (degree sx) (degree sy) (degree sz)) 1 (nodal sx) (edges sy) (nodal sz) x y z, form3 (cochain a) (ln_m3n3k1 (degree sx) (degree sy) (degree sz)) 2 (nodal sx) (nodal sy) (edges sz) x y z))))); [intros; now rewrite (PA a A La HA) |]; cbn [push1_3 fst snd]; psx.
    + apply (ps_ext _ (fun y => snd (fst (push1_3 (inverse 3 J0) (form3 (cochain b) (ln_m3n3k1 (degree sx) (degree sy) (degree sz)) 0 (edges sx) (nodal sy) (nodal sz) x y z, form3 (cochain b) (ln_m3n3k1 (degree sx) (degree sy) (degree sz)) 1 (nodal sx) (edges sy) (nodal sz) x y z, form3 (cochain b) (ln_m3n3k1 (degree sx) (degree sy) (degree sz)) 2 (nodal sx) (nodal sy) (edges sz) x y z))))); [intros; now rewrite (PA b B Lb HB) |]; cbn [push1_3 fst snd]; psx.
    + apply (ps_ext _ (fun y => snd (push1_3 (inverse 3 J0) (form3 (cochain a) (ln_m3n3k1 (degree sx) (degree sy) (degree sz)) 0 (edges sx) (nodal sy) (nodal sz) x y z, form3 (cochain a) (ln_m3n3k1 (degree sx) (degree sy) (degree sz)) 1 (nodal sx) (edges sy) (nodal sz) x y z, form3 (cochain a) (ln_m3n3k1 (degree sx) (degree sy) (degree sz)) 2 (nodal sx) (nodal sy) (edges sz) x y z)))); [intros; now rewrite (PA a A La HA) |]; cbn [push1_3 fst snd]; psx.
    + apply (ps_ext _ (fun y => snd (push1_3 (inverse 3 J0) (form3 (cochain b) (ln_m3n3k1 (degree sx) (degree sy) (degree sz)) 0 (edges sx) (nodal sy) (nodal sz) x y z, form3 (cochain b) (ln_m3n3k1 (degree sx) (degree sy) (degree sz)) 1 (nodal sx) (edges sy) (nodal sz) x y z, form3 (cochain b) (ln_m3n3k1 (degree sx) (degree sy) (degree sz)) 2 (nodal sx) (nodal sy) (edges sz) x y z)))); [intros; now rewrite (PA b B Lb HB) |]; cbn [push1_3 fst snd]; psx.
  - intros x y. rewrite double. apply ps_scal. apply ps_plus; [apply ps_plus |]; apply ps_mult.
    + apply (ps_ext _ (fun z => fst (fst (push1_3 (inverse 3 J0) (form3 (cochain a) (ln_m3n3k1 (degree sx) (degree sy) (degree sz)) 0 (edges sx) (nodal sy) (nodal sz) x y z, form3 (cochain a) (ln_m3n3k1 (degree sx) (degree sy) (degree sz)) 1 (nodal sx) (edges sy) (nodal sz) x y z, form3 (cochain a) (ln_m3n3k1 (degree sx) (degree sy) (degree sz)) 2 (nodal sx) (nodal sy) (edges sz) x y z))))); [intros; now rewrite (PA a A La HA) |]; cbn [push1_3 fst snd]; psx.
    + apply (ps_ext _ (fun z => fst (fst (push1_3 (inverse 3 J0) (form3 (cochain b) (ln_m3n3k1 (degree sx) (degree sy) (degree sz)) 0 (edges sx) (nodal sy) (nodal sz) x y z, form3 (cochain b) (ln_m3n3k1 (degree sx) (degree sy) (degree sz)) 1 (nodal sx) (edges sy) (nodal sz) x y z, form3 (cochain b) (ln_m3n3k1 (degree sx) (degree sy) (degree sz)) 2 (nodal sx) (nodal sy) (edges sz) x y z))))); [intros; now rewrite (PA b B Lb HB) |]; cbn [push1_3 fst snd]; psx.
    + apply (ps_ext _ (fun z => snd (fst (push1_3 (inverse 3 J0) (form3 (cochain a) (ln_m3n3k1 (degree sx) (degree sy) (degree sz)) 0 (edges sx) (nodal sy) (nodal sz) x y z, form3 (cochain a) (ln_m3n3k1 (degree sx) (degree sy) (degree sz)) 1 (nodal sx) (edges sy) (nodal sz) x y z, form3 (cochain a) (ln_m3n3k1 (degree sx) (degree sy) (degree sz)) 2 (nodal sx) (nodal sy) (edges sz) x y z))))); [intros; now rewrite (PA a A La HA) |]; cbn [push1_3 fst snd]; psx.
    + apply (ps_ext _ (fun z => snd (fst (push1_3 (inverse 3 J0) (form3 (cochain b) (ln_m3n3k1 (degree sx) (degree sy) (degree sz)) 0 (edges sx) (nodal sy) (nodal sz) x y z, form3 (cochain b) (ln_m3n3k1 (degree sx) (degree sy) (degree sz)) 1 (nodal sx) (edges sy) (nodal sz) x y z, form3 (cochain b) (ln_m3n3k1 (degree sx) (degree sy) (degree sz)) 2 (nodal sx) (nodal sy) (edges sz) x y z))))); [intros; now rewrite (PA b B Lb HB) |]; cbn [push1_3 fst snd]; psx.
    + apply (ps_ext _ (fun z => snd (push1_3 (inverse 3 J0) (form3 (cochain a) (ln_m3n3k1 (degree sx) (degree sy) (degree sz)) 0 (edges sx) (nodal sy) (nodal sz) x y z, form3 (cochain a) (ln_m3n3k1 (degree sx) (degree sy) (degree sz)) 1 (nodal sx) (edges sy) (nodal sz) x y z, form3 (cochain a) (ln_m3n3k1 (degree sx) (degree sy) (degree sz)) 2 (nodal sx) (nodal sy) (edges sz) x y z)))); [intros; now rewrite (PA a A La HA) |]; cbn [push1_3 fst snd]; psx.
    + apply (ps_ext _ (fun z => snd (push1_3 (inverse 3 J0) (form3 (cochain b) (ln_m3n3k1 (degree sx) (degree sy) (degree sz)) 0 (edges sx) (nodal sy) (nodal sz) x y z, form3 (cochain b) (ln_m3n3k1 (degree sx) (degree sy) (degree sz)) 1 (nodal sx) (edges sy) (nodal sz) x y z, form3 (cochain b) (ln_m3n3k1 (degree sx) (degree sy) (degree sz)) 2 (nodal sx) (nodal sy) (edges sz) x y z)))); [intros; now rewrite (PA b B Lb HB) |]; cbn [push1_3 fst snd]; psx.
Qed.

Lemma exact_3d_k2 J0 sx sy sz qx wx qy wy qz wz linear M a b A B : nodes_ok sx -> nodes_ok sy -> nodes_ok sz ->
  length wx = length qx -> length wy = length qy -> length wz = length qz -> exact_rule (2 * length sx) qx wx -> exact_rule (2 * length sy) qy wy -> exact_rule (2 * length sz) qz wz ->
  linear = false \/ diagonal 3 J0 ->
  mm_m3n3k2 (fun _ _ _ => J0) sx sy sz qx wx qy wy qz wz linear = Some M -> length a = nd_m3n3k2 (degree sx) (degree sy) (degree sz) -> length b = nd_m3n3k2 (degree sx) (degree sy) (degree sz) ->
  (forall x y z, rc_vector3 push2_3 (fun _ _ _ => J0) [x] [y] [z] (rc_m3n3k2 sx sy sz [x] [y] [z] a) = Some [[fst (fst (A x y z))]; [snd (fst (A x y z))]; [snd (A x y z)]]) ->
  (forall x y z, rc_vector3 push2_3 (fun _ _ _ => J0) [x] [y] [z] (rc_m3n3k2 sx sy sz [x] [y] [z] b) = Some [[fst (fst (B x y z))]; [snd (fst (B x y z))]; [snd (B x y z)]]) ->
  integral3 (fun x y z => determinant 3 J0 * (fst (fst (A x y z)) * fst (fst (B x y z)) + snd (fst (A x y z)) * snd (fst (B x y z)) + snd (A x y z) * snd (B x y z))) (-1) 1 (-1) 1 (-1) 1 (bilinear M a b).
Proof.
  intros Hx Hy Hz Lx Ly Lz Ex Ey Ez Dl EM La Lb HA HB.
  assert (PA : forall c (C : R -> R -> R -> pt3), length c = nd_m3n3k2 (degree sx) (degree sy) (degree sz) -> (forall x y z, rc_vector3 push2_3 (fun _ _ _ => J0) [x] [y] [z] (rc_m3n3k2 sx sy sz [x] [y] [z] c) = Some [[fst (fst (C x y z))]; [snd (fst (C x y z))]; [snd (C x y z)]]) -> forall x y z, C x y z = push2_3 (inverse 3 J0) (form3 (cochain c) (ln_m3n3k2 (degree sx) (degree sy) (degree sz)) 0 (nodal sx) (edges sy) (edges sz) x y z, form3 (cochain c) (ln_m3n3k2 (degree sx) (degree sy) (degree sz)) 1 (edges sx) (nodal sy) (edges sz) x y z, form3 (cochain c) (ln_m3n3k2 (degree sx) (degree sy) (degree sz)) 2 (edges sx) (edges sy) (nodal sz) x y z)).
  { intros c C Lc HC x y z. destruct (rc_3d_k2 sx sy sz [x] [y] [z] c Hx Hy Hz Lc) as (u & v & w & Er & Gu & Gv & Gw).
    destruct (vector3_grid push2_3 (fun _ _ _ => J0) [x] [y] [z] u v w _ _ _  Gu Gv Gw) as (p0 & p1 & p2 & Ep & K0 & K1 & K2). specialize (HC x y z). rewrite Er, Ep in HC.
    apply grid3_point in K0, K1, K2. subst p0 p1 p2. revert HC. destruct (C x y z) as [[c0 c1] c2]. destruct (push2_3 _ _) as [[d0 d1] d2]. cbn [fst snd]. intros HC. now injection HC as -> -> ->. }
  destruct (rc_3d_k2 sx sy sz qx qy qz a Hx Hy Hz La) as (u & v & w & Era & Gu & Gv & Gw).
  destruct (rc_3d_k2 sx sy sz qx qy qz b Hx Hy Hz Lb) as (u2 & v2 & w2 & Erb & Gu2 & Gv2 & Gw2).
  destruct (vector3_grid push2_3 (fun _ _ _ => J0) qx qy qz u v w _ _ _  Gu Gv Gw) as (p0 & p1 & p2 & Epa & [_ Ka0] & [_ Ka1] & [_ Ka2]).
  destruct (vector3_grid push2_3 (fun _ _ _ => J0) qx qy qz u2 v2 w2 _ _ _  Gu2 Gv2 Gw2) as (o0 & o1 & o2 & Epb & [_ Kb0] & [_ Kb1] & [_ Kb2]).
  assert (Dl' : linear = false \/ on_rule3 qx qy qz (fun _ _ _ => diagonal 3 J0)) by (destruct Dl as [Dl | Dl]; [now left | right]; repeat intro; now apply Dl).
  destruct (mass_3d_k2 (fun _ _ _ => J0) sx sy sz qx wx qy wy qz wz Hx Hy Hz Lx Ly Lz linear a b M u v w u2 v2 w2 p0 p1 p2 o0 o1 o2 La Lb Dl' EM Era Erb Epa Epb) as [_ E].
  rewrite E. rewrite (rule3_ext qx wx qy wy qz wz _ (fun x y z _ _ _ => determinant 3 J0 * (fst (fst (A x y z)) * fst (fst (B x y z)) + snd (fst (A x y z)) * snd (fst (B x y z)) + snd (A x y z) * snd (B x y z)))).
  2: { intros p q r Hp Hq Hr. rewrite Ka0, Kb0, Ka1, Kb1, Ka2, Kb2 by assumption. now rewrite (PA a A La HA), (PA b B Lb HB). }
  apply (exact3 (2 * length sx) (2 * length sy) (2 * length sz)); try assumption.
  - intros y z. rewrite double. apply ps_scal. apply ps_plus; [apply ps_plus |]; apply ps_mult.
    + apply (ps_ext _ (fun x => fst (fst (push2_3 (inverse 3 J0) (form3 (cochain a) (ln_m3n3k2 (degree sx) (degree sy) (degree sz)) 0 (nodal sx) (edges sy) (edges sz) x y z, form3 (cochain a) (ln_m3n3k2 (degree sx) (degree sy) (degree sz)) 1 (edges sx) (nodal sy) (edges sz) x y z, form3 (cochain a) (ln_m3n3k2 (degree sx) (degree sy) (degree sz)) 2 (edges sx) (edges sy) (nodal sz) x y z))))); [intros; now rewrite (PA a A La HA) |]; cbn [push2_3 fst snd]; psx.
    + apply (ps_ext _ (fun x => fst (fst (push2_3 (inverse 3 J0) (form3 (cochain b) (ln_m3n3k2 (degree sx) (degree sy) (degree sz)) 0 (nodal sx) (edges sy) (edges sz) x y z, form3 (cochain b) (ln_m3n3k2 (degree sx) (degree sy) (degree sz)) 1 (edges sx) (nodal sy) (edges sz) x y z, form3 (cochain b) (ln_m3n3k2 (degree sx) (degree sy) (degree sz)) 2 (edges sx) (edges sy) (nodal sz) x y z))))); [intros; now rewrite (PA b B Lb HB) |]; cbn [push2_3 fst snd]; psx.
    + apply (ps_ext _ (fun x => snd (fst (push2_3 (inverse 3 J0) (form3 (cochain a) (ln_m3n3k2 (degree sx) (degree sy) (degree sz)) 0 (nodal sx) (edges sy) (edges sz) x y z, form3 (cochain a) (ln_m3n3k2 (degree sx) (degree sy) (degree sz)) 1 (edges sx) (nodal sy) (edges sz) x y z, form3 (cochain a) (ln_m3n3k2 (degree sx) (degree sy) (degree sz)) 2 (edges sx) (edges sy) (nodal sz) x y z))))); [intros; now rewrite (PA a A La HA) |]; cbn [push2_3 fst snd]; psx.
    + apply (ps_ext _ (fun x => snd (fst (push2_3 (inverse 3 J0) (form3 (cochain b) (ln_m3n3k2 (degree sx) (degree sy) (degree sz)) 0 (nodal sx) (edges sy) (edges sz) x y z, form3 (cochain b) (ln_m3n3k2 (degree sx) (degree sy) (degree sz)) 1 (edges sx) (nodal sy) (edges sz) x y z, form3 (cochain b) (ln_m3n3k2 (degree sx) (degree sy) (degree sz)) 2 (edges sx) (edges sy) (nodal sz) x y z))))); [intros; now rewrite (PA b B Lb HB) |]; cbn [push2_3 fst snd]; psx.
    + apply (ps_ext _ (fun x => snd (push2_3 (inverse 3 J0) (form3 (cochain a) (ln_m3n3k2 (degree sx) (degree sy) (degree sz)) 0 (nodal sx) (edges sy) (edges sz) x y z, form3 (cochain a) (ln_m3n3k2 (degree sx) (degree sy) (degree sz)) 1 (edges sx) (nodal sy) (edges sz) x y z, form3 (cochain a) (ln_m3n3k2 (degree sx) (degree sy) (degree sz)) 2 (edges sx) (edges sy) (nodal sz) x y z)))); [intros; now rewrite (PA a A La HA) |]; cbn [push2_3 fst snd]; psx.
    + apply (ps_ext _ (fun x => snd (push2_3 (inverse 3 J0) (form3 (cochain b) (ln_m3n3k2 (degree sx) (degree sy) (degree sz)) 0 (nodal sx) (edges sy) (edges sz) x y z, form3 (cochain b) (ln_m3n3k2 (degree sx) (degree sy) (degree sz)) 1 (edges sx) (nodal sy) (edges sz) x y z, form3 (cochain b) (ln_m3n3k2 (degree sx) (degree sy) (degree sz)) 2 (edges sx) (edges sy) (nodal sz) x y z)))); [intros; now rewrite (PA b B Lb HB) |]; cbn [push2_3 fst snd]; psx.
  - intros x z. rewrite double. apply ps_scal. apply ps_plus; [apply ps_plus |]; apply ps_mult.
    + apply (ps_ext _ (fun y => fst (fst (push2_3 (inverse 3 J0) (form3 (cochain a) (ln_m3n3k2 (degree sx) (degree sy) (degree sz)) 0 (nodal sx) (edges sy) (edges sz) x y z, form3 (cochain a) (ln_m3n3k2 (degree sx) (degree sy) (degree sz)) 1 (edges sx) (nodal sy) (edges sz) x y z, form3 (cochain a) (ln_m3n3k2 (degree sx) (degree sy) (degree sz)) 2 (edges sx) (edges sy) (nodal sz) x y z))))); [intros; now rewrite (PA a A La HA) |]; cbn [push2_3 fst snd]; psx.
    + apply (ps_ext _ (fun y => fst (fst (push2_3 (inverse 3 J0) (form3 (cochain b) (ln_m3n3k2 (degree sx) (degree sy) (degree sz)) 0 (nodal sx) (edges sy) (edges sz) x y z, form3 (cochain b) (ln_m3n3k2 (degree sx) (degree sy) (degree sz)) 1 (edges sx) (nodal sy) (edges sz) x y z, form3 (cochain b) (ln_m3n3k2 (degree sx) (degree sy) (degree sz)) 2 (edges sx) (edges sy) (nodal sz) x y z))))); [intros; now rewrite (PA b B Lb HB) |]; cbn [push2_3 fst snd]; psx.
    + apply (ps_ext _ (fun y => snd (fst (push2_3 (inverse 3 J0) (form3 (cochain a) (ln_m3n3k2 (degree sx) (degree sy) (degree sz)) 0 (nodal sx) (edges sy) (edges sz) x y z, form3 (cochain a) (ln_m3n3k2 (degree sx) (degree sy) (degree sz)) 1 (edges sx) (nodal sy) (edges sz) x y z, form3 (cochain a) (ln_m3n3k2 (degree sx) (degree sy) (degree sz)) 2 (edges sx) (edges sy) (nodal sz) x y z))))); [intros; now rewrite (PA a A La HA) |]; cbn [push2_3 fst snd]; psx.
    + apply (ps_ext _ (fun y => snd (fst (push2_3 (inverse 3 J0) (form3 (cochain b) (ln_m3n3k2 (degree sx) (degree sy) (degree sz)) 0 (nodal sx) (edges sy) (edges sz) x y z, form3 (cochain b) (ln_m3n3k2 (degree sx) (degree sy) (degree sz)) 1 (edges sx) (nodal sy) (edges sz) x y z, form3 (cochain b) (ln_m3n3k2 (degree sx) (degree sy) (degree sz)) 2 (edges sx) (edges sy) (nodal sz) x y z))))); [intros; now rewrite (PA b B Lb HB) |]; cbn [push2_3 fst snd]; psx.
    + apply (ps_ext _ (fun y => snd (push2_3 (inverse 3 J0) (form3 (cochain a) (ln_m3n3k2 (degree sx) (degree sy) (degree sz)) 0 (nodal sx) (edges sy) (edges sz) x y z, form3 (cochain a) (ln_m3n3k2 (degree sx) (degree sy) (degree sz)) 1 (edges sx) (nodal sy) (edges sz) x y z, form3 (cochain a) (ln_m3n3k2 (degree sx) (degree sy) (degree sz)) 2 (edges sx) (edges sy) (nodal sz) x y z)))); [intros; now rewrite (PA a A La HA) |]; cbn [push2_3 fst snd]; psx.
    + apply (ps_ext _ (fun y => snd (push2_3 (inverse 3 J0) (form3 (cochain b) (ln_m3n3k2 (degree sx) (degree sy) (degree sz)) 0 (nodal sx) (edges sy) (edges sz) x y z, form3 (cochain b) (ln_m3n3k2 (degree sx) (degree sy) (degree sz)) 1 (edges sx) (nodal sy) (edges sz) x y z, form3 (cochain b) (ln_m3n3k2 (degree sx) (degree sy) (degree sz)) 2 (edges sx) (edges sy) (nodal sz) x y z)))); [intros; now rewrite (PA b B Lb HB) |]; cbn [push2_3 fst snd]; psx.
  - intros x y. rewrite double. apply ps_scal. apply ps_plus; [apply ps_plus |]; apply ps_mult.
    + apply (ps_ext _ (fun z => fst (fst (push2_3 (inverse 3 J0) (form3 (cochain a) (ln_m3n3k2 (degree sx) (degree sy) (degree sz)) 0 (nodal sx) (edges sy) (edges sz) x y z, form3 (cochain a) (ln_m3n3k2 (degree sx) (degree sy) (degree sz)) 1 (edges sx) (nodal sy) (edges sz) x y z, form3 (cochain a) (ln_m3n3k2 (degree sx) (degree sy) (degree sz)) 2 (edges sx) (edges sy) (nodal sz) x y z))))); [intros; now rewrite (PA a A La HA) |]; cbn [push2_3 fst snd]; psx.
    + apply (ps_ext _ (fun z => fst (fst (push2_3 (inverse 3 J0) (form3 (cochain b) (ln_m3n3k2 (degree sx) (degree sy) (degree sz)) 0 (nodal sx) (edges sy) (edges sz) x y z, form3 (cochain b) (ln_m3n3k2 (degree sx) (degree sy) (degree sz)) 1 (edges sx) (nodal sy) (edges sz) x y z, form3 (cochain b) (ln_m3n3k2 (degree sx) (degree sy) (degree sz)) 2 (edges sx) (edges sy) (nodal sz) x y z))))); [intros; now rewrite (PA b B Lb HB) |]; cbn [push2_3 fst snd]; psx.
    + apply (ps_ext _ (fun z => snd (fst (push2_3 (inverse 3 J0) (form3 (cochain a) (ln_m3n3k2 (degree sx) (degree sy) (degree sz)) 0 (nodal sx) (edges sy) (edges sz) x y z, form3 (cochain a) (ln_m3n3k2 (degree sx) (degree sy) (degree sz)) 1 (edges sx) (nodal sy) (edges sz) x y z, form3 (cochain a) (ln_m3n3k2 (degree sx) (degree sy) (degree sz)) 2 (edges sx) (edges sy) (nodal sz) x y z))))); [intros; now rewrite (PA a A La HA) |]; cbn [push2_3 fst snd]; psx.
    + apply (ps_ext _ (fun z => snd (fst (push2_3 (inverse 3 J0) (form3 (cochain b) (ln_m3n3k2 (degree sx) (degree sy) (degree sz)) 0 (nodal sx) (edges sy) (edges sz) x y z, form3 (cochain b) (ln_m3n3k2 (degree sx) (degree sy) (degree sz)) 1 (edges sx) (nodal sy) (edges sz) x y z, form3 (cochain b) (ln_m3n3k2 (degree sx) (degree sy) (degree sz)) 2 (edges sx) (edges sy) (nodal sz) x y z))))); [intros; now rewrite (PA b B Lb HB) |]; cbn [push2_3 fst snd]; psx.
    + apply (ps_ext _ (fun z => snd (push2_3 (inverse 3 J0) (form3 (cochain a) (ln_m3n3k2 (degree sx) (degree sy) (degree sz)) 0 (nodal sx) (edges sy) (edges sz) x y z, form3 (cochain a) (ln_m3n3k2 (degree sx) (degree sy) (degree sz)) 1 (edges sx) (nodal sy) (edges sz) x y z, form3 (cochain a) (ln_m3n3k2 (degree sx) (degree sy) (degree sz)) 2 (edges sx) (edges sy) (nodal sz) x y z)))); [intros; now rewrite (PA a A La HA) |]; cbn [push2_3 fst snd]; psx.
    + apply (ps_ext _ (fun z => snd (push2_3 (inverse 3 J0) (form3 (cochain b) (ln_m3n3k2 (degree sx) (degree sy) (degree sz)) 0 (nodal sx) (edges sy) (edges sz) x y z, form3 (cochain b) (ln_m3n3k2 (degree sx) (degree sy) (degree sz)) 1 (edges sx) (nodal sy) (edges sz) x y z, form3 (cochain b) (ln_m3n3k2 (degree sx) (degree sy) (degree sz)) 2 (edges sx) (edges sy) (nodal sz) x y z)))); [intros; now rewrite (PA b B Lb HB) |]; cbn [push2_3 fst snd]; psx.
Qed.

Lemma exact_3d_k3 J0 sx sy sz qx wx qy wy qz wz M a b A B : nodes_ok sx -> nodes_ok sy -> nodes_ok sz ->
  length wx = length qx -> length wy = length qy -> length wz = length qz -> exact_rule (2 * length sx) qx wx -> exact_rule (2 * length sy) qy wy -> exact_rule (2 * length sz) qz wz ->
  determinant 3 J0 <> 0 ->
  mm_m3n3k3 (fun _ _ _ => J0) sx sy sz qx wx qy wy qz wz = Some M -> length a = nd_m3n3k3 (degree sx) (degree sy) (degree sz) -> length b = nd_m3n3k3 (degree sx) (degree sy) (degree sz) ->
  (forall x y z, rc_density3 (fun _ _ _ => J0) [x] [y] [z] (rc_m3n3k3 sx sy sz [x] [y] [z] a) = Some [[A x y z]]) ->
  (forall x y z, rc_density3 (fun _ _ _ => J0) [x] [y] [z] (rc_m3n3k3 sx sy sz [x] [y] [z] b) = Some [[B x y z]]) ->
  integral3 (fun x y z => determinant 3 J0 * (A x y z * (B x y z))) (-1) 1 (-1) 1 (-1) 1 (bilinear M a b).
Proof.
  intros Hx Hy Hz Lx Ly Lz Ex Ey Ez D EM La Lb HA HB.
  assert (PA : forall c (C : R -> R -> R -> R), length c = nd_m3n3k3 (degree sx) (degree sy) (degree sz) -> (forall x y z, rc_density3 (fun _ _ _ => J0) [x] [y] [z] (rc_m3n3k3 sx sy sz [x] [y] [z] c) = Some [[C x y z]]) -> forall x y z, C x y z = form3 (cochain c) (ln_m3n3k3 (degree sx) (degree sy) (degree sz)) 0 (edges sx) (edges sy) (edges sz) x y z * match jac_inv_det 3 J0 with Some d => d | None => 0 end).
  { intros c C Lc HC x y z. destruct (rc_3d_k3 sx sy sz [x] [y] [z] c Hx Hy Hz Lc) as (u & Er & Gu).
    destruct (density3_grid (fun _ _ _ => J0) [x] [y] [z] u _ Gu) as (p0 & Ep & Gp). specialize (HC x y z). rewrite Er, Ep in HC. apply grid3_point in Gp. subst p0. now injection HC. }
  destruct (rc_3d_k3 sx sy sz qx qy qz a Hx Hy Hz La) as (u & Era & Gu).
  destruct (rc_3d_k3 sx sy sz qx qy qz b Hx Hy Hz Lb) as (u2 & Erb & Gu2).
  destruct (density3_grid (fun _ _ _ => J0) qx qy qz u _ Gu) as (p0 & Epa & _ & Ka0). destruct (density3_grid (fun _ _ _ => J0) qx qy qz u2 _ Gu2) as (o0 & Epb & _ & Kb0).
  destruct (mass_3d_k3 (fun _ _ _ => J0) sx sy sz qx wx qy wy qz wz Hx Hy Hz Lx Ly Lz a b M u u2 p0 o0 La Lb (fun _ _ _ _ _ _ => D) EM Era Erb Epa Epb) as [_ E].
  rewrite E. rewrite (rule3_ext qx wx qy wy qz wz _ (fun x y z _ _ _ => determinant 3 J0 * (A x y z * (B x y z)))).
  2: { intros p q r Hp Hq Hr. rewrite Ka0, Kb0 by assumption. now rewrite (PA a A La HA), (PA b B Lb HB). }
  apply (exact3 (2 * length sx) (2 * length sy) (2 * length sz)); try assumption.
  - intros y z. rewrite double. apply ps_scal. apply ps_mult; [apply (ps_ext _ (fun x => form3 (cochain a) (ln_m3n3k3 (degree sx) (degree sy) (degree sz)) 0 (edges sx) (edges sy) (edges sz) x y z * match jac_inv_det 3 J0 with Some d => d | None => 0 end)); [intros; now rewrite (PA a A La HA) |]; psx | apply (ps_ext _ (fun x => form3 (cochain b) (ln_m3n3k3 (degree sx) (degree sy) (degree sz)) 0 (edges sx) (edges sy) (edges sz) x y z * match jac_inv_det 3 J0 with Some d => d | None => 0 end)); [intros; now rewrite (PA b B Lb HB) |]; psx].
  - intros x z. rewrite double. apply ps_scal. apply ps_mult; [apply (ps_ext _ (fun y => form3 (cochain a) (ln_m3n3k3 (degree sx) (degree sy) (degree sz)) 0 (edges sx) (edges sy) (edges sz) x y z * match jac_inv_det 3 J0 with Some d => d | None => 0 end)); [intros; now rewrite (PA a A La HA) |]; psx | apply (ps_ext _ (fun y => form3 (cochain b) (ln_m3n3k3 (degree sx) (degree sy) (degree sz)) 0 (edges sx) (edges sy) (edges sz) x y z * match jac_inv_det 3 J0 with Some d => d | None => 0 end)); [intros; now rewrite (PA b B Lb HB) |]; psx].
  - intros x y. rewrite double. apply ps_scal. apply ps_mult; [apply (ps_ext _ (fun z => form3 (cochain a) (ln_m3n3k3 (degree sx) (degree sy) (degree sz)) 0 (edges sx) (edges sy) (edges sz) x y z * match jac_inv_det 3 J0 with Some d => d | None => 0 end)); [intros; now rewrite (PA a A La HA) |]; psx | apply (ps_ext _ (fun z => form3 (cochain b) (ln_m3n3k3 (degree sx) (degree sy) (degree sz)) 0 (edges sx) (edges sy) (edges sz) x y z * match jac_inv_det 3 J0 with Some d => d | None => 0 end)); [intros; now rewrite (PA b B Lb HB) |]; psx].
Qed.
