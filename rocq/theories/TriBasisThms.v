(** Forms on triangles: values computed, and derivatives. *)
From Coq Require Import ZArith List Arith Reals Lia Lra.
From Coquelicot Require Import Coquelicot.
From Verif Require Import NdArray LocalNumberingModel IncidenceModel Sums IncidenceSpec IncidenceThms TriangleThms.
From Verif Require Import PolyModel PolySpec PolyProofs PolyCalc TensorModel TensorSpec TensorProofs TensorAct TensorThms.
From Verif Require Import TriBasisModel FaceModel FaceSpec FaceProofs FaceThms FaceThms2.
Import ListNotations.
Local Open Scope R_scope.

(** * values *)
Lemma later_bm s pts : rows_from_1 (node_m s pts) = bm (later_nodal s) pts.
Proof. reflexivity. Qed.
Section Tri.
Variables sx sy : list R.
Hypothesis Hx : nodes_ok sx.
Hypothesis Hy : nodes_ok sy.
Notation px := (degree sx).
Notation py := (degree sy).
Lemma tri_form0_T2 x xi et : tri_form0 x sx sy xi et = T2 (length sx) (lagrange sx) (length sy) (lagrange sy) (fun i j => x (tnum sx i j)) xi et.
Proof.
  destruct (deg1 sx Hx), (deg1 sy Hy). unfold tri_form0, T2. apply total_ext. intros i Hi. apply total_ext. intros j Hj. rewrite tri_num by lia. reflexivity.
Qed.
Lemma rc_tri_k0 xi et c : length c = (1 + px * (py + 1))%nat ->
  exists v, rc_tri_m2n2k0 sx sy xi et c = Some [v] /\ grid2 v xi et (tri_form0 (cochain c) sx sy).
Proof.
  intros L. destruct (deg1 sx Hx) as [X1 X2], (deg1 sy Hy) as [Y1 Y2]. unfold rc_tri_m2n2k0, reconstruct, bf_tri_m2n2k0. cbn [split_cochain einsums].
  match goal with |- context [einsum ?b c] => destruct (einsum_at b c L) as (v & Ev & Lv & Hv) end. exists v. rewrite Ev. split; [reflexivity|]. cbn [fm_cols fm_rows fm_at kron node_m] in Lv, Hv. split; [rewrite Lv; lia|].
  intros a b Ha Hb. unfold at_2d. rewrite Hv by nia. rewrite tri_form0_T2. unfold T2.
  replace (length sx) with (S px) by lia. rewrite (total_shift px). replace (1 + px * (py + 1))%nat with (S (px * (py + 1))) by lia. rewrite (total_shift (px * (py + 1))).
  assert (N : forall q i, (i < S px)%nat -> (q mod 1 = 0)%nat -> True) by auto. clear N.
  assert (DM : forall i j, (i < px + 1)%nat -> ((i + (px + 1) * j) / (S px) = j /\ (i + (px + 1) * j) mod (S px) = i)%nat).
  { intros i j Hi. replace (i + (px + 1) * j)%nat with (i + j * S px)%nat by lia. split; [rewrite Nat.div_add, Nat.div_small by lia; lia|]. rewrite Nat.mod_add, Nat.mod_small by lia. auto. }
  assert (DA : ((a + length xi * b) / length xi = b /\ (a + length xi * b) mod length xi = a)%nat).
  { replace (a + length xi * b)%nat with (a + b * length xi)%nat by lia. split; [rewrite Nat.div_add, Nat.div_small by lia; lia|]. rewrite Nat.mod_add, Nat.mod_small by lia. auto. }
  destruct DA as [D1 D2]. f_equal.
  - rewrite np_sum_total, Y1, <- total_scal. apply total_ext. intros j Hj. unfold first_row. replace (length sx) with (S px) by lia. destruct (DM 0%nat j) as [E1 E2]; [lia|]. rewrite E1, E2, D1, D2. cbn [tnum]. unfold cochain. ring.
  - rewrite (Nat.mul_comm px (py + 1)). rewrite total_prod. apply total_ext. intros i Hi. rewrite <- Y1. apply total_ext. intros j Hj. unfold other_rows.
    assert (P : ((i + px * j) mod px = i /\ (i + px * j) / px = j)%nat).
    { replace (i + px * j)%nat with (i + j * px)%nat by lia. split; [rewrite Nat.mod_add, Nat.mod_small by lia; auto|]. rewrite Nat.div_add, Nat.div_small by lia. lia. }
    destruct P as [-> ->]. replace (length sx) with (S px) by lia. destruct (DM (S i) j) as [E1 E2]; [lia|]. rewrite E1, E2, D1, D2. cbn [tnum]. unfold cochain. cbn [Nat.add nth]. ring.
Qed.
Lemma rc_tri_outer xi et c : length c = (px * py + px * (py + 1))%nat ->
  exists u v, rc_tri_m2n2k1_outer sx sy xi et c = Some [u; v] /\
    grid2 u xi et (form2 (cochain c) (ln_m2n2k1_outer_tri px py) 0 (later_nodal sx) (edges sy)) /\
    grid2 v xi et (form2 (cochain c) (ln_m2n2k1_outer_tri px py) 1 (edges sx) (nodal sy)).
Proof.
  intros L. rewrite e_outer_tri. unfold rc_tri_m2n2k1_outer, bf_tri_m2n2k1_outer. rewrite later_bm, ?node_bm, ?edge_bm.
  destruct (deg1 sy Hy) as [Y1 _]. rewrite Y1 in *. eapply two_2; try reflexivity. exact L.
Qed.
Lemma rc_tri_inner xi et c : length c = (px * (py + 1) + px * py)%nat ->
  exists u v, rc_tri_m2n2k1_inner sx sy xi et c = Some [u; v] /\
    grid2 u xi et (form2 (cochain c) (ln_m2n2k1_inner_tri px py) 0 (edges sx) (nodal sy)) /\
    grid2 v xi et (form2 (cochain c) (ln_m2n2k1_inner_tri px py) 1 (later_nodal sx) (edges sy)).
Proof.
  intros L. rewrite e_inner_tri. unfold rc_tri_m2n2k1_inner, bf_tri_m2n2k1_inner. rewrite later_bm, ?node_bm, ?edge_bm.
  destruct (deg1 sy Hy) as [Y1 _]. rewrite Y1 in *. eapply two_2; try reflexivity. exact L.
Qed.

(** * derivatives *)
Lemma D2_later n2 b2 c xi et : is_derive (fun xi => T2 px (fun i => lagrange sx (S i)) n2 b2 c xi et) xi
  (T2 px (edge sx) n2 b2 (fun i j => c i j - match i with O => 0 | S i => c i j end) xi et).
Proof.
  destruct (deg1 sx Hx) as [X1 X2]. eapply is_derive_ext with (f := fun xi => T2 (length sx) (lagrange sx) n2 b2 (fun i j => match i with O => 0 | S i => c i j end) xi et).
  - intros t. unfold T2. replace (length sx) with (S px) by lia. rewrite (total_shift px), (total_0 n2) by (intros; ring). apply Rplus_0_l.
  - apply (D2_x sx (proj1 Hx)). lia.
Qed.
Lemma later_x0 n1 b1 c xi et : (forall j, (j < length sy)%nat -> forall j', (j' < length sy)%nat -> c 0%nat j = c 0%nat j') -> n1 = length sx ->
  T2 n1 b1 py (edge sy) (fun i j => c i (S j) - c i j) xi et = T2 px (fun i => b1 (S i)) py (edge sy) (fun i j => c (S i) (S j) - c (S i) j) xi et.
Proof.
  destruct (deg1 sx Hx) as [X1 X2], (deg1 sy Hy) as [Y1 Y2]. intros H ->. unfold T2. replace (length sx) with (S px) by lia. rewrite (total_shift px), (total_0 py). ring. intros j Hj. rewrite (H (S j) ltac:(lia) j ltac:(lia)). ring.
Qed.
End Tri.

(** real action of the matrices *)
Local Open Scope nat_scope.
Lemma tri_node_num sx sy i j : tri_node (degree sx) (degree sy) i j -> tnum sx i j < degree sx * (degree sy + 1) + 1 /\ forall x, tri_coef (degree sx) (degree sy) x i j = x (tnum sx i j).
Proof.
  intros (r & E & B). unfold tri_coef. rewrite E. assert (r = tnum sx i j).
  { destruct i as [|i]; cbn [ln_m2n2k0_tri] in E.
    - destruct (j <? _); [|discriminate]. injection E as <-. reflexivity.
    - cbn [ravelF] in E. destruct (i <? _); [|discriminate]. destruct (j <? _); [|discriminate]. injection E as <-. cbn [tnum]. rewrite Nat.mul_0_r, Nat.add_0_r. reflexivity. }
  subst. auto.
Qed.
Lemma tri_act2 E r sx sy i1 j1 i2 j2 : m_cols E = degree sx * (degree sy + 1) + 1 ->
  (forall x, tri_node (degree sx) (degree sy) i1 j1 /\ tri_node (degree sx) (degree sy) i2 j2 /\ matvec E x r = (tri_coef (degree sx) (degree sy) x i2 j2 - tri_coef (degree sx) (degree sy) x i1 j1)%Z) ->
  forall x, apply E x r = (x (tnum sx i2 j2) - x (tnum sx i1 j1))%R.
Proof.
  intros Hc H x. destruct (H (fun _ => 0%Z)) as (N1 & N2 & _). destruct (tri_node_num sx sy _ _ N1) as [B1 C1]. destruct (tri_node_num sx sy _ _ N2) as [B2 C2].
  rewrite (act_real E r [(1%Z, tnum sx i2 j2); (-1%Z, tnum sx i1 j1)%Z]).
  - unfold rterms. cbn. ring.
  - intros z. destruct (H z) as (_ & _ & ->). rewrite C1, C2. unfold zterms. cbn [map fst snd zsum fold_right]. lia.
  - repeat apply Forall_cons; try apply Forall_nil; cbn [snd]; rewrite Hc; assumption.
Qed.
Ltac tdof := match goal with |- exists r, num _ _ _ r => idtac end; rewrite ?e_outer_tri, ?e_inner_tri; rw_ln; exd.
Lemma real_tri_k0_outer sx sy E : E_tri_k0_outer (degree sx) (degree sy) = Some E -> forall x,
  let ln := ln_m2n2k1_outer_tri (degree sx) (degree sy) in
  (forall i j, i < degree sx -> j < degree sy -> rcoef (apply E x) ln 0 [i; j] = (x (tnum sx (S i) (S j)) - x (tnum sx (S i) j))%R) /\
  (forall i j, i < degree sx -> j < degree sy + 1 -> rcoef (apply E x) ln 1 [i; j] = (- (x (tnum sx (S i) j) - x (tnum sx i j)))%R).
Proof.
  intros HE x ln. destruct (act_tri_k0_outer (degree sx) (degree sy)) as (E' & HE' & _ & Hc & H0 & H1). rewrite HE in HE'. injection HE' as <-. split; intros i j Hi Hj.
  - assert (N : exists r, num ln 0 [i; j] r) by (unfold ln; tdof). destruct N as [r N]. rewrite (rcoef_num _ _ _ _ _ N). apply (tri_act2 E r sx sy (S i) j (S i) (S j)); auto. intros z. destruct (H0 z i j r N) as (A & B & ->). rewrite ?Nat.add_1_r in *. auto.
  - assert (N : exists r, num ln 1 [i; j] r) by (unfold ln; tdof). destruct N as [r N]. rewrite (rcoef_num _ _ _ _ _ N). rewrite (tri_act2 E r sx sy (S i) j i j); auto; [lra|]. intros z. destruct (H1 z i j r N) as (A & B & ->). rewrite ?Nat.add_1_r in *. split; auto. split; auto. lia.
Qed.
Lemma real_tri_k0_inner sx sy E : (degree sx <= degree sy) -> E_tri_k0_inner (degree sx) (degree sy) = Some E -> forall x,
  let ln := ln_m2n2k1_inner_tri (degree sx) (degree sy) in
  (forall i j, i < degree sx -> j < degree sy + 1 -> rcoef (apply E x) ln 0 [i; j] = (x (tnum sx (S i) j) - x (tnum sx i j))%R) /\
  (forall i j, i < degree sx -> j < degree sy -> rcoef (apply E x) ln 1 [i; j] = (x (tnum sx (S i) (S j)) - x (tnum sx (S i) j))%R).
Proof.
  intros Hle HE x ln. destruct (act_tri_k0_inner (degree sx) (degree sy) Hle) as (E' & HE' & _ & Hc & H0 & H1). rewrite HE in HE'. injection HE' as <-. split; intros i j Hi Hj.
  - assert (N : exists r, num ln 0 [i; j] r) by (unfold ln; tdof). destruct N as [r N]. rewrite (rcoef_num _ _ _ _ _ N). apply (tri_act2 E r sx sy i j (S i) j); auto. intros z. destruct (H0 z i j r N) as (A & B & ->). rewrite ?Nat.add_1_r in *. auto.
  - assert (N : exists r, num ln 1 [i; j] r) by (unfold ln; tdof). destruct N as [r N]. rewrite (rcoef_num _ _ _ _ _ N). apply (tri_act2 E r sx sy (S i) j (S i) (S j)); auto. intros z. destruct (H1 z i j r N) as (A & B & ->). rewrite ?Nat.add_1_r in *. auto.
Qed.
Definition rleft (x : nat -> R) ln c i j : R := match i with O => 0%R | S i' => rcoef x ln c [i'; j] end.
Lemma ln_bound_outer px py c ix r : num (ln_m2n2k1_outer_tri px py) c ix r -> r < px * py + px * (py + 1).
Proof.
  rewrite e_outer_tri. intros (l & a & E & Ha & Hg). injection E as <-. destruct c as [|[|c]]; cbn in Ha; [| |destruct c; discriminate]; injection Ha as <-; unfold aget in Hg; cbn [a_shape a_base] in Hg; destruct (ravelF _ ix) eqn:Q; try discriminate; injection Hg as <-; apply ravelF_lt in Q; cbn [prodl] in Q; lia.
Qed.
Lemma ln_bound_inner px py c ix r : num (ln_m2n2k1_inner_tri px py) c ix r -> r < px * (py + 1) + px * py.
Proof.
  rewrite e_inner_tri. intros (l & a & E & Ha & Hg). injection E as <-. destruct c as [|[|c]]; cbn in Ha; [| |destruct c; discriminate]; injection Ha as <-; unfold aget in Hg; cbn [a_shape a_base] in Hg; destruct (ravelF _ ix) eqn:Q; try discriminate; injection Hg as <-; apply ravelF_lt in Q; cbn [prodl] in Q; lia.
Qed.
Lemma act_left E r ln c1 c2 i j s1 s2 : (forall c ix q, num ln c ix q -> q < m_cols E) ->
  (forall x, (forall i', i = S i' -> exists_dof ln c1 [i'; j]) /\ exists_dof ln c1 [i; j] /\ exists_dof ln c2 [i; j] /\ exists_dof ln c2 [i; j + 1] /\
     matvec E x r = (coef x ln c1 [i; j] - edge_left x ln c1 i j + s1 * coef x ln c2 [i; (j + 1)%nat] + s2 * coef x ln c2 [i; j])%Z) ->
  forall x, apply E x r = (rcoef x ln c1 [i; j] - rleft x ln c1 i j + IZR s1 * rcoef x ln c2 [i; S j] + IZR s2 * rcoef x ln c2 [i; j])%R.
Proof.
  intros B H x. destruct (H (fun _ => 0%Z)) as (Hl & [r1 N1] & [r2 N2] & [r3 N3] & _). assert (N3' := N3). rewrite Nat.add_1_r in N3'. destruct i as [|i]; cbn [edge_left rleft] in *.
  - rewrite (act_real E r [(1%Z, r1); (s1, r3); (s2, r2)]).
    + rewrite (rcoef_num _ _ _ _ _ N1), (rcoef_num _ _ _ _ _ N2), (rcoef_num _ _ _ _ _ N3'). unfold rterms. cbn. ring.
    + intros z. destruct (H z) as (_ & _ & _ & _ & ->). rewrite (coef_num _ _ _ _ _ N1), (coef_num _ _ _ _ _ N2), (coef_num _ _ _ _ _ N3). unfold zterms. cbn [map fst snd zsum fold_right]. lia.
    + repeat apply Forall_cons; try apply Forall_nil; cbn; eapply B; eassumption.
  - destruct (Hl i eq_refl) as [r0 N0]. rewrite (act_real E r [(1%Z, r1); (-1, r0)%Z; (s1, r3); (s2, r2)]).
    + rewrite (rcoef_num _ _ _ _ _ N1), (rcoef_num _ _ _ _ _ N2), (rcoef_num _ _ _ _ _ N3'), (rcoef_num _ _ _ _ _ N0). unfold rterms. cbn. ring.
    + intros z. destruct (H z) as (_ & _ & _ & _ & ->). rewrite (coef_num _ _ _ _ _ N1), (coef_num _ _ _ _ _ N2), (coef_num _ _ _ _ _ N3), (coef_num _ _ _ _ _ N0). unfold zterms. cbn [map fst snd zsum fold_right]. lia.
    + repeat apply Forall_cons; try apply Forall_nil; cbn; eapply B; eassumption.
Qed.
Lemma real_tri_k1_outer px py E : E_tri_k1_outer px py = Some E -> forall x i j, i < px -> j < py ->
  let ln := ln_m2n2k1_outer_tri px py in
  rcoef (apply E x) (ln_m2n2k2 px py) 0 [i; j] = (rcoef x ln 0 [i; j] - rleft x ln 0 i j + (rcoef x ln 1 [i; S j] - rcoef x ln 1 [i; j]))%R.
Proof.
  intros HE x i j Hi Hj ln. destruct (act_tri_k1_outer px py) as (E' & HE' & _ & Hc & H0). rewrite HE in HE'. injection HE' as <-.
  assert (N : exists r, num (ln_m2n2k2 px py) 0 [i; j] r) by tdof. destruct N as [r N]. rewrite (rcoef_num _ _ _ _ _ N). rewrite (act_left E r ln 0 1 i j 1 (-1)); [ring| |].
  - intros c ix q Q. rewrite Hc. eapply ln_bound_outer, Q.
  - intros z. destruct (H0 z i j r N) as (A & B & C & D & ->). repeat (split; auto). unfold ln. lia.
Qed.
Lemma real_tri_k1_inner px py E : px <= py -> E_tri_k1_inner px py = Some E -> forall x i j, i < px -> j < py ->
  let ln := ln_m2n2k1_inner_tri px py in
  rcoef (apply E x) (ln_m2n2k2 px py) 0 [i; j] = (rcoef x ln 1 [i; j] - rleft x ln 1 i j - (rcoef x ln 0 [i; S j] - rcoef x ln 0 [i; j]))%R.
Proof.
  intros Hle HE x i j Hi Hj ln. destruct (act_tri_k1_inner px py Hle) as (E' & HE' & _ & Hc & H0). rewrite HE in HE'. injection HE' as <-.
  assert (N : exists r, num (ln_m2n2k2 px py) 0 [i; j] r) by tdof. destruct N as [r N]. rewrite (rcoef_num _ _ _ _ _ N). rewrite (act_left E r ln 1 0 i j (-1) 1); [ring| |].
  - intros c ix q Q. rewrite Hc. apply ln_bound_inner in Q. nia.
  - intros z. destruct (H0 z i j r N) as (A & B & C & D & ->). repeat (split; auto). unfold ln. lia.
Qed.
Local Open Scope R_scope.
Section Derive.
Variables sx sy : list R.
Hypothesis Hx : nodes_ok sx.
Hypothesis Hy : nodes_ok sy.
Notation px := (degree sx).
Notation py := (degree sy).
Lemma tnum_0 j j' : tnum sx 0 j = tnum sx 0 j'. Proof. reflexivity. Qed.
Lemma form0_derive x xi et : is_derive (fun xi => tri_form0 x sx sy xi et) xi (T2 px (edge sx) (length sy) (lagrange sy) (fun i j => x (tnum sx (S i) j) - x (tnum sx i j)) xi et) /\
  is_derive (fun et => tri_form0 x sx sy xi et) et (T2 px (fun i => lagrange sx (S i)) py (edge sy) (fun i j => x (tnum sx (S i) (S j)) - x (tnum sx (S i) j)) xi et).
Proof.
  split.
  - eapply is_derive_ext; [intros; symmetry; apply (tri_form0_T2 sx sy Hx Hy)|]. destruct Hx. apply (D2_x sx); auto; lia.
  - eapply is_derive_ext; [intros; symmetry; apply (tri_form0_T2 sx sy Hx Hy)|]. eapply is_derive_eq; [destruct Hy; apply (D2_y sy); auto; lia|]. apply (later_x0 sx sy Hx Hy _ _ (fun i j => x (tnum sx i j))); auto.
Qed.
Lemma tri_curl_outer E x : E_tri_k0_outer px py = Some E -> forall xi et, let ln := ln_m2n2k1_outer_tri px py in
  is_derive (fun et => tri_form0 x sx sy xi et) et (form2 (apply E x) ln 0 (later_nodal sx) (edges sy) xi et) /\
  is_derive (fun xi => tri_form0 x sx sy xi et) xi (- form2 (apply E x) ln 1 (edges sx) (nodal sy) xi et).
Proof.
  intros HE xi et ln. destruct (real_tri_k0_outer sx sy E HE x) as [R0 R1]. destruct (form0_derive x xi et) as [F0 F1], (deg1 sy Hy) as [Y1 _]. split.
  - eapply is_derive_eq; [exact F1|]. unfold later_nodal. rewrite form2_T2. apply T2_ext. intros i j Hi Hj. symmetry. now apply R0.
  - eapply is_derive_eq; [exact F0|]. rewrite form2_T2, T2_opp. apply T2_ext. intros i j Hi Hj. unfold ln. rewrite R1 by lia. lra.
Qed.
Lemma tri_gradient_inner E x : (px <= py)%nat -> E_tri_k0_inner px py = Some E -> forall xi et, let ln := ln_m2n2k1_inner_tri px py in
  is_derive (fun xi => tri_form0 x sx sy xi et) xi (form2 (apply E x) ln 0 (edges sx) (nodal sy) xi et) /\
  is_derive (fun et => tri_form0 x sx sy xi et) et (form2 (apply E x) ln 1 (later_nodal sx) (edges sy) xi et).
Proof.
  intros Hle HE xi et ln. destruct (real_tri_k0_inner sx sy E Hle HE x) as [R0 R1]. destruct (form0_derive x xi et) as [F0 F1], (deg1 sy Hy) as [Y1 _]. split.
  - eapply is_derive_eq; [exact F0|]. rewrite form2_T2. apply T2_ext. intros i j Hi Hj. symmetry. apply R0; lia.
  - eapply is_derive_eq; [exact F1|]. unfold later_nodal. rewrite form2_T2. apply T2_ext. intros i j Hi Hj. symmetry. now apply R1.
Qed.
Lemma tri_divergence_outer E x : E_tri_k1_outer px py = Some E -> forall xi et, let ln := ln_m2n2k1_outer_tri px py in
  exists ux vy, is_derive (fun xi => form2 x ln 0 (later_nodal sx) (edges sy) xi et) xi ux /\ is_derive (fun et => form2 x ln 1 (edges sx) (nodal sy) xi et) et vy /\
    form2 (apply E x) (ln_m2n2k2 px py) 0 (edges sx) (edges sy) xi et = ux + vy.
Proof.
  intros HE xi et ln. pose proof (real_tri_k1_outer px py E HE x) as R0. eexists _, _. split; [|split].
  - apply (D2_later sx Hx).
  - destruct Hy. apply (D2_y sy); auto; lia.
  - rewrite form2_T2, T2_plus. apply T2_ext. intros i j Hi Hj. rewrite R0 by assumption. fold ln. destruct i; reflexivity.
Qed.
Lemma tri_rot_inner E x : (px <= py)%nat -> E_tri_k1_inner px py = Some E -> forall xi et, let ln := ln_m2n2k1_inner_tri px py in
  exists vx uy, is_derive (fun xi => form2 x ln 1 (later_nodal sx) (edges sy) xi et) xi vx /\ is_derive (fun et => form2 x ln 0 (edges sx) (nodal sy) xi et) et uy /\
    form2 (apply E x) (ln_m2n2k2 px py) 0 (edges sx) (edges sy) xi et = vx - uy.
Proof.
  intros Hle HE xi et ln. pose proof (real_tri_k1_inner px py E Hle HE x) as R0. eexists _, _. split; [|split].
  - apply (D2_later sx Hx).
  - destruct Hy. apply (D2_y sy); auto; lia.
  - rewrite form2_T2, T2_minus. apply T2_ext. intros i j Hi Hj. rewrite R0 by assumption. fold ln. destruct i; reflexivity.
Qed.
End Derive.
