(** Properties of forms on tensor product elements. *)
From Coq Require Import ZArith List Arith Reals Lia Lra.
From Coquelicot Require Import Coquelicot.
From Verif Require Import NdArray LocalNumberingModel IncidenceModel Sums IncidenceSpec IncidenceThms.
From Verif Require Import PolyModel PolySpec PolyProofs PolyCalc TensorModel TensorSpec TensorProofs TensorAct.
Import ListNotations.
Local Open Scope R_scope.

(** the two bases on the nodes [s] *)
Notation nodal s := (length s, lagrange s).
Notation edges s := (degree s, edge s).
(** valid nodes *)
Definition nodes_ok (s : list R) : Prop := increasing s /\ (2 <= length s)%nat.

Ltac ok := match goal with H : nodes_ok ?s |- _ => destruct H end.
Ltac deg := unfold degree in *; cbn [fst snd] in *; try lia.

Lemma form2_T2 x ln c n1 b1 n2 b2 xi et : form2 x ln c (n1, b1) (n2, b2) xi et = T2 n1 b1 n2 b2 (fun i j => rcoef x ln c [i; j]) xi et.
Proof. reflexivity. Qed.
Lemma form3_T3 x ln c n1 b1 n2 b2 n3 b3 xi et sg : form3 x ln c (n1, b1) (n2, b2) (n3, b3) xi et sg = T3 n1 b1 n2 b2 n3 b3 (fun i j k => rcoef x ln c [i; j; k]) xi et sg.
Proof. reflexivity. Qed.
Lemma form1_comb x ln c n b xi : form1 x ln c (n, b) xi = combine_basis n b (fun i => rcoef x ln c [i]) xi.
Proof. reflexivity. Qed.

(** * exterior derivative *)
Lemma gradient_1d s E x : nodes_ok s -> E_m1n1k0 (degree s) = Some E ->
  forall xi, is_derive (form1 x (ln_m1n1k0 (degree s)) 0 (nodal s)) xi (form1 (apply E x) (ln_m1n1k1 (degree s)) 0 (edges s) xi).
Proof.
  intros [Hs Ls] HE xi. eapply is_derive_eq; [apply (nodal_reconstruction_derive s Hs); lia|].
  rewrite form1_comb. apply comb_ext. intros i Hi. rewrite (real_m1n1k0 _ _ HE) by assumption. reflexivity.
Qed.

Lemma gradient_2d_inner sx sy E x : nodes_ok sx -> nodes_ok sy -> E_m2n2k0_inner (degree sx) (degree sy) = Some E ->
  let f := form2 x (ln_m2n2k0 (degree sx) (degree sy)) 0 (nodal sx) (nodal sy) in
  let ln := ln_m2n2k1_inner (degree sx) (degree sy) in
  forall xi et, is_derive (fun xi => f xi et) xi (form2 (apply E x) ln 0 (edges sx) (nodal sy) xi et) /\
                is_derive (fun et => f xi et) et (form2 (apply E x) ln 1 (nodal sx) (edges sy) xi et).
Proof.
  intros [Hx Lx] [Hy Ly] HE f ln xi et. destruct (real_m2n2k0_inner _ _ _ HE x) as [R0 R1]. split.
  - eapply is_derive_eq; [apply (D2_x sx Hx); lia|]. rewrite form2_T2. apply T2_ext. intros i j Hi Hj. symmetry. apply R0; deg.
  - eapply is_derive_eq; [apply (D2_y sy Hy); lia|]. rewrite form2_T2. apply T2_ext. intros i j Hi Hj. symmetry. apply R1; deg.
Qed.

Lemma rot_2d_inner sx sy E x : nodes_ok sx -> nodes_ok sy -> E_m2n2k1_inner (degree sx) (degree sy) = Some E ->
  let ln := ln_m2n2k1_inner (degree sx) (degree sy) in
  let u := form2 x ln 0 (edges sx) (nodal sy) in let v := form2 x ln 1 (nodal sx) (edges sy) in
  forall xi et, exists vx uy, is_derive (fun xi => v xi et) xi vx /\ is_derive (fun et => u xi et) et uy /\
    form2 (apply E x) (ln_m2n2k2 (degree sx) (degree sy)) 0 (edges sx) (edges sy) xi et = vx - uy.
Proof.
  intros [Hx Lx] [Hy Ly] HE ln u v xi et. pose proof (real_m2n2k1_inner _ _ _ HE x) as R0. eexists _, _. split; [|split].
  - apply (D2_x sx Hx); lia.
  - apply (D2_y sy Hy); lia.
  - rewrite form2_T2, T2_minus. apply T2_ext. intros i j Hi Hj. apply R0; deg.
Qed.

Lemma curl_2d_outer sx sy E x : nodes_ok sx -> nodes_ok sy -> E_m2n2k0_outer (degree sx) (degree sy) = Some E ->
  let f := form2 x (ln_m2n2k0 (degree sx) (degree sy)) 0 (nodal sx) (nodal sy) in
  let ln := ln_m2n2k1_outer (degree sx) (degree sy) in
  forall xi et, is_derive (fun et => f xi et) et (form2 (apply E x) ln 0 (nodal sx) (edges sy) xi et) /\
                is_derive (fun xi => f xi et) xi (- form2 (apply E x) ln 1 (edges sx) (nodal sy) xi et).
Proof.
  intros [Hx Lx] [Hy Ly] HE f ln xi et. destruct (real_m2n2k0_outer _ _ _ HE x) as [R0 R1]. split.
  - eapply is_derive_eq; [apply (D2_y sy Hy); lia|]. rewrite form2_T2. apply T2_ext. intros i j Hi Hj. symmetry. apply R0; deg.
  - eapply is_derive_eq; [apply (D2_x sx Hx); lia|]. rewrite form2_T2, T2_opp. apply T2_ext. intros i j Hi Hj.
    unfold ln. rewrite R1 by deg. lra.
Qed.

Lemma divergence_2d_outer sx sy E x : nodes_ok sx -> nodes_ok sy -> E_m2n2k1_outer (degree sx) (degree sy) = Some E ->
  let ln := ln_m2n2k1_outer (degree sx) (degree sy) in
  let u := form2 x ln 0 (nodal sx) (edges sy) in let v := form2 x ln 1 (edges sx) (nodal sy) in
  forall xi et, exists ux vy, is_derive (fun xi => u xi et) xi ux /\ is_derive (fun et => v xi et) et vy /\
    form2 (apply E x) (ln_m2n2k2 (degree sx) (degree sy)) 0 (edges sx) (edges sy) xi et = ux + vy.
Proof.
  intros [Hx Lx] [Hy Ly] HE ln u v xi et. pose proof (real_m2n2k1_outer _ _ _ HE x) as R0. eexists _, _. split; [|split].
  - apply (D2_x sx Hx); lia.
  - apply (D2_y sy Hy); lia.
  - rewrite form2_T2, T2_plus. apply T2_ext. intros i j Hi Hj. apply R0; deg.
Qed.

Lemma gradient_3d sx sy sz E x : nodes_ok sx -> nodes_ok sy -> nodes_ok sz -> E_m3n3k0 (degree sx) (degree sy) (degree sz) = Some E ->
  let f := form3 x (ln_m3n3k0 (degree sx) (degree sy) (degree sz)) 0 (nodal sx) (nodal sy) (nodal sz) in
  let ln := ln_m3n3k1 (degree sx) (degree sy) (degree sz) in
  forall xi et sg,
    is_derive (fun xi => f xi et sg) xi (form3 (apply E x) ln 0 (edges sx) (nodal sy) (nodal sz) xi et sg) /\
    is_derive (fun et => f xi et sg) et (form3 (apply E x) ln 1 (nodal sx) (edges sy) (nodal sz) xi et sg) /\
    is_derive (fun sg => f xi et sg) sg (form3 (apply E x) ln 2 (nodal sx) (nodal sy) (edges sz) xi et sg).
Proof.
  intros [Hx Lx] [Hy Ly] [Hz Lz] HE f ln xi et sg. destruct (real_m3n3k0 _ _ _ _ HE x) as (R0 & R1 & R2). split; [|split].
  - eapply is_derive_eq; [apply (D3_x sx Hx); lia|]. rewrite form3_T3. apply T3_ext. intros i j k Hi Hj Hk. symmetry. apply R0; deg.
  - eapply is_derive_eq; [apply (D3_y sy Hy); lia|]. rewrite form3_T3. apply T3_ext. intros i j k Hi Hj Hk. symmetry. apply R1; deg.
  - eapply is_derive_eq; [apply (D3_z sz Hz); lia|]. rewrite form3_T3. apply T3_ext. intros i j k Hi Hj Hk. symmetry. apply R2; deg.
Qed.

Lemma curl_3d sx sy sz E x : nodes_ok sx -> nodes_ok sy -> nodes_ok sz -> E_m3n3k1 (degree sx) (degree sy) (degree sz) = Some E ->
  let l1 := ln_m3n3k1 (degree sx) (degree sy) (degree sz) in let l2 := ln_m3n3k2 (degree sx) (degree sy) (degree sz) in
  let u := form3 x l1 0 (edges sx) (nodal sy) (nodal sz) in let v := form3 x l1 1 (nodal sx) (edges sy) (nodal sz) in
  let w := form3 x l1 2 (nodal sx) (nodal sy) (edges sz) in
  forall xi et sg, exists uy uz vx vz wx wy,
    is_derive (fun et => u xi et sg) et uy /\ is_derive (fun sg => u xi et sg) sg uz /\
    is_derive (fun xi => v xi et sg) xi vx /\ is_derive (fun sg => v xi et sg) sg vz /\
    is_derive (fun xi => w xi et sg) xi wx /\ is_derive (fun et => w xi et sg) et wy /\
    form3 (apply E x) l2 0 (nodal sx) (edges sy) (edges sz) xi et sg = wy - vz /\
    form3 (apply E x) l2 1 (edges sx) (nodal sy) (edges sz) xi et sg = uz - wx /\
    form3 (apply E x) l2 2 (edges sx) (edges sy) (nodal sz) xi et sg = vx - uy.
Proof.
  intros [Hx Lx] [Hy Ly] [Hz Lz] HE l1 l2 u v w xi et sg. destruct (real_m3n3k1 _ _ _ _ HE x) as (R0 & R1 & R2).
  eexists _, _, _, _, _, _. split; [apply (D3_y sy Hy); lia|]. split; [apply (D3_z sz Hz); lia|].
  split; [apply (D3_x sx Hx); lia|]. split; [apply (D3_z sz Hz); lia|].
  split; [apply (D3_x sx Hx); lia|]. split; [apply (D3_y sy Hy); lia|]. split; [|split].
  - rewrite form3_T3, T3_minus. apply T3_ext. intros i j k Hi Hj Hk. apply R0; deg.
  - rewrite form3_T3, T3_minus. apply T3_ext. intros i j k Hi Hj Hk. apply R1; deg.
  - rewrite form3_T3, T3_minus. apply T3_ext. intros i j k Hi Hj Hk. apply R2; deg.
Qed.

Lemma divergence_3d sx sy sz E x : nodes_ok sx -> nodes_ok sy -> nodes_ok sz -> E_m3n3k2 (degree sx) (degree sy) (degree sz) = Some E ->
  let l2 := ln_m3n3k2 (degree sx) (degree sy) (degree sz) in let l3 := ln_m3n3k3 (degree sx) (degree sy) (degree sz) in
  let u := form3 x l2 0 (nodal sx) (edges sy) (edges sz) in let v := form3 x l2 1 (edges sx) (nodal sy) (edges sz) in
  let w := form3 x l2 2 (edges sx) (edges sy) (nodal sz) in
  forall xi et sg, exists ux vy wz,
    is_derive (fun xi => u xi et sg) xi ux /\ is_derive (fun et => v xi et sg) et vy /\ is_derive (fun sg => w xi et sg) sg wz /\
    form3 (apply E x) l3 0 (edges sx) (edges sy) (edges sz) xi et sg = ux + vy + wz.
Proof.
  intros [Hx Lx] [Hy Ly] [Hz Lz] HE l2 l3 u v w xi et sg. pose proof (real_m3n3k2 _ _ _ _ HE x) as R0.
  eexists _, _, _. split; [apply (D3_x sx Hx); lia|]. split; [apply (D3_y sy Hy); lia|]. split; [apply (D3_z sz Hz); lia|].
  rewrite form3_T3, !T3_plus. apply T3_ext. intros i j k Hi Hj Hk. apply R0; deg.
Qed.

(** * reduction of a reconstruction gives the cochain back, for any numbering [ln] *)
Section Reduction.
Variable x : nat -> R.
Variable ln : option (list arr).
Variable m : nat.
Variables sx sy sz : list R.
Hypothesis Hx : nodes_ok sx.
Hypothesis Hy : nodes_ok sy.
Hypothesis Hz : nodes_ok sz.
Notation c1 i := (rcoef x ln m [i]).
Notation c2 i j := (rcoef x ln m [i; j]).
Notation c3 i j k := (rcoef x ln m [i; j; k]).
Notation between s i := (node s i) (only parsing).
Notation F3 a b c := (form3 x ln m a b c).
Notation F2 a b := (form2 x ln m a b).

Lemma Lx' : (1 <= length sx)%nat. Proof. destruct Hx. lia. Qed.
Lemma Ly' : (1 <= length sy)%nat. Proof. destruct Hy. lia. Qed.
Lemma Lz' : (1 <= length sz)%nat. Proof. destruct Hz. lia. Qed.
Notation ix := (proj1 Hx). Notation iy := (proj1 Hy). Notation iz := (proj1 Hz).

Lemma red_N i : (i < length sx)%nat -> form1 x ln m (nodal sx) (node sx i) = c1 i.
Proof. intros. apply (nodal_values sx (fun i => c1 i) ix). assumption. Qed.
Lemma red_E i : (i < degree sx)%nat -> is_RInt (form1 x ln m (edges sx)) (node sx i) (node sx (S i)) (c1 i).
Proof. intros. apply (I_1 sx ix Lx' (fun i => c1 i)). assumption. Qed.
Lemma red_NN i j : (i < length sx)%nat -> (j < length sy)%nat -> F2 (nodal sx) (nodal sy) (node sx i) (node sy j) = c2 i j.
Proof. intros. rewrite form2_T2, (N_x sx ix) by assumption. apply (nodal_values sy (fun j => c2 i j) iy). assumption. Qed.
Lemma red_EN i j : (i < degree sx)%nat -> (j < length sy)%nat -> is_RInt (fun xi => F2 (edges sx) (nodal sy) xi (node sy j)) (node sx i) (node sx (S i)) (c2 i j).
Proof.
  intros. eapply is_RInt_eq_fun; [intros; apply (N_y sy iy); assumption|]. apply (I_1 sx ix Lx' (fun i => c2 i j)). assumption.
Qed.
Lemma red_NE i j : (i < length sx)%nat -> (j < degree sy)%nat -> is_RInt (fun et => F2 (nodal sx) (edges sy) (node sx i) et) (node sy j) (node sy (S j)) (c2 i j).
Proof.
  intros. eapply is_RInt_eq_fun; [intros; apply (N_x sx ix); assumption|]. apply (I_1 sy iy Ly' (fun j => c2 i j)). assumption.
Qed.
Lemma red_EE i j : (i < degree sx)%nat -> (j < degree sy)%nat -> integral2 (F2 (edges sx) (edges sy)) (node sx i) (node sx (S i)) (node sy j) (node sy (S j)) (c2 i j).
Proof.
  intros. eexists. split; [intros y; apply (I2_x sx ix Lx'); assumption|]. apply (I_1 sy iy Ly' (fun j => c2 i j)). assumption.
Qed.
Lemma red_NNN i j k : (i < length sx)%nat -> (j < length sy)%nat -> (k < length sz)%nat -> F3 (nodal sx) (nodal sy) (nodal sz) (node sx i) (node sy j) (node sz k) = c3 i j k.
Proof.
  intros. rewrite form3_T3, (N3_x sx ix), (N_x sy iy) by assumption. apply (nodal_values sz (fun k => c3 i j k) iz). assumption.
Qed.
Lemma red_ENN i j k : (i < degree sx)%nat -> (j < length sy)%nat -> (k < length sz)%nat ->
  is_RInt (fun xi => F3 (edges sx) (nodal sy) (nodal sz) xi (node sy j) (node sz k)) (node sx i) (node sx (S i)) (c3 i j k).
Proof.
  intros. eapply is_RInt_eq_fun; [intros; rewrite form3_T3, (N3_z sz iz), (N_y sy iy) by assumption; reflexivity|].
  apply (I_1 sx ix Lx' (fun i => c3 i j k)). assumption.
Qed.
Lemma red_NEN i j k : (i < length sx)%nat -> (j < degree sy)%nat -> (k < length sz)%nat ->
  is_RInt (fun et => F3 (nodal sx) (edges sy) (nodal sz) (node sx i) et (node sz k)) (node sy j) (node sy (S j)) (c3 i j k).
Proof.
  intros. eapply is_RInt_eq_fun; [intros; rewrite form3_T3, (N3_z sz iz), (N_x sx ix) by assumption; reflexivity|].
  apply (I_1 sy iy Ly' (fun j => c3 i j k)). assumption.
Qed.
Lemma red_NNE i j k : (i < length sx)%nat -> (j < length sy)%nat -> (k < degree sz)%nat ->
  is_RInt (fun sg => F3 (nodal sx) (nodal sy) (edges sz) (node sx i) (node sy j) sg) (node sz k) (node sz (S k)) (c3 i j k).
Proof.
  intros. eapply is_RInt_eq_fun; [intros; rewrite form3_T3, (N3_x sx ix), (N_x sy iy) by assumption; reflexivity|].
  apply (I_1 sz iz Lz' (fun k => c3 i j k)). assumption.
Qed.
Lemma red_NEE i j k : (i < length sx)%nat -> (j < degree sy)%nat -> (k < degree sz)%nat ->
  integral2 (fun et sg => F3 (nodal sx) (edges sy) (edges sz) (node sx i) et sg) (node sy j) (node sy (S j)) (node sz k) (node sz (S k)) (c3 i j k).
Proof.
  intros. eexists. split.
  - intros y. eapply is_RInt_eq_fun; [intros; apply (N3_x sx ix); assumption|]. apply (I2_x sy iy Ly'). assumption.
  - apply (I_1 sz iz Lz' (fun k => c3 i j k)). assumption.
Qed.
Lemma red_ENE i j k : (i < degree sx)%nat -> (j < length sy)%nat -> (k < degree sz)%nat ->
  integral2 (fun xi sg => F3 (edges sx) (nodal sy) (edges sz) xi (node sy j) sg) (node sx i) (node sx (S i)) (node sz k) (node sz (S k)) (c3 i j k).
Proof.
  intros. eexists. split.
  - intros y. eapply is_RInt_eq_fun; [intros; apply (N3_y sy iy); assumption|]. apply (I2_x sx ix Lx'). assumption.
  - apply (I_1 sz iz Lz' (fun k => c3 i j k)). assumption.
Qed.
Lemma red_EEN i j k : (i < degree sx)%nat -> (j < degree sy)%nat -> (k < length sz)%nat ->
  integral2 (fun xi et => F3 (edges sx) (edges sy) (nodal sz) xi et (node sz k)) (node sx i) (node sx (S i)) (node sy j) (node sy (S j)) (c3 i j k).
Proof.
  intros. eexists. split.
  - intros y. eapply is_RInt_eq_fun; [intros; apply (N3_z sz iz); assumption|]. apply (I2_x sx ix Lx'). assumption.
  - apply (I_1 sy iy Ly' (fun j => c3 i j k)). assumption.
Qed.
Lemma red_EEE i j k : (i < degree sx)%nat -> (j < degree sy)%nat -> (k < degree sz)%nat ->
  integral3 (F3 (edges sx) (edges sy) (edges sz)) (node sx i) (node sx (S i)) (node sy j) (node sy (S j)) (node sz k) (node sz (S k)) (c3 i j k).
Proof.
  intros. eexists. split.
  - intros z. eexists. split; [intros y; apply (I3_x sx ix Lx'); assumption|]. apply (I2_x sy iy Ly'). assumption.
  - apply (I_1 sz iz Lz' (fun k => c3 i j k)). assumption.
Qed.
End Reduction.

(** * the arrays computed by the code are the values of the form on the grid *)
Lemma total_prod nB nA f : total (nB * nA) f = total nA (fun i => total nB (fun j => f (i + nA * j)%nat)).
Proof.
  induction nB as [|nB IH]; cbn [total].
  - symmetry. apply total_0. reflexivity.
  - replace (S nB * nA)%nat with (nB * nA + nA)%nat by lia.
    assert (G : forall m, total (nB * nA + m) f = total (nB * nA) f + total m (fun i => f (i + nA * nB)%nat)).
    { induction m as [|m IHm]; [rewrite Nat.add_0_r; cbn; lra|].
      rewrite Nat.add_succ_r. cbn [total]. rewrite IHm. replace (m + nA * nB)%nat with (nB * nA + m)%nat by lia. lra. }
    rewrite G, IH, <- total_plus. reflexivity.
Qed.
Lemma kron_at A B i j a b : (i < fm_rows A)%nat -> (a < fm_cols A)%nat ->
  fm_at (kron B A) (i + fm_rows A * j) (a + fm_cols A * b) = fm_at B j b * fm_at A i a.
Proof.
  intros Hi Ha. unfold kron. cbn [fm_at].
  rewrite !(Nat.mul_comm (fm_rows A)), !(Nat.mul_comm (fm_cols A)), !Nat.div_add, !Nat.mod_add, !Nat.div_small, !Nat.mod_small by lia. reflexivity.
Qed.
Lemma einsum_len bf c v : einsum bf c = Some v -> length c = fm_rows bf /\ length v = fm_cols bf.
Proof.
  unfold einsum. destruct (Nat.eqb_spec (length c) (fm_rows bf)); [|discriminate]. intros [= <-]. rewrite map_length, seq_length. auto.
Qed.
Lemma einsum_at bf c : length c = fm_rows bf -> exists v, einsum bf c = Some v /\ length v = fm_cols bf /\
  forall j, (j < fm_cols bf)%nat -> nth j v 0 = total (fm_rows bf) (fun i => nth i c 0 * fm_at bf i j).
Proof.
  intros H. unfold einsum. rewrite H, Nat.eqb_refl. eexists. split; [reflexivity|]. rewrite map_length, seq_length. split; [reflexivity|].
  intros j Hj. rewrite (nth_indep _ 0 ((fun j => np_sum (fm_rows bf) (fun i => fm_at bf i j * nth i c 0)) 0%nat)) by (rewrite map_length, seq_length; assumption).
  rewrite (map_nth (fun j => np_sum (fm_rows bf) (fun i => fm_at bf i j * nth i c 0))), seq_nth by assumption.
  rewrite np_sum_total. apply total_ext. intros. apply Rmult_comm.
Qed.
Lemma einsum_2 A B c : length c = (fm_rows B * fm_rows A)%nat -> exists v, einsum (kron B A) c = Some v /\ length v = (fm_cols A * fm_cols B)%nat /\
  forall a b, (a < fm_cols A)%nat -> (b < fm_cols B)%nat -> at_2d v (fm_cols A) a b =
    total (fm_rows A) (fun i => total (fm_rows B) (fun j => nth (i + fm_rows A * j) c 0 * (fm_at A i a * fm_at B j b))).
Proof.
  intros H. destruct (einsum_at (kron B A) c H) as (v & Ev & Lv & Hv). exists v. split; [exact Ev|]. split; [rewrite Lv; cbn; lia|].
  intros a b Ha Hb. unfold at_2d. rewrite Hv by (cbn; nia). cbn [fm_rows kron]. rewrite total_prod.
  apply total_ext. intros i Hi. apply total_ext. intros j Hj. rewrite kron_at by assumption. ring.
Qed.
Lemma einsum_3 A B C c : length c = (fm_rows C * fm_rows B * fm_rows A)%nat -> exists v, einsum (kron (kron C B) A) c = Some v /\
  length v = (fm_cols A * fm_cols B * fm_cols C)%nat /\
  forall a b k, (a < fm_cols A)%nat -> (b < fm_cols B)%nat -> (k < fm_cols C)%nat -> at_3d v (fm_cols A) (fm_cols B) a b k =
    total (fm_rows A) (fun i => total (fm_rows B) (fun j => total (fm_rows C) (fun l =>
      nth (i + fm_rows A * (j + fm_rows B * l)) c 0 * (fm_at A i a * fm_at B j b * fm_at C l k)))).
Proof.
  intros H. destruct (einsum_2 A (kron C B) c H) as (v & Ev & Lv & Hv). exists v. split; [exact Ev|]. split; [rewrite Lv; cbn; lia|].
  intros a b k Ha Hb Hk. unfold at_3d. fold (at_2d v (fm_cols A) a (b + fm_cols B * k)). rewrite Hv by (cbn; nia).
  cbn [fm_rows kron]. apply total_ext. intros i Hi. rewrite total_prod. apply total_ext. intros j Hj. apply total_ext. intros l Hl.
  rewrite kron_at by assumption. ring.
Qed.

(** coefficients as entries of the local cochain *)
Lemma rcoef1 c l m b I i : nth_error l m = Some (mk_arr b [I]) -> (i < I)%nat -> rcoef (cochain c) (Some l) m [i] = nth (b + i) c 0.
Proof. intros H Hi. apply (rcoef_num (cochain c) (Some l) m [i] (b + i)). apply (num1_iff _ _ _ _ _ _ H). exists i. auto. Qed.
Lemma rcoef2 c l m b I J i j : nth_error l m = Some (mk_arr b [I; J]) -> (i < I)%nat -> (j < J)%nat ->
  rcoef (cochain c) (Some l) m [i; j] = nth (b + (i + I * j)) c 0.
Proof. intros H Hi Hj. apply (rcoef_num (cochain c) (Some l) m [i; j] (b + (i + I * j))). apply (num2_iff _ _ _ _ _ _ _ H). exists i, j. auto. Qed.
Lemma rcoef3 c l m b I J K i j k : nth_error l m = Some (mk_arr b [I; J; K]) -> (i < I)%nat -> (j < J)%nat -> (k < K)%nat ->
  rcoef (cochain c) (Some l) m [i; j; k] = nth (b + (i + I * (j + J * k))) c 0.
Proof.
  intros H Hi Hj Hk. apply (rcoef_num (cochain c) (Some l) m [i; j; k] (b + (i + I * (j + J * k)))).
  apply (num3_iff _ _ _ _ _ _ _ _ H). exists i, j, k. auto.
Qed.

(** the values on a grid, as numpy arrays after the reshape *)
Definition grid1 (v xi : list R) (f : R -> R) : Prop :=
  length v = length xi /\ forall a, (a < length xi)%nat -> nth a v 0 = f (nth a xi 0).
Definition grid2 (v xi et : list R) (f : R -> R -> R) : Prop :=
  length v = (length xi * length et)%nat /\
  forall a b, (a < length xi)%nat -> (b < length et)%nat -> at_2d v (length xi) a b = f (nth a xi 0) (nth b et 0).
Definition grid3 (v xi et sg : list R) (f : R -> R -> R -> R) : Prop :=
  length v = (length xi * length et * length sg)%nat /\
  forall a b k, (a < length xi)%nat -> (b < length et)%nat -> (k < length sg)%nat ->
    at_3d v (length xi) (length et) a b k = f (nth a xi 0) (nth b et 0) (nth k sg 0).

(** one-dimensional matrices of basis functions *)
Definition bm (bs : basis) (pts : list R) : fm := mk_fm (fst bs) (length pts) (fun i c => snd bs i (nth c pts 0)).
Lemma node_bm s pts : node_m s pts = bm (nodal s) pts. Proof. reflexivity. Qed.
Lemma edge_bm s pts : edge_m s pts = bm (edges s) pts. Proof. reflexivity. Qed.

Section Comp.
Variables (c sl : list R) (l : list arr) (m b : nat).
Lemma comp1 bx xi : nth_error l m = Some (mk_arr b [fst bx]) -> length sl = fst bx ->
  (forall t, (t < length sl)%nat -> nth t sl 0 = nth (b + t) c 0) ->
  exists v, einsum (bm bx xi) sl = Some v /\ grid1 v xi (form1 (cochain c) (Some l) m bx).
Proof.
  intros Hl L H. destruct (einsum_at (bm bx xi) sl L) as (v & Ev & Lv & Hv). exists v. split; [exact Ev|]. split; [exact Lv|].
  intros a Ha. rewrite Hv by exact Ha. apply total_ext. cbn [bm fm_rows fm_at]. intros i Hi.
  rewrite (rcoef1 _ _ _ _ _ _ Hl), H by lia. reflexivity.
Qed.
Lemma comp2 bx by' xi et : nth_error l m = Some (mk_arr b [fst bx; fst by']) -> length sl = (fst bx * fst by')%nat ->
  (forall t, (t < length sl)%nat -> nth t sl 0 = nth (b + t) c 0) ->
  exists v, einsum (kron (bm by' et) (bm bx xi)) sl = Some v /\ grid2 v xi et (form2 (cochain c) (Some l) m bx by').
Proof.
  intros Hl L H. destruct (einsum_2 (bm bx xi) (bm by' et) sl) as (v & Ev & Lv & Hv); [rewrite L; cbn; lia|].
  exists v. split; [exact Ev|]. split; [exact Lv|]. cbn [bm fm_rows fm_cols fm_at] in *.
  intros a q Ha Hq. rewrite Hv by assumption. apply total_ext. intros i Hi. apply total_ext. intros j Hj.
  rewrite (rcoef2 _ _ _ _ _ _ _ _ Hl), H by (lia || nia). reflexivity.
Qed.
Lemma comp3 bx by' bz xi et sg : nth_error l m = Some (mk_arr b [fst bx; fst by'; fst bz]) -> length sl = (fst bx * fst by' * fst bz)%nat ->
  (forall t, (t < length sl)%nat -> nth t sl 0 = nth (b + t) c 0) ->
  exists v, einsum (kron (kron (bm bz sg) (bm by' et)) (bm bx xi)) sl = Some v /\ grid3 v xi et sg (form3 (cochain c) (Some l) m bx by' bz).
Proof.
  intros Hl L H. destruct (einsum_3 (bm bx xi) (bm by' et) (bm bz sg) sl) as (v & Ev & Lv & Hv); [rewrite L; cbn; lia|].
  exists v. split; [exact Ev|]. split; [exact Lv|]. cbn [bm fm_rows fm_cols fm_at] in *.
  intros a q k Ha Hq Hk. rewrite Hv by assumption. apply total_ext. intros i Hi. apply total_ext. intros j Hj. apply total_ext. intros n Hn.
  rewrite (rcoef3 _ _ _ _ _ _ _ _ _ _ Hl Hi Hj Hn), H; [reflexivity|]. rewrite L.
  apply (Nat.lt_le_trans _ (fst bx * (fst by' * fst bz))%nat); [|lia].
  assert (j + fst by' * n < fst by' * fst bz)%nat by nia. nia.
Qed.
End Comp.

Lemma slice_len a b c : length (slice a b c) = Nat.min (b - a) (length c - a).
Proof. unfold slice. rewrite firstn_length, skipn_length. reflexivity. Qed.
Lemma nth_firstn_lt {A} n (l : list A) t d : (t < n)%nat -> nth t (firstn n l) d = nth t l d.
Proof. revert l t. induction n; intros [|a l] [|t] H; try lia; cbn; auto. apply IHn. lia. Qed.
Lemma nth_skipn_add {A} n (l : list A) t d : nth t (skipn n l) d = nth (n + t) l d.
Proof. revert l. induction n; intros [|a l]; cbn; auto. destruct t; reflexivity. Qed.
Lemma slice_nth a b c t : (t < length (slice a b c))%nat -> nth t (slice a b c) 0 = nth (a + t) c 0.
Proof. rewrite slice_len. intros H. unfold slice. rewrite nth_firstn_lt by lia. apply nth_skipn_add. Qed.
Lemma last_len n c : (1 <= n <= length c)%nat -> length (slice_last n c) = n.
Proof. intros H. unfold slice_last. destruct n; [lia|]. rewrite skipn_length. lia. Qed.
Lemma last_nth n c t : (1 <= n)%nat -> nth t (slice_last n c) 0 = nth (length c - n + t) c 0.
Proof. intros H. unfold slice_last. destruct n; [lia|]. apply nth_skipn_add. Qed.

Lemma whole_nth (c : list R) t : (t < length c)%nat -> nth t c 0 = nth (0 + t) c 0. Proof. reflexivity. Qed.

Lemma rc_1d_k0 s xi c : nodes_ok s -> length c = nd_m1n1k0 (degree s) ->
  exists v, rc_m1n1k0 s xi c = Some [v] /\ grid1 v xi (form1 (cochain c) (ln_m1n1k0 (degree s)) 0 (nodal s)).
Proof.
  intros [_ L] H. rewrite ln_m1n1k0_eq.
  destruct (comp1 c c [mk_arr 0 [degree s + 1]%nat] 0 0 (nodal s) xi) as (v & Ev & G).
  - cbn. repeat f_equal. deg.
  - rewrite H. unfold nd_m1n1k0. deg.
  - intros. reflexivity.
  - exists v. split; [|exact G]. unfold rc_m1n1k0, reconstruct, bf_m1n1k0, ndc_m1n1k0. cbn [split_cochain einsums].
    rewrite node_bm, Ev. reflexivity.
Qed.
Lemma rc_1d_k1 s xi c : nodes_ok s -> length c = nd_m1n1k1 (degree s) ->
  exists v, rc_m1n1k1 s xi c = Some [v] /\ grid1 v xi (form1 (cochain c) (ln_m1n1k1 (degree s)) 0 (edges s)).
Proof.
  intros [_ L] H. rewrite ln_m1n1k1_eq.
  destruct (comp1 c c [mk_arr 0 [degree s]%nat] 0 0 (edges s) xi) as (v & Ev & G).
  - reflexivity.
  - rewrite H. reflexivity.
  - intros. reflexivity.
  - exists v. split; [|exact G]. unfold rc_m1n1k1, reconstruct, bf_m1n1k1, ndc_m1n1k1. cbn [split_cochain einsums].
    rewrite edge_bm, Ev. reflexivity.
Qed.

Ltac plus1 := unfold degree in *; cbn [fst nth_error];
  repeat match goal with |- context [(length ?s - 1 + 1)%nat] => rewrite (Nat.sub_add 1 (length s)) by lia end.
Ltac numb2 := plus1; lia.
Ltac numb := plus1; reflexivity.
Lemma rc_2d_k0 sx sy xi et c : nodes_ok sx -> nodes_ok sy -> length c = nd_m2n2k0 (degree sx) (degree sy) ->
  exists v, rc_m2n2k0 sx sy xi et c = Some [v] /\
    grid2 v xi et (form2 (cochain c) (ln_m2n2k0 (degree sx) (degree sy)) 0 (nodal sx) (nodal sy)).
Proof.
  intros [_ Lx] [_ Ly] H. rewrite ln_m2n2k0_eq.
  destruct (comp2 c c [mk_arr 0 [degree sx + 1; degree sy + 1]%nat] 0 0 (nodal sx) (nodal sy) xi et) as (v & Ev & G).
  - numb.
  - rewrite H. unfold nd_m2n2k0. numb2.
  - intros. reflexivity.
  - exists v. split; [|exact G]. unfold rc_m2n2k0, reconstruct, bf_m2n2k0, ndc_m2n2k0. cbn [split_cochain einsums].
    rewrite !node_bm, Ev. reflexivity.
Qed.
Lemma rc_2d_k2 sx sy xi et c : nodes_ok sx -> nodes_ok sy -> length c = nd_m2n2k2 (degree sx) (degree sy) ->
  exists v, rc_m2n2k2 sx sy xi et c = Some [v] /\
    grid2 v xi et (form2 (cochain c) (ln_m2n2k2 (degree sx) (degree sy)) 0 (edges sx) (edges sy)).
Proof.
  intros [_ Lx] [_ Ly] H. rewrite ln_m2n2k2_eq.
  edestruct (comp2 c c) with (m := 0%nat) (b := 0%nat) (bx := (edges sx)) (by' := (edges sy)) as (v & Ev & G); cycle 3.
  - exists v. split; [|exact G]. unfold rc_m2n2k2, reconstruct, bf_m2n2k2, ndc_m2n2k2. cbn [split_cochain einsums].
    rewrite ?node_bm, ?edge_bm, Ev. reflexivity.
  - numb.
  - rewrite H. unfold nd_m2n2k2. numb2.
  - intros. reflexivity.
Qed.
Lemma rc_3d_k0 sx sy sz xi et sg c : nodes_ok sx -> nodes_ok sy -> nodes_ok sz -> length c = nd_m3n3k0 (degree sx) (degree sy) (degree sz) ->
  exists v, rc_m3n3k0 sx sy sz xi et sg c = Some [v] /\
    grid3 v xi et sg (form3 (cochain c) (ln_m3n3k0 (degree sx) (degree sy) (degree sz)) 0 (nodal sx) (nodal sy) (nodal sz)).
Proof.
  intros [_ Lx] [_ Ly] [_ Lz] H. rewrite ln_m3n3k0_eq.
  edestruct (comp3 c c) with (m := 0%nat) (b := 0%nat) (bx := (nodal sx)) (by' := (nodal sy)) (bz := (nodal sz)) as (v & Ev & G); cycle 3.
  - exists v. split; [|exact G]. unfold rc_m3n3k0, reconstruct, bf_m3n3k0, ndc_m3n3k0. cbn [split_cochain einsums].
    rewrite ?node_bm, ?edge_bm, Ev. reflexivity.
  - numb.
  - rewrite H. unfold nd_m3n3k0. numb2.
  - intros. reflexivity.
Qed.
Lemma rc_3d_k3 sx sy sz xi et sg c : nodes_ok sx -> nodes_ok sy -> nodes_ok sz -> length c = nd_m3n3k3 (degree sx) (degree sy) (degree sz) ->
  exists v, rc_m3n3k3 sx sy sz xi et sg c = Some [v] /\
    grid3 v xi et sg (form3 (cochain c) (ln_m3n3k3 (degree sx) (degree sy) (degree sz)) 0 (edges sx) (edges sy) (edges sz)).
Proof.
  intros [_ Lx] [_ Ly] [_ Lz] H. rewrite ln_m3n3k3_eq.
  edestruct (comp3 c c) with (m := 0%nat) (b := 0%nat) (bx := (edges sx)) (by' := (edges sy)) (bz := (edges sz)) as (v & Ev & G); cycle 3.
  - exists v. split; [|exact G]. unfold rc_m3n3k3, reconstruct, bf_m3n3k3, ndc_m3n3k3. cbn [split_cochain einsums].
    rewrite ?node_bm, ?edge_bm, Ev. reflexivity.
  - numb.
  - rewrite H. unfold nd_m3n3k3. numb2.
  - intros. reflexivity.
Qed.

(** two and three components *)
Lemma pos3 a b c : (1 <= a -> 1 <= b -> 1 <= c -> 1 <= a * b * c)%nat. Proof. nia. Qed.
Lemma two_2 c px qx py qy rx ry tx ty l xi et :
  l = [mk_arr 0 [fst px; fst py]; mk_arr (fst px * fst py) [fst qx; fst qy]] ->
  rx = px -> ry = py -> tx = qx -> ty = qy ->
  length c = (fst px * fst py + fst qx * fst qy)%nat ->
  exists u v, reconstruct [kron (bm py et) (bm px xi); kron (bm qy et) (bm qx xi)] [(fst px * fst py)%nat; (fst qx * fst qy)%nat] c = Some [u; v] /\
    grid2 u xi et (form2 (cochain c) (Some l) 0 rx ry) /\ grid2 v xi et (form2 (cochain c) (Some l) 1 tx ty).
Proof.
  intros El -> -> -> -> H. unfold reconstruct. cbn [split_cochain einsums].
  destruct (comp2 c (slice 0 (fst px * fst py) c) l 0 0 px py xi et) as (u & Eu & Gu).
  - rewrite El. reflexivity.
  - rewrite slice_len. lia.
  - intros t Ht. apply slice_nth, Ht.
  - destruct (comp2 c (slice (fst px * fst py) (length c) c) l 1 (fst px * fst py) qx qy xi et) as (v & Ev & Gv).
    + rewrite El. reflexivity.
    + rewrite slice_len. lia.
    + intros t Ht. apply slice_nth, Ht.
    + exists u, v. rewrite Eu, Ev. auto.
Qed.
Lemma three_3 c px py pz qx qy qz rx ry rz n0 n1 n2 l xi et sg :
  n0 = (fst px * fst py * fst pz)%nat -> n1 = (fst qx * fst qy * fst qz)%nat -> n2 = (fst rx * fst ry * fst rz)%nat ->
  l = [mk_arr 0 [fst px; fst py; fst pz]; mk_arr n0 [fst qx; fst qy; fst qz]; mk_arr (n0 + n1) [fst rx; fst ry; fst rz]] ->
  (1 <= n2)%nat -> length c = (n0 + n1 + n2)%nat ->
  exists u v w, reconstruct [kron (kron (bm pz sg) (bm py et)) (bm px xi); kron (kron (bm qz sg) (bm qy et)) (bm qx xi); kron (kron (bm rz sg) (bm ry et)) (bm rx xi)]
      [n0; n1; n2] c = Some [u; v; w] /\
    grid3 u xi et sg (form3 (cochain c) (Some l) 0 px py pz) /\ grid3 v xi et sg (form3 (cochain c) (Some l) 1 qx qy qz) /\
    grid3 w xi et sg (form3 (cochain c) (Some l) 2 rx ry rz).
Proof.
  intros E0 E1 E2 El P H. unfold reconstruct. cbn [split_cochain einsums].
  destruct (comp3 c (slice 0 n0 c) l 0 0 px py pz xi et sg) as (u & Eu & Gu).
  { rewrite El. reflexivity. } { rewrite slice_len. lia. } { intros t Ht. apply slice_nth, Ht. }
  destruct (comp3 c (slice n0 (n0 + n1) c) l 1 n0 qx qy qz xi et sg) as (v & Ev & Gv).
  { rewrite El. reflexivity. } { rewrite slice_len. lia. } { intros t Ht. apply slice_nth, Ht. }
  destruct (comp3 c (slice_last n2 c) l 2 (n0 + n1) rx ry rz xi et sg) as (w & Ew & Gw).
  { rewrite El. reflexivity. } { rewrite last_len; lia. } { intros t Ht. rewrite last_nth by assumption. f_equal. lia. }
  exists u, v, w. rewrite Eu, Ev, Ew. auto.
Qed.
Lemma rc_2d_k1_inner sx sy xi et c : nodes_ok sx -> nodes_ok sy -> length c = nd_m2n2k1 (degree sx) (degree sy) ->
  exists u v, rc_m2n2k1_inner sx sy xi et c = Some [u; v] /\
    grid2 u xi et (form2 (cochain c) (ln_m2n2k1_inner (degree sx) (degree sy)) 0 (edges sx) (nodal sy)) /\
    grid2 v xi et (form2 (cochain c) (ln_m2n2k1_inner (degree sx) (degree sy)) 1 (nodal sx) (edges sy)).
Proof.
  intros [_ Lx] [_ Ly] H. rewrite ln_m2n2k1_inner_eq. unfold rc_m2n2k1_inner, bf_m2n2k1_inner, ndc_m2n2k1_inner. rewrite ?node_bm, ?edge_bm.
  assert (Qx : (degree sx + 1 = length sx)%nat) by deg. assert (Qy : (degree sy + 1 = length sy)%nat) by deg.
  unfold nd_m2n2k1 in H. rewrite Qx, Qy in *. eapply two_2; try reflexivity. cbn [fst]. lia.
Qed.
Lemma rc_2d_k1_outer sx sy xi et c : nodes_ok sx -> nodes_ok sy -> length c = nd_m2n2k1 (degree sx) (degree sy) ->
  exists u v, rc_m2n2k1_outer sx sy xi et c = Some [u; v] /\
    grid2 u xi et (form2 (cochain c) (ln_m2n2k1_outer (degree sx) (degree sy)) 0 (nodal sx) (edges sy)) /\
    grid2 v xi et (form2 (cochain c) (ln_m2n2k1_outer (degree sx) (degree sy)) 1 (edges sx) (nodal sy)).
Proof.
  intros [_ Lx] [_ Ly] H. rewrite ln_m2n2k1_outer_eq. unfold rc_m2n2k1_outer, bf_m2n2k1_outer, ndc_m2n2k1_outer. rewrite ?node_bm, ?edge_bm.
  assert (Qx : (degree sx + 1 = length sx)%nat) by deg. assert (Qy : (degree sy + 1 = length sy)%nat) by deg.
  unfold nd_m2n2k1 in H. rewrite Qx, Qy in *. eapply two_2; try reflexivity. cbn [fst]. lia.
Qed.
Lemma rc_3d_k1 sx sy sz xi et sg c : nodes_ok sx -> nodes_ok sy -> nodes_ok sz -> length c = nd_m3n3k1 (degree sx) (degree sy) (degree sz) ->
  exists u v w, rc_m3n3k1 sx sy sz xi et sg c = Some [u; v; w] /\
    grid3 u xi et sg (form3 (cochain c) (ln_m3n3k1 (degree sx) (degree sy) (degree sz)) 0 (edges sx) (nodal sy) (nodal sz)) /\
    grid3 v xi et sg (form3 (cochain c) (ln_m3n3k1 (degree sx) (degree sy) (degree sz)) 1 (nodal sx) (edges sy) (nodal sz)) /\
    grid3 w xi et sg (form3 (cochain c) (ln_m3n3k1 (degree sx) (degree sy) (degree sz)) 2 (nodal sx) (nodal sy) (edges sz)).
Proof.
  intros [_ Lx] [_ Ly] [_ Lz] H. rewrite ln_m3n3k1_eq. unfold rc_m3n3k1, bf_m3n3k1, ndc_m3n3k1. rewrite ?node_bm, ?edge_bm.
  assert (Qx : (degree sx + 1 = length sx)%nat) by deg. assert (Qy : (degree sy + 1 = length sy)%nat) by deg.
  assert (Qz : (degree sz + 1 = length sz)%nat) by deg.
  unfold nd_m3n3k1 in H. rewrite Qx, Qy, Qz in *. eapply three_3; try reflexivity; cbn [fst]; [|lia].
  apply pos3; lia.
Qed.
Lemma rc_3d_k2 sx sy sz xi et sg c : nodes_ok sx -> nodes_ok sy -> nodes_ok sz -> length c = nd_m3n3k2 (degree sx) (degree sy) (degree sz) ->
  exists u v w, rc_m3n3k2 sx sy sz xi et sg c = Some [u; v; w] /\
    grid3 u xi et sg (form3 (cochain c) (ln_m3n3k2 (degree sx) (degree sy) (degree sz)) 0 (nodal sx) (edges sy) (edges sz)) /\
    grid3 v xi et sg (form3 (cochain c) (ln_m3n3k2 (degree sx) (degree sy) (degree sz)) 1 (edges sx) (nodal sy) (edges sz)) /\
    grid3 w xi et sg (form3 (cochain c) (ln_m3n3k2 (degree sx) (degree sy) (degree sz)) 2 (edges sx) (edges sy) (nodal sz)).
Proof.
  intros [_ Lx] [_ Ly] [_ Lz] H. rewrite ln_m3n3k2_eq. unfold rc_m3n3k2, bf_m3n3k2, ndc_m3n3k2. rewrite ?node_bm, ?edge_bm.
  assert (Qx : (degree sx + 1 = length sx)%nat) by deg. assert (Qy : (degree sy + 1 = length sy)%nat) by deg.
  assert (Qz : (degree sz + 1 = length sz)%nat) by deg.
  unfold nd_m3n3k2 in H. rewrite Qx, Qy, Qz in *. eapply three_3; try reflexivity; cbn [fst]; [|lia].
  apply pos3; lia.
Qed.

(** local cochains of a wrong length are rejected (one or two components) *)
Lemma einsum_none bf c : length c <> fm_rows bf -> einsum bf c = None.
Proof. intros H. unfold einsum. apply Nat.eqb_neq in H. rewrite H. reflexivity. Qed.
Lemma one_wrong bf n c : length c <> fm_rows bf -> reconstruct [bf] [n] c = None.
Proof. intros H. unfold reconstruct. cbn [split_cochain einsums]. rewrite einsum_none by assumption. reflexivity. Qed.
Lemma two_wrong b0 b1 c : length c <> (fm_rows b0 + fm_rows b1)%nat -> reconstruct [b0; b1] [fm_rows b0; fm_rows b1] c = None.
Proof.
  intros H. unfold reconstruct. cbn [split_cochain einsums].
  destruct (Nat.eq_dec (length (slice 0 (fm_rows b0) c)) (fm_rows b0)) as [E|E]; [|rewrite einsum_none by assumption; reflexivity].
  rewrite slice_len in E. rewrite (einsum_none b1) by (rewrite slice_len; lia). destruct (einsum b0 _); reflexivity.
Qed.
Ltac wrong := unfold degree, nd_m1n1k0, nd_m1n1k1, nd_m2n2k0, nd_m2n2k1, nd_m2n2k2, nd_m3n3k0, nd_m3n3k3 in *; cbn [kron node_m edge_m fm_rows].
Lemma rc_wrong_length sx sy sz xi et sg c : nodes_ok sx -> nodes_ok sy -> nodes_ok sz ->
  (length c <> nd_m1n1k0 (degree sx) -> rc_m1n1k0 sx xi c = None) /\
  (length c <> nd_m1n1k1 (degree sx) -> rc_m1n1k1 sx xi c = None) /\
  (length c <> nd_m2n2k0 (degree sx) (degree sy) -> rc_m2n2k0 sx sy xi et c = None) /\
  (length c <> nd_m2n2k1 (degree sx) (degree sy) -> rc_m2n2k1_inner sx sy xi et c = None /\ rc_m2n2k1_outer sx sy xi et c = None) /\
  (length c <> nd_m2n2k2 (degree sx) (degree sy) -> rc_m2n2k2 sx sy xi et c = None) /\
  (length c <> nd_m3n3k0 (degree sx) (degree sy) (degree sz) -> rc_m3n3k0 sx sy sz xi et sg c = None) /\
  (length c <> nd_m3n3k3 (degree sx) (degree sy) (degree sz) -> rc_m3n3k3 sx sy sz xi et sg c = None).
Proof.
  intros [_ Lx] [_ Ly] [_ Lz].
  assert (Qx : (degree sx + 1 = length sx)%nat) by deg. assert (Qy : (degree sy + 1 = length sy)%nat) by deg.
  assert (Qz : (degree sz + 1 = length sz)%nat) by deg.
  assert (Dx : (length sx - 1 = degree sx)%nat) by reflexivity. assert (Dy : (length sy - 1 = degree sy)%nat) by reflexivity.
  assert (Dz : (length sz - 1 = degree sz)%nat) by reflexivity.
  split; [|split; [|split; [|split; [intros H; split|split; [|split]]]]]; try intros H.
  - apply one_wrong. unfold nd_m1n1k0 in H. cbn. lia.
  - apply one_wrong. unfold nd_m1n1k1 in H. cbn. lia.
  - apply one_wrong. unfold nd_m2n2k0 in H. cbn. rewrite Qx, Qy in H. lia.
  - unfold rc_m2n2k1_inner, ndc_m2n2k1_inner, bf_m2n2k1_inner. unfold nd_m2n2k1 in H. rewrite Qx, Qy in *.
    rewrite (Nat.mul_comm (degree sx) (length sy)), (Nat.mul_comm (length sx) (degree sy)).
    apply (two_wrong (kron (node_m sy et) (edge_m sx xi)) (kron (edge_m sy et) (node_m sx xi))). cbn [kron node_m edge_m fm_rows]. rewrite Dx, Dy. lia.
  - unfold rc_m2n2k1_outer, ndc_m2n2k1_outer, bf_m2n2k1_outer. unfold nd_m2n2k1 in H. rewrite Qx, Qy in *.
    rewrite (Nat.mul_comm (degree sx) (length sy)), (Nat.mul_comm (length sx) (degree sy)).
    apply (two_wrong (kron (edge_m sy et) (node_m sx xi)) (kron (node_m sy et) (edge_m sx xi))). cbn [kron node_m edge_m fm_rows]. rewrite Dx, Dy. lia.
  - apply one_wrong. unfold nd_m2n2k2 in H. cbn. rewrite Dx, Dy. lia.
  - apply one_wrong. unfold nd_m3n3k0 in H. cbn. rewrite Qx, Qy, Qz in H. lia.
  - apply one_wrong. unfold nd_m3n3k3 in H. cbn. rewrite Dx, Dy, Dz. lia.
Qed.

(** with three components the last slice is counted from the end: a local cochain that is too long or (up to a point) too short is accepted *)
Lemma three_accepts b0 b1 b2 c : (1 <= fm_rows b2)%nat -> (fm_rows b0 + fm_rows b1 <= length c)%nat -> (fm_rows b2 <= length c)%nat ->
  reconstruct [b0; b1; b2] [fm_rows b0; fm_rows b1; fm_rows b2] c <> None.
Proof.
  intros P H H'. unfold reconstruct. cbn [split_cochain einsums].
  destruct (einsum_at b0 (slice 0 (fm_rows b0) c)) as (? & -> & _); [rewrite slice_len; lia|].
  destruct (einsum_at b1 (slice (fm_rows b0) (fm_rows b0 + fm_rows b1) c)) as (? & -> & _); [rewrite slice_len; lia|].
  destruct (einsum_at b2 (slice_last (fm_rows b2) c)) as (? & -> & _); [apply last_len; lia|]. discriminate.
Qed.

Lemma matrices_exist p q r : E_m1n1k0 p <> None /\ E_m2n2k0_inner p q <> None /\ E_m2n2k1_inner p q <> None /\
  E_m2n2k0_outer p q <> None /\ E_m2n2k1_outer p q <> None /\ E_m3n3k0 p q r <> None /\ E_m3n3k1 p q r <> None /\ E_m3n3k2 p q r <> None.
Proof.
  destruct (act_m1n1k0 p) as (? & -> & _), (act_m2n2k0i p q) as (? & -> & _), (act_m2n2k1i p q) as (? & -> & _), (act_m2n2k0o p q) as (? & -> & _),
    (act_m2n2k1o p q) as (? & -> & _), (act_m3n3k0 p q r) as (? & -> & _), (act_m3n3k1 p q r) as (? & -> & _), (act_m3n3k2 p q r) as (? & -> & _).
  repeat split; discriminate.
Qed.
