(** The dofs found on a face are those that decide the trace. *)
From Coq Require Import List Arith Reals Lia Lra.
From Coquelicot Require Import Coquelicot.
From Verif Require Import NdArray LocalNumberingModel PolyModel PolySpec PolyProofs PolyCalc TensorModel TensorSpec TensorProofs TensorThms FaceModel FaceSpec FaceProofs.
Import ListNotations.
Local Open Scope R_scope.

Lemma face_dofs_intro no_trace nd L : decides no_trace L -> NoDup L -> (forall r, In r L -> (r < nd)%nat) -> face_dofs no_trace nd L.
Proof.
  intros D N B. split; [exact D|]. split; [exact N|]. split; [exact B|]. intros r _. split.
  - intros Hr H. pose proof (proj1 (D _) H r Hr) as E. unfold unit, kronecker in E. rewrite Nat.eqb_refl in E. lra.
  - intros H. destruct (in_dec Nat.eq_dec r L) as [i|n]; auto. exfalso. apply H. apply D. intros q Hq. unfold unit, kronecker. destruct (Nat.eqb_spec r q); [subst; tauto|auto]; destruct (Nat.eqb_spec q r); subst; tauto.
Qed.
Local Open Scope nat_scope.
Lemma arange0 n sh : prodl sh = n -> arange_reshape 0 n sh = Some (mk_arr 0 sh).
Proof. apply (arange_reshape_ok 0). Qed.
Ltac prod := cbn [prodl fold_right]; ring.
Ltac lns := unfold tuple_of; repeat (first [rewrite arange0 by prod | rewrite arange_reshape_ok by prod]); reflexivity.
Lemma e_m1n1k0 p : ln_m1n1k0 p = Some [mk_arr 0 [p + 1]].
Proof. unfold ln_m1n1k0. lns. Qed.
Lemma e_m2n2k0 px py : ln_m2n2k0 px py = Some [mk_arr 0 [px + 1; py + 1]].
Proof. unfold ln_m2n2k0. lns. Qed.
Lemma e_m2n2k1_outer px py : ln_m2n2k1_outer px py = Some [mk_arr 0 [px + 1; py]; mk_arr ((px + 1) * py) [px; py + 1]].
Proof. unfold ln_m2n2k1_outer. lns. Qed.
Lemma e_m2n2k1_inner px py : ln_m2n2k1_inner px py = Some [mk_arr 0 [px; py + 1]; mk_arr (px * (py + 1)) [px + 1; py]].
Proof. unfold ln_m2n2k1_inner. lns. Qed.
Lemma e_m3n3k0 px py pz : ln_m3n3k0 px py pz = Some [mk_arr 0 [px + 1; py + 1; pz + 1]].
Proof. unfold ln_m3n3k0. lns. Qed.
Lemma e_m3n3k1 px py pz : ln_m3n3k1 px py pz = Some [mk_arr 0 [px; py + 1; pz + 1]; mk_arr (px * (py + 1) * (pz + 1)) [px + 1; py; pz + 1]; mk_arr (px * (py + 1) * (pz + 1) + (px + 1) * py * (pz + 1)) [px + 1; py + 1; pz]].
Proof. unfold ln_m3n3k1. lns. Qed.
Lemma e_m3n3k2 px py pz : ln_m3n3k2 px py pz = Some [mk_arr 0 [px + 1; py; pz]; mk_arr ((px + 1) * py * pz) [px; py + 1; pz]; mk_arr ((px + 1) * py * pz + px * (py + 1) * pz) [px; py; pz + 1]].
Proof. unfold ln_m3n3k2. lns. Qed.
Lemma e_outer_tri px py : ln_m2n2k1_outer_tri px py = Some [mk_arr 0 [px; py]; mk_arr (px * py) [px; py + 1]].
Proof. unfold ln_m2n2k1_outer_tri. lns. Qed.
Lemma e_inner_tri px py : ln_m2n2k1_inner_tri px py = Some [mk_arr 0 [px; py + 1]; mk_arr (px * (py + 1)) [px; py]].
Proof. unfold ln_m2n2k1_inner_tri. lns. Qed.
Local Open Scope R_scope.

Lemma deg1 s : nodes_ok s -> (degree s + 1 = length s)%nat /\ (1 <= degree s)%nat.
Proof. intros [_ H]. unfold degree. lia. Qed.

(** one slice of one component *)
Lemma slice_face no_trace nd a axis sd : (axis < length (a_shape a))%nat -> (0 < nth axis (a_shape a) 0)%nat -> (a_base a + asize a <= nd)%nat ->
  (forall L, at_side (of_arr a) axis sd = Some L -> decides no_trace L) ->
  exists L, at_side (of_arr a) axis sd = Some L /\ face_dofs no_trace nd L.
Proof.
  intros Ha Hn Hd D. destruct (at_side_spec a axis sd Ha Hn) as (L & E & N & _ & _ & B). exists L. split; auto. apply face_dofs_intro; auto. intros r Hr. specialize (B r Hr). lia.
Qed.
Ltac sizes := unfold asize, nd_m1n1k0, nd_m2n2k0, nd_m2n2k1, nd_m3n3k0, nd_m3n3k1, nd_m3n3k2; cbn [a_base a_shape prodl fold_right length nth]; try lia; try nia.
Ltac is_b := first [left; reflexivity | right; reflexivity].
Ltac shp := cbn [a_shape fst]; repeat match goal with H : nodes_ok ?s |- _ => rewrite <- ?(proj1 (deg1 s H)); clear H end; reflexivity.

Section Two.
Variables sx sy : list R.
Hypothesis Hx : nodes_ok sx.
Hypothesis Hy : nodes_ok sy.
Notation px := (degree sx).
Notation py := (degree sy).
Lemma two_k0 axis sd : (axis < 2)%nat -> exists L, at_side (of_arr (mk_arr 0 [px + 1; py + 1]%nat)) axis sd = Some L /\ face_dofs (no_trace_2d_k0 sx sy axis sd) (nd_m2n2k0 px py) L.
Proof.
  intros H. destruct (deg1 sx Hx), (deg1 sy Hy). apply slice_face; [cbn; lia|destruct axis as [|[|]]; cbn; lia|sizes|]. intros L E x. unfold no_trace_2d_k0. rewrite e_m2n2k0. destruct axis as [|[|]]; [| |lia].
  - apply (trace2_x sx sy x _ 0 (mk_arr 0 [px + 1; py + 1]%nat) Hx Hy); [reflexivity|is_b|shp|exact E].
  - apply (trace2_y sx sy x _ 0 (mk_arr 0 [px + 1; py + 1]%nat) Hx Hy); [reflexivity|is_b|shp|exact E].
Qed.
Lemma two_outer axis sd : (axis < 2)%nat -> exists L, at_side (of_arr (match axis with 0%nat => mk_arr 0 [px + 1; py]%nat | _ => mk_arr ((px + 1) * py) [px; py + 1]%nat end)) axis sd = Some L /\ face_dofs (no_trace_2d_outer sx sy axis sd) (nd_m2n2k1 px py) L.
Proof.
  intros H. destruct (deg1 sx Hx), (deg1 sy Hy). destruct axis as [|[|]]; [| |lia]; (apply slice_face; [cbn; lia|cbn; lia|sizes|]); intros L E x; unfold no_trace_2d_outer; rewrite e_m2n2k1_outer.
  - apply (trace2_x sx sy x _ 0 (mk_arr 0 [px + 1; py]%nat) Hx Hy); [reflexivity|is_b|shp|exact E].
  - apply (trace2_y sx sy x _ 1 (mk_arr ((px + 1) * py) [px; py + 1]%nat) Hx Hy); [reflexivity|is_b|shp|exact E].
Qed.
Lemma two_inner axis sd : (axis < 2)%nat -> exists L, at_side (of_arr (match axis with 0%nat => mk_arr (px * (py + 1)) [px + 1; py]%nat | _ => mk_arr 0 [px; py + 1]%nat end)) axis sd = Some L /\ face_dofs (no_trace_2d_inner sx sy axis sd) (nd_m2n2k1 px py) L.
Proof.
  intros H. destruct (deg1 sx Hx), (deg1 sy Hy). destruct axis as [|[|]]; [| |lia]; (apply slice_face; [cbn; lia|cbn; lia|sizes|]); intros L E x; unfold no_trace_2d_inner; rewrite e_m2n2k1_inner.
  - apply (trace2_x sx sy x _ 1 (mk_arr (px * (py + 1)) [px + 1; py]%nat) Hx Hy); [reflexivity|is_b|shp|exact E].
  - apply (trace2_y sx sy x _ 0 (mk_arr 0 [px; py + 1]%nat) Hx Hy); [reflexivity|is_b|shp|exact E].
Qed.
End Two.

Section Three.
Variables sx sy sz : list R.
Hypothesis Hx : nodes_ok sx.
Hypothesis Hy : nodes_ok sy.
Hypothesis Hz : nodes_ok sz.
Notation px := (degree sx).
Notation py := (degree sy).
Notation pz := (degree sz).
Ltac three := destruct (deg1 sx Hx), (deg1 sy Hy), (deg1 sz Hz).
Lemma three_k0 axis sd : (axis < 3)%nat -> exists L, at_side (of_arr (mk_arr 0 [px + 1; py + 1; pz + 1]%nat)) axis sd = Some L /\ face_dofs (no_trace_3d_k0 sx sy sz axis sd) (nd_m3n3k0 px py pz) L.
Proof.
  intros H. three. apply slice_face; [cbn; lia|destruct axis as [|[|[|]]]; cbn; lia|sizes|]. intros L E x. unfold no_trace_3d_k0. rewrite e_m3n3k0. destruct axis as [|[|[|]]]; [| | |lia].
  - apply (trace3_x sx sy sz x _ 0 (mk_arr 0 [px + 1; py + 1; pz + 1]%nat) Hx Hy Hz); [reflexivity|is_b|is_b|shp|exact E].
  - apply (trace3_y sx sy sz x _ 0 (mk_arr 0 [px + 1; py + 1; pz + 1]%nat) Hx Hy Hz); [reflexivity|is_b|is_b|shp|exact E].
  - apply (trace3_z sx sy sz x _ 0 (mk_arr 0 [px + 1; py + 1; pz + 1]%nat) Hx Hy Hz); [reflexivity|is_b|is_b|shp|exact E].
Qed.
Notation A0 := (mk_arr 0 [px + 1; py; pz]%nat).
Notation A1 := (mk_arr ((px + 1) * py * pz) [px; py + 1; pz]%nat).
Notation A2 := (mk_arr ((px + 1) * py * pz + px * (py + 1) * pz) [px; py; pz + 1]%nat).
Lemma three_k2 axis sd : (axis < 3)%nat -> exists L, at_side (of_arr (match axis with 0%nat => A0 | 1%nat => A1 | _ => A2 end)) axis sd = Some L /\ face_dofs (no_trace_3d_k2 sx sy sz axis sd) (nd_m3n3k2 px py pz) L.
Proof.
  intros H. three. destruct axis as [|[|[|]]]; [| | |lia]; (apply slice_face; [cbn; lia|cbn; lia|sizes|]); intros L E x; unfold no_trace_3d_k2; rewrite e_m3n3k2.
  - apply (trace3_x sx sy sz x _ 0 A0 Hx Hy Hz); [reflexivity|is_b|is_b|shp|exact E].
  - apply (trace3_y sx sy sz x _ 1 A1 Hx Hy Hz); [reflexivity|is_b|is_b|shp|exact E].
  - apply (trace3_z sx sy sz x _ 2 A2 Hx Hy Hz); [reflexivity|is_b|is_b|shp|exact E].
Qed.
Notation B0 := (mk_arr 0 [px; py + 1; pz + 1]%nat).
Notation B1 := (mk_arr (px * (py + 1) * (pz + 1)) [px + 1; py; pz + 1]%nat).
Notation B2 := (mk_arr (px * (py + 1) * (pz + 1) + (px + 1) * py * (pz + 1)) [px + 1; py + 1; pz]%nat).
Lemma two_slices no_trace nd a b axis sd : (axis < length (a_shape a))%nat -> (0 < nth axis (a_shape a) 0)%nat -> (axis < length (a_shape b))%nat -> (0 < nth axis (a_shape b) 0)%nat ->
  (a_base a + asize a <= nd)%nat -> (a_base b + asize b <= nd)%nat -> (a_base a + asize a <= a_base b \/ a_base b + asize b <= a_base a)%nat ->
  (forall L M, at_side (of_arr a) axis sd = Some L -> at_side (of_arr b) axis sd = Some M -> forall x, no_trace x <-> (forall r, In r L -> x r = 0) /\ (forall r, In r M -> x r = 0)) ->
  exists L, (match at_side (of_arr a) axis sd, at_side (of_arr b) axis sd with Some a, Some b => Some (a ++ b) | _, _ => None end) = Some L /\ face_dofs no_trace nd L.
Proof.
  intros Ha Hn Hb Hm Hd He Hsep D. destruct (at_side_spec a axis sd Ha Hn) as (L & E & N & _ & _ & B). destruct (at_side_spec b axis sd Hb Hm) as (M & E' & N' & _ & _ & B').
  rewrite E, E'. exists (L ++ M). split; auto. apply face_dofs_intro.
  - intros x. rewrite (D L M E E' x). split; [intros [P Q] r Hr; apply in_app_iff in Hr; destruct Hr; auto|]. intros P. split; intros r Hr; apply P; apply in_app_iff; auto.
  - clear D Hx Hy Hz. revert N N' B B' Hsep. generalize (a_base a) (asize a) (a_base b) (asize b). clear. intros a0 a1 b0 b1 N N' B B' H. induction N as [|x L Hx N IH]; cbn; auto. constructor.
    + rewrite in_app_iff. intros [P|P]; [tauto|]. specialize (B' x P). specialize (B x (or_introl eq_refl)). lia.
    + apply IH. intros r Hr. apply B. now right.
  - intros r Hr. apply in_app_iff in Hr. destruct Hr as [Hr|Hr]; [specialize (B r Hr)|specialize (B' r Hr)]; lia.
Qed.
Lemma three_k1 axis sd : (axis < 3)%nat ->
  exists L, (let '(d0, d1) := match axis with 0%nat => (B1, B2) | 1%nat => (B2, B0) | _ => (B0, B1) end in
      match at_side (of_arr d0) axis sd, at_side (of_arr d1) axis sd with Some a, Some b => Some (a ++ b) | _, _ => None end) = Some L /\ face_dofs (no_trace_3d_k1 sx sy sz axis sd) (nd_m3n3k1 px py pz) L.
Proof.
  intros H. three. destruct axis as [|[|[|]]]; [| | |lia]; (apply two_slices; [cbn; lia|cbn; lia|cbn; lia|cbn; lia|sizes|sizes|sizes|]); intros L M E E' x; unfold no_trace_3d_k1; rewrite e_m3n3k1.
  - rewrite (trace3_x sx sy sz x _ 1 B1 Hx Hy Hz) by first [reflexivity|is_b|shp|exact E]. rewrite (trace3_x sx sy sz x _ 2 B2 Hx Hy Hz) by first [reflexivity|is_b|shp|exact E']. reflexivity.
  - rewrite (trace3_y sx sy sz x _ 2 B2 Hx Hy Hz) by first [reflexivity|is_b|shp|exact E]. rewrite (trace3_y sx sy sz x _ 0 B0 Hx Hy Hz) by first [reflexivity|is_b|shp|exact E']. reflexivity.
  - rewrite (trace3_z sx sy sz x _ 0 B0 Hx Hy Hz) by first [reflexivity|is_b|shp|exact E]. rewrite (trace3_z sx sy sz x _ 1 B1 Hx Hy Hz) by first [reflexivity|is_b|shp|exact E']. reflexivity.
Qed.
End Three.
