(** Each finder of face dofs: quadrilaterals, hexahedra, triangles. *)
From Coq Require Import List Arith Reals Lia Lra.
From Coquelicot Require Import Coquelicot.
From Verif Require Import NdArray LocalNumberingModel PolyModel PolySpec PolyProofs PolyCalc TensorModel TensorSpec TensorProofs TensorThms FaceModel FaceSpec FaceProofs FaceThms.
Import ListNotations.
Local Open Scope nat_scope.

(** * quadrilaterals and hexahedra *)
Lemma quad_place_eq f : f < 4 -> quad_place f = Some (face_axis f, face_side f) /\ face_axis f < 2.
Proof. intros H. do 4 (destruct f as [|f]; [now split; [reflexivity|cbn; lia]|]). lia. Qed.
Lemma face_place_eq f : f < 6 -> face_place f = Some (face_axis f, face_side f) /\ face_axis f < 3.
Proof. intros H. do 6 (destruct f as [|f]; [now split; [reflexivity|cbn; lia]|]). lia. Qed.
Lemma htt_m2n2k0_ok sx sy f : nodes_ok sx -> nodes_ok sy -> f < 4 -> exists l, htt_m2n2k0 (degree sx) (degree sy) f = Some l /\ face_dofs (no_trace_2d_k0 sx sy (face_axis f) (face_side f)) (nd_m2n2k0 (degree sx) (degree sy)) l.
Proof. intros Hx Hy H. destruct (quad_place_eq f H) as [E A]. unfold htt_m2n2k0. rewrite e_m2n2k0, E. now apply two_k0. Qed.
Lemma htt_m2n2k1_outer_ok sx sy f : nodes_ok sx -> nodes_ok sy -> f < 4 -> exists l, htt_m2n2k1_outer (degree sx) (degree sy) f = Some l /\ face_dofs (no_trace_2d_outer sx sy (face_axis f) (face_side f)) (nd_m2n2k1 (degree sx) (degree sy)) l.
Proof. intros Hx Hy H. destruct (quad_place_eq f H) as [E A]. unfold htt_m2n2k1_outer. rewrite e_m2n2k1_outer, E. now apply two_outer. Qed.
Lemma htt_m2n2k1_inner_ok sx sy f : nodes_ok sx -> nodes_ok sy -> f < 4 -> exists l, htt_m2n2k1_inner (degree sx) (degree sy) f = Some l /\ face_dofs (no_trace_2d_inner sx sy (face_axis f) (face_side f)) (nd_m2n2k1 (degree sx) (degree sy)) l.
Proof. intros Hx Hy H. destruct (quad_place_eq f H) as [E A]. unfold htt_m2n2k1_inner. rewrite e_m2n2k1_inner, E. now apply two_inner. Qed.
Lemma htt_m3n3k0_ok sx sy sz f : nodes_ok sx -> nodes_ok sy -> nodes_ok sz -> f < 6 -> exists l, htt_m3n3k0 (degree sx) (degree sy) (degree sz) f = Some l /\ face_dofs (no_trace_3d_k0 sx sy sz (face_axis f) (face_side f)) (nd_m3n3k0 (degree sx) (degree sy) (degree sz)) l.
Proof. intros Hx Hy Hz H. destruct (face_place_eq f H) as [E A]. unfold htt_m3n3k0. rewrite e_m3n3k0, E. now apply three_k0. Qed.
Lemma htt_m3n3k1_ok sx sy sz f : nodes_ok sx -> nodes_ok sy -> nodes_ok sz -> f < 6 -> exists l, htt_m3n3k1 (degree sx) (degree sy) (degree sz) f = Some l /\ face_dofs (no_trace_3d_k1 sx sy sz (face_axis f) (face_side f)) (nd_m3n3k1 (degree sx) (degree sy) (degree sz)) l.
Proof. intros Hx Hy Hz H. destruct (face_place_eq f H) as [E A]. unfold htt_m3n3k1. rewrite e_m3n3k1, E. now apply three_k1. Qed.
Lemma htt_m3n3k2_ok sx sy sz f : nodes_ok sx -> nodes_ok sy -> nodes_ok sz -> f < 6 -> exists l, htt_m3n3k2 (degree sx) (degree sy) (degree sz) f = Some l /\ face_dofs (no_trace_3d_k2 sx sy sz (face_axis f) (face_side f)) (nd_m3n3k2 (degree sx) (degree sy) (degree sz)) l.
Proof. intros Hx Hy Hz H. destruct (face_place_eq f H) as [E A]. unfold htt_m3n3k2. rewrite e_m3n3k2, E. now apply three_k2. Qed.

(** msepy *)
Lemma msepy_m2n2k0_same px py m n : m < 2 -> n < 2 -> msepy_m2n2k0 px py m n = htt_m2n2k0 px py (2 * m + n).
Proof. intros Hm Hn. unfold msepy_m2n2k0, htt_m2n2k0. rewrite e_m2n2k0. do 2 (destruct m as [|m]; [do 2 (destruct n as [|n]; [reflexivity|]); lia|]). lia. Qed.
Lemma msepy_m2n2k1_outer_same px py m n : m < 2 -> n < 2 -> msepy_m2n2k1_outer px py m n = htt_m2n2k1_outer px py (2 * m + n).
Proof. intros Hm Hn. unfold msepy_m2n2k1_outer, htt_m2n2k1_outer. rewrite e_m2n2k1_outer. do 2 (destruct m as [|m]; [do 2 (destruct n as [|n]; [reflexivity|]); lia|]). lia. Qed.
Lemma msepy_m2n2k1_inner_same px py m n : m < 2 -> n < 2 -> msepy_m2n2k1_inner px py m n = htt_m2n2k1_inner px py (2 * m + n).
Proof. intros Hm Hn. unfold msepy_m2n2k1_inner, htt_m2n2k1_inner. rewrite e_m2n2k1_inner. do 2 (destruct m as [|m]; [do 2 (destruct n as [|n]; [reflexivity|]); lia|]). lia. Qed.
Lemma msepy_m3n3k0_same px py pz m n : m < 3 -> n < 2 -> msepy_m3n3k0 px py pz m n = htt_m3n3k0 px py pz (2 * m + n).
Proof. intros Hm Hn. unfold msepy_m3n3k0, htt_m3n3k0. rewrite e_m3n3k0. do 3 (destruct m as [|m]; [do 2 (destruct n as [|n]; [reflexivity|]); lia|]). lia. Qed.
Lemma msepy_m3n3k2_same px py pz m n : m < 3 -> n < 2 -> msepy_m3n3k2 px py pz m n = htt_m3n3k2 px py pz (2 * m + n).
Proof. intros Hm Hn. unfold msepy_m3n3k2, htt_m3n3k2. rewrite e_m3n3k2. do 3 (destruct m as [|m]; [do 2 (destruct n as [|n]; [reflexivity|]); lia|]). lia. Qed.
Lemma face_mn m n : n < 2 -> face_axis (2 * m + n) = m /\ face_side (2 * m + n) = mn_side n.
Proof.
  intros H. unfold face_axis, face_side. destruct n as [|[|]]; [| |lia]; cbn [mn_side].
  - rewrite Nat.add_0_r, Nat.div2_double. split; auto. now rewrite Nat.even_mul.
  - replace (2 * m + 1) with (S (2 * m)) by lia. rewrite Nat.div2_succ_double. split; auto. rewrite Nat.even_succ, <- Nat.negb_even, Nat.even_mul. reflexivity.
Qed.
Lemma msepy_m1n1k0_ok s n : nodes_ok s -> n < 2 -> exists l, msepy_m1n1k0 (degree s) 0 n = Some l /\ face_dofs (no_trace_1d_k0 s (mn_side n)) (nd_m1n1k0 (degree s)) l.
Proof.
  intros Hs Hn. unfold msepy_m1n1k0. rewrite e_m1n1k0. unfold at_mn. replace (side_of n) with (Some (mn_side n)) by (destruct n as [|[|]]; [reflexivity|reflexivity|lia]).
  destruct (deg1 s Hs). apply slice_face; [cbn; lia|cbn; lia|sizes|]. intros L E x. unfold no_trace_1d_k0. rewrite e_m1n1k0. rewrite <- (slice_decides x [mk_arr 0 [degree s + 1]] 0 (mk_arr 0 [degree s + 1]) 0 (mn_side n) L); [|reflexivity|cbn; lia|cbn; lia|exact E]. cbn [a_shape nth remove insert].
  destruct (end_node s (mn_side n) Hs) as [Ee Hp]. rewrite Ee, form1_comb, nodal_values; [|apply Hs|exact Hp]. rewrite H. split; [intros Z ix [<-|[]]; exact Z|]. intros Z. apply (Z []). now left.
Qed.
Lemma mn_bad_side a axis n : 2 <= n -> at_mn a axis n = None.
Proof. intros H. unfold at_mn. destruct n as [|[|]]; [lia|lia|reflexivity]. Qed.

(** msepy, all together *)
Lemma msepy_m2n2k0_ok sx sy m n : nodes_ok sx -> nodes_ok sy -> m < 2 -> n < 2 -> exists l, msepy_m2n2k0 (degree sx) (degree sy) m n = Some l /\ face_dofs (no_trace_2d_k0 sx sy m (mn_side n)) (nd_m2n2k0 (degree sx) (degree sy)) l.
Proof. intros Hx Hy Hm Hn. rewrite msepy_m2n2k0_same by assumption. destruct (face_mn m n Hn) as [A B]. pose proof (htt_m2n2k0_ok sx sy (2 * m + n)) as P. rewrite A, B in P. apply P; auto; lia. Qed.
Lemma msepy_m2n2k1_outer_ok sx sy m n : nodes_ok sx -> nodes_ok sy -> m < 2 -> n < 2 -> exists l, msepy_m2n2k1_outer (degree sx) (degree sy) m n = Some l /\ face_dofs (no_trace_2d_outer sx sy m (mn_side n)) (nd_m2n2k1 (degree sx) (degree sy)) l.
Proof. intros Hx Hy Hm Hn. rewrite msepy_m2n2k1_outer_same by assumption. destruct (face_mn m n Hn) as [A B]. pose proof (htt_m2n2k1_outer_ok sx sy (2 * m + n)) as P. rewrite A, B in P. apply P; auto; lia. Qed.
Lemma msepy_m2n2k1_inner_ok sx sy m n : nodes_ok sx -> nodes_ok sy -> m < 2 -> n < 2 -> exists l, msepy_m2n2k1_inner (degree sx) (degree sy) m n = Some l /\ face_dofs (no_trace_2d_inner sx sy m (mn_side n)) (nd_m2n2k1 (degree sx) (degree sy)) l.
Proof. intros Hx Hy Hm Hn. rewrite msepy_m2n2k1_inner_same by assumption. destruct (face_mn m n Hn) as [A B]. pose proof (htt_m2n2k1_inner_ok sx sy (2 * m + n)) as P. rewrite A, B in P. apply P; auto; lia. Qed.
Lemma msepy_m3n3k0_ok sx sy sz m n : nodes_ok sx -> nodes_ok sy -> nodes_ok sz -> m < 3 -> n < 2 -> exists l, msepy_m3n3k0 (degree sx) (degree sy) (degree sz) m n = Some l /\ face_dofs (no_trace_3d_k0 sx sy sz m (mn_side n)) (nd_m3n3k0 (degree sx) (degree sy) (degree sz)) l.
Proof. intros Hx Hy Hz Hm Hn. rewrite msepy_m3n3k0_same by assumption. destruct (face_mn m n Hn) as [A B]. pose proof (htt_m3n3k0_ok sx sy sz (2 * m + n)) as P. rewrite A, B in P. apply P; auto; lia. Qed.
Lemma msepy_m3n3k2_ok sx sy sz m n : nodes_ok sx -> nodes_ok sy -> nodes_ok sz -> m < 3 -> n < 2 -> exists l, msepy_m3n3k2 (degree sx) (degree sy) (degree sz) m n = Some l /\ face_dofs (no_trace_3d_k2 sx sy sz m (mn_side n)) (nd_m3n3k2 (degree sx) (degree sy) (degree sz)) l.
Proof. intros Hx Hy Hz Hm Hn. rewrite msepy_m3n3k2_same by assumption. destruct (face_mn m n Hn) as [A B]. pose proof (htt_m3n3k2_ok sx sy sz (2 * m + n)) as P. rewrite A, B in P. apply P; auto; lia. Qed.
(** no other faces *)
Lemma no_face_2d px py f : 4 <= f -> htt_m2n2k0 px py f = None /\ htt_m2n2k1_outer px py f = None /\ htt_m2n2k1_inner px py f = None /\ htt_m2n2k1_outer_cw px py f = None /\ htt_m2n2k1_inner_cw px py f = None.
Proof.
  intros H. assert (E : quad_place f = None) by (do 6 (destruct f as [|f]; [lia || reflexivity|]); reflexivity). unfold htt_m2n2k0, htt_m2n2k1_outer, htt_m2n2k1_inner, htt_m2n2k1_outer_cw, htt_m2n2k1_inner_cw. rewrite E, e_m2n2k0, e_m2n2k1_outer, e_m2n2k1_inner. auto.
Qed.
Lemma no_face_3d px py pz f : 6 <= f -> htt_m3n3k0 px py pz f = None /\ htt_m3n3k1 px py pz f = None /\ htt_m3n3k2 px py pz f = None.
Proof.
  intros H. assert (E : face_place f = None) by (do 6 (destruct f as [|f]; [lia|]); reflexivity). unfold htt_m3n3k0, htt_m3n3k1, htt_m3n3k2. rewrite E, e_m3n3k0, e_m3n3k1, e_m3n3k2. auto.
Qed.
Lemma no_face_tri px py f : 3 <= f -> htt_m2n2k0_tri px py f = None /\ htt_m2n2k1_outer_tri px py f = None /\ htt_m2n2k1_inner_tri px py f = None /\ htt_m2n2k1_outer_tri_cw px py f = None /\ htt_m2n2k1_inner_tri_cw px py f = None.
Proof.
  intros H. assert (E : tri_place f = None) by (do 3 (destruct f as [|f]; [lia|]); reflexivity). unfold htt_m2n2k0_tri, htt_m2n2k1_outer_tri, htt_m2n2k1_inner_tri, htt_m2n2k1_outer_tri_cw, htt_m2n2k1_inner_tri_cw. rewrite E, e_outer_tri, e_inner_tri. auto.
Qed.

(** component wise *)
Lemma minus_base c l : (forall r, In r l -> c <= r) -> map (fun r => c + r) (map (fun r => r - c) l) = l.
Proof. intros H. rewrite map_map. rewrite <- (map_id l) at 2. apply map_ext_in. intros r Hr. specialize (H r Hr). lia. Qed.
Lemma cw_slice a axis sd c nd : axis < length (a_shape a) -> 0 < nth axis (a_shape a) 0 -> a_base a = c -> asize a = nd ->
  exists l, at_side (of_arr a) axis sd = Some l /\ within_component c nd l (map (fun r => r - c) l).
Proof.
  intros Ha Hn Hc Hs. destruct (at_side_spec a axis sd Ha Hn) as (L & E & _ & _ & _ & B). exists L. split; auto. split.
  - symmetry. apply minus_base. intros r Hr. specialize (B r Hr). lia.
  - intros r Hr. apply in_map_iff in Hr. destruct Hr as (q & <- & Hq). specialize (B q Hq). lia.
Qed.
Lemma cw0 l : map (fun r => r - 0) l = l.
Proof. rewrite <- (map_id l) at 2. apply map_ext. intros. lia. Qed.
Lemma max1 a : 0 < asize a -> max_plus_1 a = Some (a_base a + asize a).
Proof. unfold max_plus_1. destruct (asize a); [lia|auto]. Qed.
Lemma htt_m2n2k1_outer_cw_ok px py f : 1 <= px -> 1 <= py -> f < 4 -> exists l lc, htt_m2n2k1_outer px py f = Some l /\
  htt_m2n2k1_outer_cw px py f = Some (face_axis f, lc) /\ within_component (match face_axis f with 0 => 0 | _ => (px + 1) * py end) (match face_axis f with 0 => (px + 1) * py | _ => px * (py + 1) end) l lc.
Proof.
  intros Hx Hy H. destruct (quad_place_eq f H) as [E A]. unfold htt_m2n2k1_outer, htt_m2n2k1_outer_cw. rewrite e_m2n2k1_outer, E. destruct (face_axis f) as [|[|]]; [| |lia].
  - destruct (cw_slice (mk_arr 0 [px + 1; py]) 0 (face_side f) 0 ((px + 1) * py)) as (l & El & W); [cbn; lia|cbn; lia|reflexivity|sizes|]. rewrite cw0 in W. exists l, l. rewrite El. repeat split; auto; apply W.
  - destruct (cw_slice (mk_arr ((px + 1) * py) [px; py + 1]) 1 (face_side f) ((px + 1) * py) (px * (py + 1))) as (l & El & W); [cbn; lia|cbn; lia|reflexivity|sizes|]. exists l, (map (fun r => r - (px + 1) * py) l). rewrite El, max1 by (unfold asize; cbn; nia). cbn [a_base option_map minus_all]. split; auto. split; [|exact W]. f_equal. f_equal. apply map_ext. intros r. unfold asize. cbn [a_shape prodl]. lia.
Qed.
Lemma htt_m2n2k1_inner_cw_ok px py f : 1 <= px -> 1 <= py -> f < 4 -> exists l lc, htt_m2n2k1_inner px py f = Some l /\
  htt_m2n2k1_inner_cw px py f = Some (1 - face_axis f, lc) /\ within_component (match face_axis f with 0 => px * (py + 1) | _ => 0 end) (match face_axis f with 0 => (px + 1) * py | _ => px * (py + 1) end) l lc.
Proof.
  intros Hx Hy H. destruct (quad_place_eq f H) as [E A]. unfold htt_m2n2k1_inner, htt_m2n2k1_inner_cw. rewrite e_m2n2k1_inner, E. destruct (face_axis f) as [|[|]]; [| |lia].
  - destruct (cw_slice (mk_arr (px * (py + 1)) [px + 1; py]) 0 (face_side f) (px * (py + 1)) ((px + 1) * py)) as (l & El & W); [cbn; lia|cbn; lia|reflexivity|sizes|]. exists l, (map (fun r => r - px * (py + 1)) l). rewrite El, max1 by (unfold asize; cbn; nia). cbn [a_base option_map minus_all]. split; auto. split; [|exact W]. f_equal. f_equal. apply map_ext. intros r. unfold asize. cbn [a_shape prodl]. lia.
  - destruct (cw_slice (mk_arr 0 [px; py + 1]) 1 (face_side f) 0 (px * (py + 1))) as (l & El & W); [cbn; lia|cbn; lia|reflexivity|sizes|]. rewrite cw0 in W. exists l, l. rewrite El. repeat split; auto; apply W.
Qed.

(** the boundary 1-forms of a 2-D mesh: the four lists together are all numbers, each once *)
Lemma m2n1k1_split nWE nNS a b c d : msepy_m2n1k1_outer nWE nNS 0 0 = Some a -> msepy_m2n1k1_outer nWE nNS 0 1 = Some b -> msepy_m2n1k1_outer nWE nNS 1 0 = Some c -> msepy_m2n1k1_outer nWE nNS 1 1 = Some d ->
  a ++ b ++ c ++ d = seq 0 (2 * (nWE + nNS)) /\ length a = nNS /\ length b = nNS /\ length c = nWE /\ length d = nWE.
Proof.
  cbn [msepy_m2n1k1_outer]. intros A B C D. injection A as <-. injection B as <-. injection C as <-. injection D as <-. rewrite !seq_length. split; [|lia].
  replace (nNS * 2 - nNS) with nNS by lia. replace (nNS * 2 + nWE - nNS * 2) with nWE by lia. replace (nNS * 2 + nWE * 2 - (nNS * 2 + nWE)) with nWE by lia.
  rewrite <- (seq_app nWE nWE (nNS * 2)). replace (nNS * 2) with (nNS + nNS) at 1 by lia. rewrite <- (seq_app nNS (nWE + nWE) nNS). replace (2 * (nWE + nNS)) with (nNS + (nNS + (nWE + nWE))) by lia. now rewrite (seq_app nNS (nNS + (nWE + nWE)) 0).
Qed.

(** * triangles *)
Lemma NoDup_map_inj_seq {B} (g : nat -> B) n : (forall i j, i < n -> j < n -> g i = g j -> i = j) -> NoDup (map g (seq 0 n)).
Proof.
  intros H. assert (J : forall l, NoDup l -> (forall i, In i l -> i < n) -> NoDup (map g l)).
  { induction l as [|i l IH]; intros N L; cbn; constructor; inversion N; subst.
    - rewrite in_map_iff. intros (j & E & Hj). apply H in E; [subst; tauto|apply L; now right|apply L; now left].
    - apply IH; auto. intros; apply L; now right. }
  apply J; [apply seq_NoDup|]. intros i Hi. apply in_seq in Hi. lia.
Qed.
Lemma tri_place_eq f : f < 3 -> tri_place f = Some (tri_axis f, tri_side f).
Proof. intros H. do 3 (destruct f as [|f]; [reflexivity|]). lia. Qed.
Lemma tri_bounds f : tri_axis f < 2 /\ (tri_axis f = 0 -> tri_side f = High).
Proof. unfold tri_axis, tri_side. destruct f as [|[|]]; split; auto; discriminate. Qed.
Local Open Scope R_scope.
Lemma later_trace s n2 b2 c y : nodes_ok s -> T2 (degree s) (fun i => lagrange s (S i)) n2 b2 c (node s (degree s)) y = combine_basis n2 b2 (c (degree s - 1)%nat) y.
Proof.
  intros Hs. destruct (deg1 s Hs) as [D1 D2]. destruct Hs as [Hs Ls].
  pose proof (N_x s Hs n2 b2 (fun i j => match i with O => 0 | S i => c i j end) (degree s) y ltac:(unfold degree; lia)) as H.
  destruct (degree s) as [|p] eqn:Ep; [lia|]. cbn beta iota in H. replace (S p - 1)%nat with p by lia. etransitivity; [|exact H]. unfold T2. rewrite <- D1. replace (S p + 1)%nat with (S (S p)) by lia. rewrite (total_shift (S p)). rewrite (total_0 n2) by (intros; ring). ring.
Qed.
Section Tri.
Variables sx sy : list R.
Hypothesis Hx : nodes_ok sx.
Hypothesis Hy : nodes_ok sy.
Notation px := (degree sx).
Notation py := (degree sy).
Lemma later_x x l m a L : nth_error l m = Some a -> a_shape a = [px; py] -> at_side (of_arr a) 0 High = Some L ->
  (zero2 (form2 x (Some l) m (later_nodal sx) (edges sy)) sx sy 0 High <-> forall r, In r L -> x r = 0).
Proof.
  intros Hl Sh E. destruct (deg1 sx Hx) as [D1 D2]. rewrite <- (slice_decides x l m a 0 High L Hl); [|rewrite Sh; cbn; lia|rewrite Sh; cbn; lia|exact E]. rewrite Sh. cbn [nth remove insert pos]. destruct (end_node sx High Hx) as [Ee Hp].
  unfold zero2. rewrite Ee. cbn [pos]. replace (length sx - 1)%nat with px by lia.
  transitivity (forall j, (j < py)%nat -> rcoef x (Some l) m [px - 1; j]%nat = 0).
  - rewrite <- (comb_zero sy (edges sy) (fun j => rcoef x (Some l) m [px - 1; j]%nat) Hy (or_intror eq_refl)). cbn [fst snd]. split; intros H y Wy; specialize (H y Wy); unfold later_nodal in *; rewrite form2_T2, (later_trace sx) in *; auto.
  - split; [intros H ix Hix; apply in_indices_1 in Hix; destruct Hix as (j & -> & Hj); now apply H|]. intros H j Hj. apply (H [j]). apply in_indices_1. eauto.
Qed.
Lemma tri_outer_ok f : (f < 3)%nat -> exists l, htt_m2n2k1_outer_tri px py f = Some l /\ face_dofs (no_trace_tri_outer sx sy (tri_axis f) (tri_side f)) (px * py + px * (py + 1)) l.
Proof.
  intros H. unfold htt_m2n2k1_outer_tri. rewrite e_outer_tri, (tri_place_eq f H). destruct (deg1 sx Hx), (deg1 sy Hy), (tri_bounds f) as [A S]. destruct (tri_axis f) as [|[|]]; [| |lia]; (apply slice_face; [cbn; lia|cbn; lia|sizes|]); intros L E x; unfold no_trace_tri_outer; rewrite e_outer_tri.
  - rewrite (S eq_refl) in *. apply (later_x x _ 0 (mk_arr 0 [px; py]%nat)); [reflexivity|reflexivity|exact E].
  - apply (trace2_y sx sy x _ 1 (mk_arr (px * py) [px; py + 1]%nat) Hx Hy); [reflexivity|is_b|shp|exact E].
Qed.
Lemma tri_inner_ok f : (f < 3)%nat -> exists l, htt_m2n2k1_inner_tri px py f = Some l /\ face_dofs (no_trace_tri_inner sx sy (tri_axis f) (tri_side f)) (px * (py + 1) + px * py) l.
Proof.
  intros H. unfold htt_m2n2k1_inner_tri. rewrite e_inner_tri, (tri_place_eq f H). destruct (deg1 sx Hx), (deg1 sy Hy), (tri_bounds f) as [A S]. destruct (tri_axis f) as [|[|]]; [| |lia]; (apply slice_face; [cbn; lia|cbn; lia|sizes|]); intros L E x; unfold no_trace_tri_inner; rewrite e_inner_tri.
  - rewrite (S eq_refl) in *. apply (later_x x _ 1 (mk_arr (px * (py + 1)) [px; py]%nat)); [reflexivity|reflexivity|exact E].
  - apply (trace2_y sx sy x _ 0 (mk_arr 0 [px; py + 1]%nat) Hx Hy); [reflexivity|is_b|shp|exact E].
Qed.
(** 0-forms *)
Definition tnum (i j : nat) : nat := match i with O => 0 | S i => 1 + (i + px * j) end.
Lemma tri_num i j : (i < px + 1)%nat -> (j < py + 1)%nat -> ln_m2n2k0_tri px py [i; j] = Some (tnum i j).
Proof.
  intros Hi Hj. destruct i as [|i]; cbn [ln_m2n2k0_tri tnum].
  - destruct (Nat.ltb_spec j (py + 1)); [auto|lia].
  - cbn [ravelF]. destruct (Nat.ltb_spec i px); [|lia]. destruct (Nat.ltb_spec j (py + 1)); [|lia]. rewrite Nat.mul_0_r, Nat.add_0_r. reflexivity.
Qed.
Lemma tnum_lt i j : (i < px + 1)%nat -> (j < py + 1)%nat -> (tnum i j < 1 + px * (py + 1))%nat.
Proof. intros Hi Hj. destruct i as [|i]; cbn [tnum]; [lia|]. nia. Qed.
Lemma tri_k0_ok f : (f < 3)%nat -> exists l, htt_m2n2k0_tri px py f = Some l /\ face_dofs (no_trace_tri_k0 sx sy (tri_axis f) (tri_side f)) (1 + px * (py + 1)) l.
Proof.
  intros H. unfold htt_m2n2k0_tri. rewrite (tri_place_eq f H). destruct (deg1 sx Hx) as [X1 X2], (deg1 sy Hy) as [Y1 Y2], (tri_bounds f) as [A S].
  assert (T : forall x xi et, tri_form0 x sx sy xi et = T2 (length sx) (lagrange sx) (length sy) (lagrange sy) (fun i j => x (tnum i j)) xi et).
  { intros. unfold tri_form0, T2. apply total_ext. intros i Hi. apply total_ext. intros j Hj. rewrite tri_num by lia. reflexivity. }
  destruct (tri_axis f) as [|[|]]; [| |lia].
  - rewrite (S eq_refl). exists (map (fun j => tnum px j) (seq 0 (py + 1))). split.
    + unfold at_side. cbn [fst snd nth remove]. replace (px + 1)%nat with (Datatypes.S px) at 1 by lia. cbn [insert indices flat_map]. rewrite app_nil_r, map_map.
      assert (G : forall n l, (forall j, In j l -> (j < py + 1)%nat) -> n = px -> all_some (map (fun j => ln_m2n2k0_tri px py [n; j]) l) = Some (map (fun j => tnum px j) l)).
      { intros n l Hl ->. induction l as [|j l IH]; cbn [map all_some]; auto. rewrite tri_num by (try lia; apply Hl; now left). rewrite IH; auto. intros; apply Hl; now right. }
      apply G; auto. intros j Hj. apply in_seq in Hj. lia.
    + apply face_dofs_intro.
      * intros x. unfold no_trace_tri_k0, zero2. destruct (end_node sx High Hx) as [Ee Hp]. rewrite Ee. cbn [pos]. replace (length sx - 1)%nat with px by lia.
        transitivity (forall j, (j < py + 1)%nat -> x (tnum px j) = 0).
        -- rewrite Y1, <- (comb_zero sy (nodal sy) (fun j => x (tnum px j)) Hy (or_introl eq_refl)). cbn [fst snd]. split; intros Z y Wy; specialize (Z y Wy); rewrite T, (N_x sx) in *; auto; try apply Hx; try lia.
        -- split; [intros Z r Hr; apply in_map_iff in Hr; destruct Hr as (j & <- & Hj); apply in_seq in Hj; apply Z; lia|]. intros Z j Hj. apply Z. apply in_map. apply in_seq. lia.
      * apply NoDup_map_inj_seq. intros i j Hi Hj. unfold tnum. destruct px as [|p]; [lia|]. intros Eq. apply (Nat.mul_cancel_l i j (Datatypes.S p)); lia.
      * intros r Hr. apply in_map_iff in Hr. destruct Hr as (j & <- & Hj). apply in_seq in Hj. apply tnum_lt; lia.
  - set (J := pos (tri_side f) (length sy)). assert (HJ : (J < py + 1)%nat) by (unfold J, pos; destruct (tri_side f); lia).
    exists (map (fun i => tnum i J) (seq 0 (px + 1))). split.
    + unfold at_side. cbn [fst snd nth remove]. replace (py + 1)%nat with (Datatypes.S py) at 1 by lia. cbn [insert indices flat_map]. rewrite app_nil_r, map_map.
      assert (G : forall n l, (forall j, In j l -> (j < px + 1)%nat) -> n = J -> all_some (map (fun i => ln_m2n2k0_tri px py [i; n]) l) = Some (map (fun j => tnum j J) l)).
      { intros n l Hl ->. induction l as [|j l IH]; cbn [map all_some]; auto. rewrite tri_num by (try lia; apply Hl; now left). rewrite IH; auto. intros; apply Hl; now right. }
      apply G; [intros j Hj; apply in_seq in Hj; lia|]. unfold J, pos. destruct (tri_side f); lia.
    + apply face_dofs_intro.
      * intros x. unfold no_trace_tri_k0, zero2. destruct (end_node sy (tri_side f) Hy) as [Ee Hp]. rewrite Ee. fold J.
        transitivity (forall i, (i < px + 1)%nat -> x (tnum i J) = 0).
        -- rewrite X1, <- (comb_zero sx (nodal sx) (fun i => x (tnum i J)) Hx (or_introl eq_refl)). cbn [fst snd]. split; intros Z y Wy; specialize (Z y Wy); rewrite T, (N_y sy) in *; auto; try apply Hy; try lia.
        -- split; [intros Z r Hr; apply in_map_iff in Hr; destruct Hr as (j & <- & Hj); apply in_seq in Hj; apply Z; lia|]. intros Z j Hj. apply Z. apply (in_map (fun i => tnum i J)). apply in_seq. lia.
      * apply (NoDup_map_inj_seq (fun i => tnum i J)). intros i j Hi Hj. destruct i, j; cbn [tnum]; lia.
      * intros r Hr. apply in_map_iff in Hr. destruct Hr as (j & <- & Hj). apply in_seq in Hj. apply tnum_lt; lia.
Qed.
End Tri.
Local Open Scope nat_scope.
Lemma outer_tri_cw_ok px py f : 1 <= px -> 1 <= py -> f < 3 -> exists l lc, htt_m2n2k1_outer_tri px py f = Some l /\
  htt_m2n2k1_outer_tri_cw px py f = Some (tri_axis f, lc) /\ within_component (match tri_axis f with 0 => 0 | _ => px * py end) (match tri_axis f with 0 => px * py | _ => px * (py + 1) end) l lc.
Proof.
  intros Hx Hy H. unfold htt_m2n2k1_outer_tri, htt_m2n2k1_outer_tri_cw. rewrite e_outer_tri, (tri_place_eq f H). destruct (tri_bounds f) as [A _]. destruct (tri_axis f) as [|[|]]; [| |lia].
  - destruct (cw_slice (mk_arr 0 [px; py]) 0 (tri_side f) 0 (px * py)) as (l & El & W); [cbn; lia|cbn; lia|reflexivity|sizes|]. rewrite cw0 in W. exists l, l. rewrite El. repeat split; auto; apply W.
  - destruct (cw_slice (mk_arr (px * py) [px; py + 1]) 1 (tri_side f) (px * py) (px * (py + 1))) as (l & El & W); [cbn; lia|cbn; lia|reflexivity|sizes|]. exists l, (map (fun r => r - px * py) l). rewrite El, max1 by (unfold asize; cbn; nia). cbn [a_base option_map minus_all]. split; auto. split; [|exact W]. f_equal. f_equal. apply map_ext. intros r. unfold asize. cbn [a_shape prodl]. lia.
Qed.
Lemma inner_tri_cw_ok px py f : 1 <= px -> 1 <= py -> f < 3 -> exists l lc, htt_m2n2k1_inner_tri px py f = Some l /\
  htt_m2n2k1_inner_tri_cw px py f = Some (1 - tri_axis f, lc) /\ within_component (match tri_axis f with 0 => px * (py + 1) | _ => 0 end) (match tri_axis f with 0 => px * py | _ => px * (py + 1) end) l lc.
Proof.
  intros Hx Hy H. unfold htt_m2n2k1_inner_tri, htt_m2n2k1_inner_tri_cw. rewrite e_inner_tri, (tri_place_eq f H). destruct (tri_bounds f) as [A _]. destruct (tri_axis f) as [|[|]]; [| |lia].
  - destruct (cw_slice (mk_arr (px * (py + 1)) [px; py]) 0 (tri_side f) (px * (py + 1)) (px * py)) as (l & El & W); [cbn; lia|cbn; lia|reflexivity|sizes|]. exists l, (map (fun r => r - px * (py + 1)) l). rewrite El, max1 by (unfold asize; cbn; nia). cbn [a_base option_map minus_all]. split; auto. split; [|exact W]. f_equal. f_equal. apply map_ext. intros r. unfold asize. cbn [a_shape prodl]. lia.
  - destruct (cw_slice (mk_arr 0 [px; py + 1]) 1 (tri_side f) 0 (px * (py + 1))) as (l & El & W); [cbn; lia|cbn; lia|reflexivity|sizes|]. rewrite cw0 in W. exists l, l. rewrite El. repeat split; auto; apply W.
Qed.
