(** msepy finds the wrong dofs of 1-forms in 3-D. *)
From Coq Require Import List Arith Reals Lia Lra.
From Verif Require Import NdArray LocalNumberingModel PolyModel PolySpec TensorThms FaceModel FaceSpec FaceProofs FaceThms FaceThms2.
Import ListNotations.
Local Open Scope nat_scope.

Lemma at_side_range a axis sd L : axis < length (a_shape a) -> at_side (of_arr a) axis sd = Some L -> forall r, In r L -> a_base a <= r < a_base a + asize a.
Proof.
  intros Ha E. destruct (Nat.eq_dec (nth axis (a_shape a) 0) 0) as [Z|Z]; [rewrite (at_side_none _ _ _ Z) in E; discriminate|].
  destruct (at_side_spec a axis sd Ha) as (L' & E' & _ & _ & _ & B); [lia|]. rewrite E in E'. injection E' as <-. exact B.
Qed.
Lemma indices_ne sh : Forall (fun n => 0 < n) sh -> exists ix, In ix (indices sh).
Proof.
  induction 1 as [|n sh Hn F (ix & Hi)]; [exists []; now left|]. exists (0 :: ix). cbn. apply in_flat_map. exists ix. split; auto. apply in_map_iff. exists 0. split; auto. apply in_seq. lia.
Qed.
Lemma slice_nonempty a axis sd : axis < length (a_shape a) -> Forall (fun n => 0 < n) (a_shape a) -> exists L r, at_side (of_arr a) axis sd = Some L /\ In r L.
Proof.
  intros Ha F. destruct (at_side_spec a axis sd Ha) as (L & E & _ & M & G & _).
  { rewrite Forall_forall in F. apply F. apply nth_In. exact Ha. }
  destruct (indices_ne (remove axis (a_shape a))) as [ix Hi].
  { clear - F Ha. revert axis Ha. induction F as [|n sh Hn F IH]; intros [|axis] Ha; cbn in *; try lia; auto. constructor; auto. apply IH. lia. }
  destruct (G ix Hi) as [r Hr]. exists L, r. split; auto. apply M. eauto.
Qed.
Local Open Scope R_scope.
Lemma msepy_m3n3k1_wrong sx sy sz m n : nodes_ok sx -> nodes_ok sy -> nodes_ok sz -> (m < 3)%nat -> (n < 2)%nat ->
  exists l, msepy_m3n3k1 (degree sx) (degree sy) (degree sz) m n = Some l /\ ~ decides (no_trace_3d_k1 sx sy sz m (mn_side n)) l.
Proof.
  intros Hx Hy Hz Hm Hn. destruct (htt_m3n3k1_ok sx sy sz (2 * m + n) Hx Hy Hz) as (L & EL & D & _); [lia|]. destruct (face_mn m n Hn) as [Fa Fs]. rewrite Fa, Fs in D.
  destruct (deg1 sx Hx) as [_ X], (deg1 sy Hy) as [_ Y], (deg1 sz Hz) as [_ Z].
  assert (S : side_of n = Some (mn_side n)) by (destruct n as [|[|]]; [reflexivity|reflexivity|lia]).
  assert (G : exists l r, msepy_m3n3k1 (degree sx) (degree sy) (degree sz) m n = Some l /\ In r l /\ ~ In r L).
  { unfold msepy_m3n3k1. rewrite e_m3n3k1. unfold htt_m3n3k1 in EL. rewrite e_m3n3k1 in EL. destruct (face_place_eq (2 * m + n)) as [P _]; [lia|]. rewrite P, Fa, Fs in EL. unfold at_mn. rewrite S.
    destruct m as [|[|[|]]]; [| | |lia]; cbv beta iota in EL;
      match type of EL with context [match at_side (of_arr ?a) ?ax ?sd with _ => _ end] => destruct (at_side (of_arr a) ax sd) as [L1|] eqn:E1; [|discriminate] end;
      match type of EL with context [match at_side (of_arr ?a) ?ax ?sd with _ => _ end] => destruct (at_side (of_arr a) ax sd) as [L2|] eqn:E2; [|discriminate] end;
      injection EL as <-;
      match goal with |- exists l r, at_side (of_arr ?a) ?ax ?sd = _ /\ _ => destruct (slice_nonempty a ax sd) as (l & r & El & Hr); [cbn; lia|cbn; repeat constructor; lia|] end;
      exists l, r; (split; [exact El|split; [exact Hr|]]); intros Hin; apply in_app_iff in Hin;
      (apply at_side_range with (r := r) in El; [|cbn; lia|exact Hr]);
      (destruct Hin as [Hin|Hin]; [apply at_side_range with (r := r) in E1; [|cbn; lia|exact Hin]; unfold asize in *; cbn [a_base a_shape prodl] in *; lia|
                                   apply at_side_range with (r := r) in E2; [|cbn; lia|exact Hin]; unfold asize in *; cbn [a_base a_shape prodl] in *; lia]). }
  destruct G as (l & r & El & Hr & Hn'). exists l. split; [exact El|]. intros D'. assert (T : no_trace_3d_k1 sx sy sz m (mn_side n) (unit r)).
  { apply D. intros q Hq. unfold unit, kronecker. destruct (Nat.eqb_spec r q); [subst; tauto|reflexivity]. }
  apply (proj1 (D' _)) with (r := r) in T; [|exact Hr]. unfold unit, kronecker in T. rewrite Nat.eqb_refl in T. lra.
Qed.
