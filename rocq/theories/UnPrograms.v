(** Every element program of UnModel fills the places named in UnSpec. *)
From Coq Require Import Arith List Bool Lia.
From Verif Require Import NdArray LocalNumberingModel Dict GmModel GmProofs UnModel UnSpec UnProofs UnMesh UnSlices.
Import ListNotations.

Lemma vplaces_slot e m x s p : In (s, p) (vplaces e m x) -> In s (vslots x).
Proof.
  destruct x; simpl.
  - destruct (nth_error m a); [|intros []]. intros H. apply in_map_iff in H as (q & [= -> _] & H). exact H.
  - destruct (nth_error m a), (nth_error m b); try (intros []; fail). intros H. now apply in_combine_l in H.
  - destruct (corners m f); [|intros []]. intros H. now apply in_combine_l in H.
  - destruct (corners m f); [|intros []]. intros H. apply in_app_iff in H as [H|H]; apply in_combine_l in H; apply in_app_iff; auto.
  - intros H. apply in_map_iff in H as (q & [= -> _] & H). exact H.
Qed.
Lemma mk_elem_ok K e x pr :
  Forall (vok (k_turn K) (e_map x)) (p_visits pr) ->
  NoDup (flat_map vin (p_visits pr)) ->
  Forall (fun v => forall s p, In (s, p) (vplaces e (e_map x) v) -> p = k_place K e x s) (p_visits pr) ->
  (forall s, In s (p_out pr) -> Exists (fun v => In s (vslots v)) (p_visits pr)) ->
  Forall (fun v => forall s, In s (vslots v) -> exists s', In s' (p_out pr) /\ k_place K e x s' = k_place K e x s) (p_visits pr) ->
  (forall s d, k_dof K (e_type x) s = Some d -> exists s', nth_error (p_out pr) d = Some s' /\ k_place K e x s' = k_place K e x s) ->
  (forall d s', nth_error (p_out pr) d = Some s' -> exists s, k_dof K (e_type x) s = Some d /\ k_place K e x s = k_place K e x s') ->
  elem_ok K e x pr.
Proof.
  intros Hv Hi Hs Hc Ho Hd Hd'. split; auto.
  - intros s p H. unfold places_of in H. apply in_flat_map in H as (v & Hin & H). rewrite Forall_forall in Hs. eauto.
  - intros s H. apply Hc in H. apply Exists_exists in H as (v & Hin & H). rewrite Forall_forall in Hv.
    destruct (vplaces_cover _ e _ _ _ (Hv _ Hin) H) as [p Hp]. exists p. apply in_flat_map. eauto.
  - intros s p H. unfold places_of in H. apply in_flat_map in H as (v & Hin & H). rewrite Forall_forall in Ho. eapply Ho; eauto.
    eapply vplaces_slot; eauto.
Qed.
(** rows in the order of the local numbering *)
Lemma mk_elem_outs K e x pr shs :
  p_out pr = outs 0 shs -> (forall s, k_dof K (e_type x) s = in_arrays (Some (arrs 0 shs)) s) ->
  Forall (vok (k_turn K) (e_map x)) (p_visits pr) ->
  NoDup (flat_map vin (p_visits pr)) ->
  Forall (fun v => forall s p, In (s, p) (vplaces e (e_map x) v) -> p = k_place K e x s) (p_visits pr) ->
  (forall s, In s (p_out pr) -> Exists (fun v => In s (vslots v)) (p_visits pr)) ->
  Forall (fun v => forall s, In s (vslots v) -> In s (p_out pr)) (p_visits pr) ->
  elem_ok K e x pr.
Proof.
  intros Ho Hd Hv Hi Hs Hc Hon. apply mk_elem_ok; auto.
  - eapply Forall_impl; [|exact Hon]. cbv beta. intros v H s Hin. exists s. auto.
  - intros s d H. exists s. split; auto. rewrite Ho. rewrite Hd in H. now apply in_arrays_outs.
  - intros d s H. exists s. split; auto. rewrite Hd. apply in_arrays_outs. now rewrite <- Ho.
Qed.
Lemma nth_ok (m : list nat) a : a < length m -> nth_error m a = Some (nth a m 0).
Proof. apply nth_error_nth'. Qed.
Lemma corners_ok m f : Forall (fun i => i < length m) f -> corners m f = Some (map (fun i => nth i m 0) f).
Proof. unfold corners. induction 1 as [|i f Hi Hf IH]; auto. cbn [obind map]. now rewrite (nth_ok _ _ Hi), IH. Qed.

Lemma ar_eq a b sh : a + prodl sh = b -> arange_reshape a b sh = Some (mk_arr a sh).
Proof. intros <-. now apply arange_reshape_ok. Qed.

Ltac flist := repeat apply Forall_cons; try apply Forall_nil.
Ltac arrs_eq := cbn [tuple_of arrs prodl]; rewrite ?Nat.mul_1_r, ?Nat.mul_assoc, ?Nat.add_0_l; reflexivity.
Ltac list_lia := repeat lazymatch goal with |- _ :: _ = _ :: _ => apply (f_equal2 cons) | |- [] = [] => reflexivity end; lia.
Ltac dims_tac := unfold sl; cbn [s_dims combine flat_map ax_dim ax_list fst snd app]; rewrite ?seq_length; list_lia.
Ltac slice_tac :=
  split; [dims_tac|split; [|discriminate]]; rewrite sl_length by reflexivity; f_equal; dims_tac.
Ltac vok_tac :=
  cbn [vok];
  lazymatch goal with
  | |- slice_ok _ _ => slice_tac
  | |- (exists c, nth_error _ _ = Some c) /\ _ =>
      split; [eexists; apply nth_ok; lia|split; [now rewrite sl_length by reflexivity|]];
      first [ discriminate
            | apply (f_equal (@length _)) || idtac; intros Hsl; apply (f_equal (@length _)) in Hsl; revert Hsl;
              rewrite sl_length by reflexivity; unfold sl; cbn [s_dims combine flat_map ax_dim ax_list fst snd app prodl fold_right length];
              rewrite ?seq_length; lia ]
  | |- _ = _ /\ _ => split; [reflexivity|split; [eexists; apply nth_ok; lia|split; [eexists; apply nth_ok; lia|slice_tac]]]
  | |- (exists k, corners _ _ = Some k) /\ _ =>
      split; [eexists; apply corners_ok; flist; lia|split; [reflexivity|]];
      first [slice_tac | split; slice_tac]
  end.
Ltac places_tac :=
  intros s p Hsp;
  lazymatch type of Hsp with
  | In _ (vplaces _ ?m (VPair ?f _ _ _ _)) =>
      eapply vplaces_pair in Hsp; [|apply corners_ok; flist; lia|reflexivity|dims_tac|reflexivity|dims_tac];
      destruct Hsp as [(i & j & Hi & Hj & -> & ->)|(i & j & Hi & Hj & -> & ->)]
  | In _ (vplaces _ ?m (VFace ?f _ _)) =>
      eapply vplaces_face in Hsp; [|apply corners_ok; flist; lia|reflexivity|dims_tac];
      destruct Hsp as (i & j & Hi & Hj & -> & ->)
  | In _ (vplaces _ ?m (VEdge _ ?a ?b _ _)) =>
      eapply vplaces_edge in Hsp; [|apply nth_ok; lia|apply nth_ok; lia|reflexivity|dims_tac];
      destruct Hsp as (r & Hr & -> & ->)
  | In _ (vplaces _ ?m (VNode _ _)) =>
      cbn [vplaces] in Hsp; rewrite nth_ok in Hsp by lia; apply in_map_iff in Hsp as (s' & [= <- <-] & Hsp);
      first [apply in_sl2 in Hsp as (i & j & -> & Hi & Hj) | apply in_sl3 in Hsp as (i & j & k & -> & Hi & Hj & Hk)]
  | _ => 
      cbn [vplaces] in Hsp; apply in_map_iff in Hsp as (s' & [= <- <-] & Hsp);
      first [apply in_sl2 in Hsp as (i & j & -> & Hi & Hj) | apply in_sl3 in Hsp as (i & j & k & -> & Hi & Hj & Hk)]
  end.
Ltac side_tac :=
  repeat match goal with
  | |- context [side_of ?i ?n] =>
      first [ rewrite (side_mid i n) by lia
            | replace i with 0 by lia; rewrite (side_lo n)
            | replace i with n by lia; rewrite (side_hi n) by lia ]
  end.


Ltac in_sl_tac H := first [apply in_sl2 in H as (i & j & -> & Hi & Hj) | apply in_sl3 in H as (i & j & k & -> & Hi & Hj & Hk)].
Ltac nodup_tac :=
  cbn [flat_map vin]; rewrite ?app_nil_r; cbn [app];
  repeat (apply NoDup_app_intro; [apply sl_NoDup| |
    let s := fresh "s" in let Ha := fresh in let Hb := fresh in
    intros s Ha Hb; rewrite ?in_app_iff in Hb;
    first [apply in_sl2 in Ha as (? & ? & -> & _) | apply in_sl3 in Ha as (? & ? & ? & -> & _)];
    repeat destruct Hb as [Hb|Hb];
    first [apply in_sl2 in Hb as (? & ? & [=] & _) | apply in_sl3 in Hb as (? & ? & ? & [=] & _)] ]);
  apply sl_NoDup.
Ltac find_visit wit :=
  repeat first [apply Exists_cons_hd; cbn [vslots]; rewrite ?in_app_iff; solve [wit ()] | apply Exists_cons_tl].
Ltac out_tac2 :=
  intros s Hs; cbn [vslots] in Hs; apply in_sl2 in Hs as (i & j & -> & Hi & Hj); cbn [in_ax] in *;
  rewrite ?in_app_iff; repeat match goal with |- In _ (whole _ _) \/ _ => first [left; apply whole2; exists i, j; repeat split; lia|right] end;
  apply whole2; exists i, j; repeat split; lia.

Section Plane.
  Context (px py : nat) (Hx : 1 <= px) (Hy : 1 <= py) (e : nat) (m : list nat) (b : bool).
  Notation el t := {| e_type := t; e_map := m; e_in := b |}.
  Ltac cases2 i j :=
    assert (i = 0 \/ i = px \/ 1 <= i < px) as Ci by lia; assert (j = 0 \/ j = py \/ 1 <= j < py) as Cj by lia;
    destruct Ci as [Ci|[Ci|Ci]], Cj as [Cj|[Cj|Cj]].
  Ltac wit2 i j := apply in_sl2; exists i, j; cbn [in_ax]; repeat split; lia.

  Lemma dof_quad0 t : is_quad t = true -> forall s, k_dof (K0 px py) t s = in_arrays (Some (arrs 0 [[px + 1; py + 1]])) s.
  Proof.
    intros Ht s. cbn [k_dof K0]. unfold dof0. assert (is_tri t = false) as -> by (destruct t; auto; discriminate).
    f_equal. unfold ln_m2n2k0. now rewrite (ar_eq 0) by (simpl; lia).
  Qed.
  Ltac place0 := cbn [embed at0]; unfold node_place; cbn [e_type e_map in_ax] in *.
  Lemma quad0_ok t : t = EMsepyQuad \/ t = ERect -> 4 <= length m -> elem_ok (K0 px py) e (el t) (quad0 px py).
  Proof.
    intros Ht Hm. apply mk_elem_outs with (shs := [[px + 1; py + 1]]).
    - cbn [outs]. now rewrite app_nil_r.
    - apply dof_quad0. destruct Ht as [-> | ->]; reflexivity.
    - cbn [p_visits quad0 k_turn K0 e_map]. flist; vok_tac.
    - cbn [p_visits quad0]. nodup_tac.
    - cbn [p_visits quad0 e_map k_place K0]. flist; places_tac; place0; side_tac; destruct Ht as [-> | ->]; cbn [is_tri corner2]; try reflexivity; f_equal; lia.
    - intros s Hs. unfold quad0 in Hs. cbn [p_out] in Hs. apply whole2 in Hs as (i & j & -> & Hi & Hj). cbn [p_visits quad0].
      cases2 i j; find_visit ltac:(fun _ => wit2 i j).
    - cbn [p_visits quad0 p_out]. flist; out_tac2.
  Qed.
  Lemma quad9_0_ok t : t = E9 \/ t = ECurvQuad -> 4 <= length m -> elem_ok (K0 px py) e (el t) (quad9_0 px py).
  Proof.
    intros Ht Hm. apply mk_elem_outs with (shs := [[px + 1; py + 1]]).
    - cbn [outs]. now rewrite app_nil_r.
    - apply dof_quad0. destruct Ht as [-> | ->]; reflexivity.
    - cbn [p_visits quad9_0 k_turn K0 e_map]. flist; vok_tac.
    - cbn [p_visits quad9_0]. nodup_tac.
    - cbn [p_visits quad9_0 e_map k_place K0]. flist; places_tac; place0; side_tac; destruct Ht as [-> | ->]; cbn [is_tri corner2]; try reflexivity; f_equal; lia.
    - intros s Hs. unfold quad9_0 in Hs. cbn [p_out] in Hs. apply whole2 in Hs as (i & j & -> & Hi & Hj). cbn [p_visits quad9_0].
      cases2 i j; find_visit ltac:(fun _ => wit2 i j).
    - cbn [p_visits quad9_0 p_out]. flist; out_tac2.
  Qed.
  Definition up (ix : list nat) : list nat := match ix with i :: r => S i :: r | [] => [] end.
  Lemma tri_cart n k : cart [seq 1 n; seq 0 k] = map up (indices [n; k]).
  Proof.
    cbn [cart indices flat_map]. rewrite map_flat_map. apply flat_map_ext. intros ix. rewrite map_map, <- seq_shift, map_map. reflexivity.
  Qed.
  Lemma in_tri_out s : In s (p_out (tri0 px py)) <-> s = [0; 0; 0] \/ exists i j, s = [0; i; j] /\ 1 <= i <= px /\ j <= py.
  Proof.
    unfold tri0. cbn [p_out In]. rewrite tri_cart, map_map, in_map_iff. split.
    - intros [<-|(ix & <- & H)]; auto. apply in_indices2 in H as (i & j & -> & Hi & Hj). right. exists (S i), j. cbn [up]. repeat split; lia.
    - intros [->|(i & j & -> & Hi & Hj)]; auto. right. exists [i - 1; j]. split; [cbn [up]; repeat f_equal; lia|]. apply in_indices2. exists (i - 1), j. repeat split; lia.
  Qed.
  Lemma tri0_ok t : is_tri t = true -> 3 <= length m -> elem_ok (K0 px py) e (el t) (tri0 px py).
  Proof.
    intros Ht Hm.
    assert (forall j, j <= py -> at0 px py e (el t) [0; 0; j] = PVertex (nth 0 m 0)) as Happex.
    { intros j Hj. place0. rewrite Ht. side_tac. assert (j = 0 \/ j = py \/ 1 <= j < py) as [C|[C|C]] by lia; side_tac; destruct t; try discriminate; reflexivity. }
    apply mk_elem_ok.
    - cbn [p_visits tri0 k_turn K0 e_map]. flist; vok_tac.
    - cbn [p_visits tri0]. nodup_tac.
    - cbn [p_visits tri0 e_map k_place K0]. flist; places_tac;
        [rewrite (proj1 (conj (Hi : i = 0) I)); symmetry; apply Happex; cbn [in_ax] in Hj; lia|..];
        place0; side_tac; destruct t; try discriminate; cbn [is_tri corner2]; try reflexivity; f_equal; lia.
    - intros s Hs. apply in_tri_out in Hs. cbn [p_visits tri0].
      destruct Hs as [->|(i & j & -> & Hi & Hj)]; [find_visit ltac:(fun _ => wit2 0 0)|].
      cases2 i j; find_visit ltac:(fun _ => wit2 i j).
    - cbn [p_visits tri0 k_place K0]. flist; intros s Hs; cbn [vslots] in Hs; apply in_sl2 in Hs as (i & j & -> & Hi & Hj); cbn [in_ax] in *;
        try (exists [0; i; j]; split; auto; apply in_tri_out; right; exists i, j; repeat split; lia).
      exists [0; 0; 0]. subst i. split; [apply in_tri_out; auto|]. now rewrite !Happex by lia.
    - cbn [k_dof K0 k_place e_type]. intros s d. unfold dof0. rewrite Ht. destruct s as [|[|] ix]; try discriminate. unfold ln_m2n2k0_tri.
      destruct ix as [|[|i] [|j [|]]]; try discriminate.
      + destruct (j <? py + 1) eqn:E; [|discriminate]. intros [= <-]. exists [0; 0; 0]. split; auto. apply Nat.ltb_lt in E. now rewrite !Happex by lia.
      + destruct (ravelF [px; py + 1] [i; j]) as [r|] eqn:E; [|discriminate]. intros [= <-]. exists [0; S i; j]. split; auto.
        unfold tri0. cbn [p_out nth_error Nat.add]. rewrite tri_cart, map_map, nth_error_map. apply ravelF_nth in E. now rewrite E.
    - cbn [k_dof K0 k_place e_type]. intros d s H. exists s. split; auto. unfold dof0. rewrite Ht. unfold tri0 in H. cbn [p_out] in H.
      destruct d as [|d]; cbn [nth_error] in H.
      + injection H as <-. unfold ln_m2n2k0_tri. destruct (0 <? py + 1) eqn:E; auto. apply Nat.ltb_ge in E. lia.
      + rewrite tri_cart, map_map, nth_error_map in H. destruct (nth_error (indices [px; py + 1]) d) as [ix|] eqn:E; [|discriminate].
        cbn [option_map] in H. injection H as <-. pose proof (nth_error_In _ _ E) as Hin. apply in_indices2 in Hin as (i & j & -> & _). cbn [up].
        unfold ln_m2n2k0_tri. apply ravelF_nth in E. now rewrite E.
  Qed.

  Lemma quad_not_tri t : is_quad t = true -> is_tri t = false.
  Proof. destruct t; auto; discriminate. Qed.
  Ltac dof1 := intros s; cbn [k_dof K1o K1i K2]; unfold dof1o, dof1i;
    try match goal with H : is_quad _ = true |- _ => cbn [e_type]; rewrite (quad_not_tri _ H) end;
    f_equal; unfold ln_m2n2k1_outer, ln_m2n2k1_inner, ln_m2n2k1_outer_tri, ln_m2n2k1_inner_tri, ln_m2n2k2; cbv zeta;
    rewrite !ar_eq by (simpl; nia); arrs_eq.
  Ltac place1 := cbn [embed at1o at1i]; unfold dx_place, dy_place; cbn [e_type e_map in_ax] in *.
  Ltac cover1 := intros s Hs; cbn [p_out] in Hs; apply in_app_iff in Hs as [Hs|Hs]; apply whole2 in Hs as (i & j & -> & Hi & Hj).
  Lemma quad1o_ok t : t = EMsepyQuad \/ t = ERect -> 4 <= length m -> elem_ok (K1o px py) e (el t) (quad1o px py).
  Proof.
    intros Ht Hm. apply mk_elem_outs with (shs := [[px + 1; py]; [px; py + 1]]).
    - cbn [outs]. now rewrite app_nil_r.
    - assert (is_quad t = true) as Hq by (destruct Ht as [-> | ->]; reflexivity). dof1.
    - cbn [p_visits quad1o k_turn K1o e_map]. flist; vok_tac.
    - cbn [p_visits quad1o]. nodup_tac.
    - cbn [p_visits quad1o e_map k_place K1o]. flist; places_tac; place1; destruct Ht as [-> | ->]; cbn [is_tri corner2]; side_tac; try reflexivity; f_equal; lia.
    - unfold quad1o. cover1; cbn [p_visits]; cases2 i j; find_visit ltac:(fun _ => wit2 i j).
    - cbn [p_visits quad1o p_out]. flist; out_tac2.
  Qed.
  Lemma quad9_1o_ok t : t = E9 \/ t = ECurvQuad -> 4 <= length m -> elem_ok (K1o px py) e (el t) (quad9_1o px py).
  Proof.
    intros Ht Hm. apply mk_elem_outs with (shs := [[px + 1; py]; [px; py + 1]]).
    - cbn [outs]. now rewrite app_nil_r.
    - assert (is_quad t = true) as Hq by (destruct Ht as [-> | ->]; reflexivity). dof1.
    - cbn [p_visits quad9_1o k_turn K1o e_map]. flist; vok_tac.
    - cbn [p_visits quad9_1o]. nodup_tac.
    - cbn [p_visits quad9_1o e_map k_place K1o]. flist; places_tac; place1; destruct Ht as [-> | ->]; cbn [is_tri corner2]; side_tac; try reflexivity; f_equal; lia.
    - unfold quad9_1o. cover1; cbn [p_visits]; cases2 i j; find_visit ltac:(fun _ => wit2 i j).
    - cbn [p_visits quad9_1o p_out]. flist; out_tac2.
  Qed.
  Lemma quad1i_ok t : t = EMsepyQuad \/ t = ERect -> 4 <= length m -> elem_ok (K1i px py) e (el t) (quad1i px py).
  Proof.
    intros Ht Hm. apply mk_elem_outs with (shs := [[px; py + 1]; [px + 1; py]]).
    - cbn [outs]. now rewrite app_nil_r.
    - assert (is_quad t = true) as Hq by (destruct Ht as [-> | ->]; reflexivity). dof1.
    - cbn [p_visits quad1i k_turn K1i e_map]. flist; vok_tac.
    - cbn [p_visits quad1i]. nodup_tac.
    - cbn [p_visits quad1i e_map k_place K1i]. flist; places_tac; place1; destruct Ht as [-> | ->]; cbn [is_tri corner2]; side_tac; try reflexivity; f_equal; lia.
    - unfold quad1i. cover1; cbn [p_visits]; cases2 i j; find_visit ltac:(fun _ => wit2 i j).
    - cbn [p_visits quad1i p_out]. flist; out_tac2.
  Qed.
  Lemma quad9_1i_ok t : t = E9 \/ t = ECurvQuad -> 4 <= length m -> elem_ok (K1i px py) e (el t) (quad9_1i px py).
  Proof.
    intros Ht Hm. apply mk_elem_outs with (shs := [[px; py + 1]; [px + 1; py]]).
    - cbn [outs]. now rewrite app_nil_r.
    - assert (is_quad t = true) as Hq by (destruct Ht as [-> | ->]; reflexivity). dof1.
    - cbn [p_visits quad9_1i k_turn K1i e_map]. flist; vok_tac.
    - cbn [p_visits quad9_1i]. nodup_tac.
    - cbn [p_visits quad9_1i e_map k_place K1i]. flist; places_tac; place1; destruct Ht as [-> | ->]; cbn [is_tri corner2]; side_tac; try reflexivity; f_equal; lia.
    - unfold quad9_1i. cover1; cbn [p_visits]; cases2 i j; find_visit ltac:(fun _ => wit2 i j).
    - cbn [p_visits quad9_1i p_out]. flist; out_tac2.
  Qed.
  Ltac cases_t i j :=
    assert (i = px - 1 \/ i < px - 1) as Ci by lia; assert (j = 0 \/ j = py \/ 1 <= j < py) as Cj by lia;
    destruct Ci as [Ci|Ci], Cj as [Cj|[Cj|Cj]].
  Lemma tri1o_ok t : is_tri t = true -> 3 <= length m -> elem_ok (K1o px py) e (el t) (tri1o px py).
  Proof.
    intros Ht Hm. apply mk_elem_outs with (shs := [[px; py]; [px; py + 1]]).
    - cbn [outs]. now rewrite app_nil_r.
    - cbn [e_type]. intros s. cbn [k_dof K1o]. unfold dof1o. rewrite Ht. revert s. dof1.
    - cbn [p_visits tri1o k_turn K1o e_map]. flist; vok_tac.
    - cbn [p_visits tri1o]. nodup_tac.
    - cbn [p_visits tri1o e_map k_place K1o]. flist; places_tac; place1; rewrite ?Ht; side_tac; destruct t; try discriminate; cbn [corner2]; try reflexivity; f_equal; lia.
    - unfold tri1o. cover1; cbn [p_visits]; cases_t i j; find_visit ltac:(fun _ => wit2 i j).
    - cbn [p_visits tri1o p_out]. flist; out_tac2.
  Qed.
  Lemma tri1i_ok t : is_tri t = true -> 3 <= length m -> elem_ok (K1i px py) e (el t) (tri1i px py).
  Proof.
    intros Ht Hm. apply mk_elem_outs with (shs := [[px; py + 1]; [px; py]]).
    - cbn [outs]. now rewrite app_nil_r.
    - cbn [e_type]. intros s. cbn [k_dof K1i]. unfold dof1i. rewrite Ht. revert s. dof1.
    - cbn [p_visits tri1i k_turn K1i e_map]. flist; vok_tac.
    - cbn [p_visits tri1i]. nodup_tac.
    - cbn [p_visits tri1i e_map k_place K1i]. flist; places_tac; place1; rewrite ?Ht; side_tac; destruct t; try discriminate; cbn [corner2]; try reflexivity; f_equal; lia.
    - unfold tri1i. cover1; cbn [p_visits]; cases_t i j; find_visit ltac:(fun _ => wit2 i j).
    - cbn [p_visits tri1i p_out]. flist; out_tac2.
  Qed.
  Lemma quad2_ok t : elem_ok (K2 px py) e (el t) (quad2 px py).
  Proof.
    apply mk_elem_outs with (shs := [[px; py]]).
    - cbn [outs]. now rewrite app_nil_r.
    - intros s. cbn [k_dof K2]. f_equal. unfold ln_m2n2k2. now rewrite (ar_eq 0) by (simpl; lia).
    - cbn [p_visits quad2 k_turn K2 e_map]. flist; vok_tac.
    - cbn [p_visits quad2]. nodup_tac.
    - cbn [p_visits quad2 e_map k_place K2]. flist; places_tac; reflexivity.
    - intros s Hs. unfold quad2 in Hs. cbn [p_out] in Hs. apply whole2 in Hs as (i & j & -> & Hi & Hj). cbn [p_visits quad2].
      find_visit ltac:(fun _ => wit2 i j).
    - cbn [p_visits quad2 p_out]. flist; out_tac2.
  Qed.
End Plane.
