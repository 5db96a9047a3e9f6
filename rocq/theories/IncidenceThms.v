From Coq Require Import ZArith List Arith Lia Bool.
From Verif Require Import NdArray LocalNumberingModel IncidenceModel Sums IncidenceSpec IncidenceProofs.
Import ListNotations.

(** * explicit form of the numberings *)
Ltac ln_some := cbv zeta; unfold tuple_of; rewrite ?Nat.add_0_l;
  repeat (rewrite arange_reshape_ok by (simpl; lia)); try reflexivity.

Lemma ar0 n sh : prodl sh = n -> arange_reshape 0 n sh = Some (mk_arr 0 sh).
Proof. intros H. rewrite <- (arange_reshape_ok 0 n sh H). reflexivity. Qed.
Lemma ar_ok2 a b sh : a + prodl sh = b -> arange_reshape a b sh = Some (mk_arr a sh).
Proof. intros <-. now apply arange_reshape_ok. Qed.

Lemma ln_m1n1k0_eq p : ln_m1n1k0 p = Some [mk_arr 0 [p+1]].
Proof. unfold ln_m1n1k0. rewrite ar0 by (simpl; lia). reflexivity. Qed.
Lemma ln_m1n1k1_eq p : ln_m1n1k1 p = Some [mk_arr 0 [p]].
Proof. unfold ln_m1n1k1. rewrite ar0 by (simpl; lia). reflexivity. Qed.
Lemma ln_m2n2k0_eq px py : ln_m2n2k0 px py = Some [mk_arr 0 [px+1; py+1]].
Proof. unfold ln_m2n2k0. rewrite ar0 by (simpl; lia). reflexivity. Qed.
Lemma ln_m2n2k1_outer_eq px py :
  ln_m2n2k1_outer px py = Some [mk_arr 0 [px+1; py]; mk_arr ((px+1)*py) [px; py+1]].
Proof. unfold ln_m2n2k1_outer. rewrite ar0, ar_ok2 by (simpl; lia). reflexivity. Qed.
Lemma ln_m2n2k1_inner_eq px py :
  ln_m2n2k1_inner px py = Some [mk_arr 0 [px; py+1]; mk_arr (px*(py+1)) [px+1; py]].
Proof. unfold ln_m2n2k1_inner. rewrite ar0, ar_ok2 by (simpl; lia). reflexivity. Qed.
Lemma ln_m2n2k2_eq px py : ln_m2n2k2 px py = Some [mk_arr 0 [px; py]].
Proof. unfold ln_m2n2k2. rewrite ar0 by (simpl; lia). reflexivity. Qed.
Lemma ln_m3n3k0_eq px py pz : ln_m3n3k0 px py pz = Some [mk_arr 0 [px+1; py+1; pz+1]].
Proof. unfold ln_m3n3k0. rewrite ar0 by (simpl; lia). reflexivity. Qed.
Lemma ln_m3n3k1_eq px py pz : ln_m3n3k1 px py pz =
  Some [mk_arr 0 [px; py+1; pz+1];
        mk_arr (px*(py+1)*(pz+1)) [px+1; py; pz+1];
        mk_arr (px*(py+1)*(pz+1) + (px+1)*py*(pz+1)) [px+1; py+1; pz]].
Proof. unfold ln_m3n3k1. rewrite ar0, !ar_ok2 by (simpl; lia). reflexivity. Qed.
Lemma ln_m3n3k2_eq px py pz : ln_m3n3k2 px py pz =
  Some [mk_arr 0 [px+1; py; pz];
        mk_arr ((px+1)*py*pz) [px; py+1; pz];
        mk_arr ((px+1)*py*pz + px*(py+1)*pz) [px; py; pz+1]].
Proof. unfold ln_m3n3k2. rewrite ar0, !ar_ok2 by (simpl; lia). reflexivity. Qed.
Lemma ln_m3n3k3_eq px py pz : ln_m3n3k3 px py pz = Some [mk_arr 0 [px; py; pz]].
Proof. unfold ln_m3n3k3. rewrite ar0 by (simpl; lia). reflexivity. Qed.

Ltac rw_ln := rewrite ?ln_m1n1k0_eq, ?ln_m1n1k1_eq, ?ln_m2n2k0_eq, ?ln_m2n2k1_outer_eq,
  ?ln_m2n2k1_inner_eq, ?ln_m2n2k2_eq, ?ln_m3n3k0_eq, ?ln_m3n3k1_eq, ?ln_m3n3k2_eq, ?ln_m3n3k3_eq in *.

Ltac consec_tac := simpl; unfold asize; simpl; repeat split; try lia.

(** * C04: bijective numberings *)
Ltac bij := rw_ln; apply consec_bijective; [consec_tac | unfold total, asize; simpl;
  unfold nd_m1n1k0, nd_m1n1k1, nd_m2n2k0, nd_m2n2k1, nd_m2n2k2,
         nd_m3n3k0, nd_m3n3k1, nd_m3n3k2, nd_m3n3k3; lia].
Lemma bij_m1n1k0 p : numbering_bijective (ln_m1n1k0 p) (nd_m1n1k0 p). Proof. bij. Qed.
Lemma bij_m1n1k1 p : numbering_bijective (ln_m1n1k1 p) (nd_m1n1k1 p). Proof. bij. Qed.
Lemma bij_m2n2k0 px py : numbering_bijective (ln_m2n2k0 px py) (nd_m2n2k0 px py). Proof. bij. Qed.
Lemma bij_m2n2k1i px py : numbering_bijective (ln_m2n2k1_inner px py) (nd_m2n2k1 px py). Proof. bij. Qed.
Lemma bij_m2n2k1o px py : numbering_bijective (ln_m2n2k1_outer px py) (nd_m2n2k1 px py). Proof. bij. Qed.
Lemma bij_m2n2k2 px py : numbering_bijective (ln_m2n2k2 px py) (nd_m2n2k2 px py). Proof. bij. Qed.
Lemma bij_m3n3k0 px py pz : numbering_bijective (ln_m3n3k0 px py pz) (nd_m3n3k0 px py pz). Proof. bij. Qed.
Lemma bij_m3n3k1 px py pz : numbering_bijective (ln_m3n3k1 px py pz) (nd_m3n3k1 px py pz). Proof. bij. Qed.
Lemma bij_m3n3k2 px py pz : numbering_bijective (ln_m3n3k2 px py pz) (nd_m3n3k2 px py pz). Proof. bij. Qed.
Lemma bij_m3n3k3 px py pz : numbering_bijective (ln_m3n3k3 px py pz) (nd_m3n3k3 px py pz). Proof. bij. Qed.

Ltac blk := rw_ln; apply consec_component_blocks; [consec_tac |
  unfold ndc_m1n1k0, ndc_m1n1k1, ndc_m2n2k0, ndc_m2n2k1_inner, ndc_m2n2k1_outer, ndc_m2n2k2,
         ndc_m3n3k0, ndc_m3n3k1, ndc_m3n3k2, ndc_m3n3k3, htt_nd_m2n2k1_inner;
  unfold asize; simpl; repeat (f_equal; try lia)].
Lemma blk_m1n1k0 p : component_blocks (ln_m1n1k0 p) (ndc_m1n1k0 p). Proof. blk. Qed.
Lemma blk_m1n1k1 p : component_blocks (ln_m1n1k1 p) (ndc_m1n1k1 p). Proof. blk. Qed.
Lemma blk_m2n2k0 px py : component_blocks (ln_m2n2k0 px py) (ndc_m2n2k0 px py). Proof. blk. Qed.
Lemma blk_m2n2k1i px py : component_blocks (ln_m2n2k1_inner px py) (ndc_m2n2k1_inner px py). Proof. blk. Qed.
Lemma blk_m2n2k1o px py : component_blocks (ln_m2n2k1_outer px py) (ndc_m2n2k1_outer px py). Proof. blk. Qed.
Lemma blk_m2n2k2 px py : component_blocks (ln_m2n2k2 px py) (ndc_m2n2k2 px py). Proof. blk. Qed.
Lemma blk_m3n3k0 px py pz : component_blocks (ln_m3n3k0 px py pz) (ndc_m3n3k0 px py pz). Proof. blk. Qed.
Lemma blk_m3n3k1 px py pz : component_blocks (ln_m3n3k1 px py pz) (ndc_m3n3k1 px py pz). Proof. blk. Qed.
Lemma blk_m3n3k2 px py pz : component_blocks (ln_m3n3k2 px py pz) (ndc_m3n3k2 px py pz). Proof. blk. Qed.
Lemma blk_m3n3k3 px py pz : component_blocks (ln_m3n3k3 px py pz) (ndc_m3n3k3 px py pz). Proof. blk. Qed.
Lemma blk_htt_m2n2k1i px py :
  component_blocks (ln_m2n2k1_inner px py) (snd (htt_nd_m2n2k1_inner px py)). Proof. blk. Qed.

(** the msehtt outer 1-form component sizes are swapped *)
Lemma htt_outer_components_wrong px py :
  px <> py -> ~ component_blocks (ln_m2n2k1_outer px py) (snd (htt_nd_m2n2k1_outer px py)).
Proof.
  intros Hne [_ H]. pose proof (blk_m2n2k1o px py) as [_ H'].
  unfold htt_nd_m2n2k1_outer, ndc_m2n2k1_outer in *; simpl in *.
  specialize (H 0 (px*(py+1)) eq_refl). specialize (H' 0 ((px+1)*py) eq_refl). simpl in *.
  destruct (Nat.lt_ge_cases px py) as [Hl|Hl].
  - specialize (H (px*(py+1))). specialize (H' (px*(py+1))).
    assert (exists ix, num (ln_m2n2k1_outer px py) 0 ix (px*(py+1))) as Hx by (apply H'; lia).
    apply H in Hx. lia.
  - specialize (H ((px+1)*py)). specialize (H' ((px+1)*py)).
    assert (exists ix, num (ln_m2n2k1_outer px py) 0 ix ((px+1)*py)) as Hx by (apply H; lia).
    apply H' in Hx. lia.
Qed.

(** * existence of basis functions by index bounds *)

Lemma num1_iff l c b I ix r : nth_error l c = Some (mk_arr b [I]) ->
  (num (Some l) c ix r <-> exists i, ix = [i] /\ i < I /\ r = b + i).
Proof.
  intros Hc. unfold num. split.
  - intros (? & a & [= <-] & Ha & Hg). rewrite Hc in Ha. injection Ha as <-.
    unfold aget in Hg; simpl in Hg. destruct ix as [|i [|]]; try discriminate.
    + destruct (Nat.ltb_spec i I); [|discriminate]. injection Hg as <-. exists i. repeat split; auto; lia.
    + destruct (i <? I); discriminate.
  - intros (i & -> & Hi & ->). exists l, (mk_arr b [I]). repeat split; auto.
    unfold aget; simpl. apply Nat.ltb_lt in Hi. rewrite Hi. f_equal; lia.
Qed.

Lemma num2_iff l c b I J ix r : nth_error l c = Some (mk_arr b [I; J]) ->
  (num (Some l) c ix r <-> exists i j, ix = [i; j] /\ i < I /\ j < J /\ r = b + (i + I * j)).
Proof.
  intros Hc. unfold num. split.
  - intros (? & a & [= <-] & Ha & Hg). rewrite Hc in Ha. injection Ha as <-.
    unfold aget in Hg; simpl in Hg. destruct ix as [|i [|j [|]]]; try discriminate.
    + destruct (i <? I); discriminate.
    + destruct (Nat.ltb_spec i I); [|discriminate]. destruct (Nat.ltb_spec j J); [|discriminate].
      injection Hg as <-. exists i, j. repeat split; auto; nia.
    + destruct (i <? I); [|discriminate]. destruct (j <? J); discriminate.
  - intros (i & j & -> & Hi & Hj & ->). exists l, (mk_arr b [I; J]). repeat split; auto.
    unfold aget; simpl. apply Nat.ltb_lt in Hi, Hj. rewrite Hi, Hj. f_equal; nia.
Qed.

Lemma num3_iff l c b I J K ix r : nth_error l c = Some (mk_arr b [I; J; K]) ->
  (num (Some l) c ix r <-> exists i j k, ix = [i; j; k] /\ i < I /\ j < J /\ k < K /\
     r = b + (i + I * (j + J * k))).
Proof.
  intros Hc. unfold num. split.
  - intros (? & a & [= <-] & Ha & Hg). rewrite Hc in Ha. injection Ha as <-.
    unfold aget in Hg; simpl in Hg. destruct ix as [|i [|j [|k [|]]]]; try discriminate.
    + destruct (i <? I); discriminate.
    + destruct (i <? I); [|discriminate]. destruct (j <? J); discriminate.
    + destruct (Nat.ltb_spec i I); [|discriminate]. destruct (Nat.ltb_spec j J); [|discriminate].
      destruct (Nat.ltb_spec k K); [|discriminate].
      injection Hg as <-. exists i, j, k. repeat split; auto; nia.
    + destruct (i <? I); [|discriminate]. destruct (j <? J); [|discriminate].
      destruct (k <? K); discriminate.
  - intros (i & j & k & -> & Hi & Hj & Hk & ->). exists l, (mk_arr b [I; J; K]). repeat split; auto.
    unfold aget; simpl. apply Nat.ltb_lt in Hi, Hj, Hk. rewrite Hi, Hj, Hk. f_equal; nia.
Qed.

Lemma ex1 l c b I i : nth_error l c = Some (mk_arr b [I]) ->
  i < I -> exists r, num (Some l) c [i] r.
Proof. intros H ?. eexists. apply (num1_iff _ _ _ _ _ _ H). eauto. Qed.
Lemma ex2 l c b I J i j : nth_error l c = Some (mk_arr b [I; J]) ->
  i < I -> j < J -> exists r, num (Some l) c [i; j] r.
Proof. intros H ? ?. eexists. apply (num2_iff _ _ _ _ _ _ _ H). exists i, j; eauto. Qed.
Lemma ex3 l c b I J K i j k : nth_error l c = Some (mk_arr b [I; J; K]) ->
  i < I -> j < J -> k < K -> exists r, num (Some l) c [i; j; k] r.
Proof. intros H ? ? ?. eexists. apply (num3_iff _ _ _ _ _ _ _ _ H). exists i, j, k; eauto. Qed.

Ltac exd := first [ eapply ex1; [reflexivity|lia]
                  | eapply ex2; [reflexivity|lia|lia]
                  | eapply ex3; [reflexivity|lia|lia|lia] ].
Ltac inv_num H :=
  match type of H with num (Some ?l) ?c ?ix ?r =>
    let v := eval cbv [nth_error] in (nth_error l c) in
    match v with
    | Some (mk_arr ?b [?I]) => apply (num1_iff l c b I ix r eq_refl) in H as (? & ? & ? & ?)
    | Some (mk_arr ?b [?I; ?J]) =>
        apply (num2_iff l c b I J ix r eq_refl) in H as (? & ? & ? & ? & ? & ?)
    | Some (mk_arr ?b [?I; ?J; ?K]) =>
        apply (num3_iff l c b I J K ix r eq_refl) in H as (? & ? & ? & ? & ? & ? & ? & ?)
    end
  end.
Ltac nodup := repeat constructor; simpl; intuition (try discriminate);
  repeat match goal with H : (_, _) = (_, _) |- _ => injection H as H; intros; subst end; try lia.

Ltac nd_unf := unfold nd_m1n1k0, nd_m1n1k1, nd_m2n2k0, nd_m2n2k1, nd_m2n2k2,
  nd_m3n3k0, nd_m3n3k1, nd_m3n3k2, nd_m3n3k3 in *.

Ltac fill_side :=
  match goal with
  | |- consec _ _ => consec_tac
  | |- (total _ <= _)%nat => unfold total, asize; simpl; lia
  | |- forall c b ix r, _ =>
    let c := fresh "c" in let b := fresh "b" in let ix := fresh "ix" in let r := fresh "r" in
    let Hb := fresh in let Hn := fresh in
    intros c b ix r Hb Hn;
    destruct c as [|[|[|c]]]; simpl in Hb; try discriminate Hb; try (destruct c; discriminate Hb);
    injection Hb as <-; inv_num Hn; subst ix; simpl;
    (split; [ repeat constructor; simpl; exd | nodup ])
  end.

Ltac fill_start :=
  nd_unf; unfold exists_dof; rw_ln;
  match goal with |- exists E, fill_arr ?nr ?nc (Some ?d) (Some ?s) ?bs = Some E /\ _ =>
    let E := fresh "E" in let HE := fresh in let Hr := fresh in let Hc := fresh in
    destruct (fill_arr_spec nr nc d s bs) as (E & HE & Hr & Hc & HA);
    [ fill_side | fill_side | fill_side | fill_side | fill_side | ];
    exists E; split; [exact HE|]; split; [exact Hr|]; split; [exact Hc|]
  end.

Ltac act HA :=
  intros;
  let H := fresh in
  match goal with Hn : num (Some ?d) ?c ?ix ?r |- context [matvec _ ?x _] =>
    pose proof (HA x c _ ix r eq_refl Hn) as H; inv_num Hn
  end;
  repeat match goal with Hl : _ :: _ = _ :: _ |- _ => injection Hl; clear Hl; intros; subst end;
  repeat (split; [exd|]); rewrite H; cbn [b1 b2 b3 map zsum fold_right fst snd]; lia.

Local Open Scope Z_scope.


(** ** 1-D *)
Lemma act_m1n1k0 p : exists E, E_m1n1k0 p = Some E /\
  m_rows E = nd_m1n1k1 p /\ m_cols E = nd_m1n1k0 p /\
  forall x i r, num (ln_m1n1k1 p) 0 [i] r ->
    exists_dof (ln_m1n1k0 p) 0 [i] /\ exists_dof (ln_m1n1k0 p) 0 [(i+1)%nat] /\
    matvec E x r = coef x (ln_m1n1k0 p) 0 [(i+1)%nat] - coef x (ln_m1n1k0 p) 0 [i].
Proof. unfold E_m1n1k0. fill_start. act HA. Qed.

(** ** 2-D inner: gradient and rot *)
Lemma act_m2n2k0i px py : exists E, E_m2n2k0_inner px py = Some E /\
  m_rows E = nd_m2n2k1 px py /\ m_cols E = nd_m2n2k0 px py /\
  (forall x i j r, num (ln_m2n2k1_inner px py) 0 [i; j] r ->
    exists_dof (ln_m2n2k0 px py) 0 [i; j] /\ exists_dof (ln_m2n2k0 px py) 0 [(i+1)%nat; j] /\
    matvec E x r = coef x (ln_m2n2k0 px py) 0 [(i+1)%nat; j] - coef x (ln_m2n2k0 px py) 0 [i; j]) /\
  (forall x i j r, num (ln_m2n2k1_inner px py) 1 [i; j] r ->
    exists_dof (ln_m2n2k0 px py) 0 [i; j] /\ exists_dof (ln_m2n2k0 px py) 0 [i; (j+1)%nat] /\
    matvec E x r = coef x (ln_m2n2k0 px py) 0 [i; (j+1)%nat] - coef x (ln_m2n2k0 px py) 0 [i; j]).
Proof. unfold E_m2n2k0_inner. fill_start. split; act HA. Qed.

Lemma act_m2n2k1i px py : exists E, E_m2n2k1_inner px py = Some E /\
  m_rows E = nd_m2n2k2 px py /\ m_cols E = nd_m2n2k1 px py /\
  forall x i j r, num (ln_m2n2k2 px py) 0 [i; j] r ->
    let u := coef x (ln_m2n2k1_inner px py) 0 in
    let v := coef x (ln_m2n2k1_inner px py) 1 in
    exists_dof (ln_m2n2k1_inner px py) 0 [i; j] /\
    exists_dof (ln_m2n2k1_inner px py) 0 [i; (j+1)%nat] /\
    exists_dof (ln_m2n2k1_inner px py) 1 [i; j] /\
    exists_dof (ln_m2n2k1_inner px py) 1 [(i+1)%nat; j] /\
    matvec E x r = (v [(i+1)%nat; j] - v [i; j]) - (u [i; (j+1)%nat] - u [i; j]).
Proof. unfold E_m2n2k1_inner. fill_start. cbv zeta. act HA. Qed.

(** ** 2-D outer: curl and divergence *)
Lemma act_m2n2k0o px py : exists E, E_m2n2k0_outer px py = Some E /\
  m_rows E = nd_m2n2k1 px py /\ m_cols E = nd_m2n2k0 px py /\
  (forall x i j r, num (ln_m2n2k1_outer px py) 0 [i; j] r ->
    exists_dof (ln_m2n2k0 px py) 0 [i; j] /\ exists_dof (ln_m2n2k0 px py) 0 [i; (j+1)%nat] /\
    matvec E x r = coef x (ln_m2n2k0 px py) 0 [i; (j+1)%nat] - coef x (ln_m2n2k0 px py) 0 [i; j]) /\
  (forall x i j r, num (ln_m2n2k1_outer px py) 1 [i; j] r ->
    exists_dof (ln_m2n2k0 px py) 0 [i; j] /\ exists_dof (ln_m2n2k0 px py) 0 [(i+1)%nat; j] /\
    matvec E x r = - (coef x (ln_m2n2k0 px py) 0 [(i+1)%nat; j] - coef x (ln_m2n2k0 px py) 0 [i; j])).
Proof. unfold E_m2n2k0_outer. fill_start. split; act HA. Qed.

Lemma act_m2n2k1o px py : exists E, E_m2n2k1_outer px py = Some E /\
  m_rows E = nd_m2n2k2 px py /\ m_cols E = nd_m2n2k1 px py /\
  forall x i j r, num (ln_m2n2k2 px py) 0 [i; j] r ->
    let u := coef x (ln_m2n2k1_outer px py) 0 in
    let v := coef x (ln_m2n2k1_outer px py) 1 in
    exists_dof (ln_m2n2k1_outer px py) 0 [i; j] /\
    exists_dof (ln_m2n2k1_outer px py) 0 [(i+1)%nat; j] /\
    exists_dof (ln_m2n2k1_outer px py) 1 [i; j] /\
    exists_dof (ln_m2n2k1_outer px py) 1 [i; (j+1)%nat] /\
    matvec E x r = (u [(i+1)%nat; j] - u [i; j]) + (v [i; (j+1)%nat] - v [i; j]).
Proof. unfold E_m2n2k1_outer. fill_start. cbv zeta. act HA. Qed.

(** ** 3-D: gradient, curl, divergence *)
Lemma act_m3n3k0 px py pz : exists E, E_m3n3k0 px py pz = Some E /\
  m_rows E = nd_m3n3k1 px py pz /\ m_cols E = nd_m3n3k0 px py pz /\
  (forall x i j k r, num (ln_m3n3k1 px py pz) 0 [i; j; k] r ->
    exists_dof (ln_m3n3k0 px py pz) 0 [i; j; k] /\ exists_dof (ln_m3n3k0 px py pz) 0 [(i+1)%nat; j; k] /\
    matvec E x r = coef x (ln_m3n3k0 px py pz) 0 [(i+1)%nat; j; k] - coef x (ln_m3n3k0 px py pz) 0 [i; j; k]) /\
  (forall x i j k r, num (ln_m3n3k1 px py pz) 1 [i; j; k] r ->
    exists_dof (ln_m3n3k0 px py pz) 0 [i; j; k] /\ exists_dof (ln_m3n3k0 px py pz) 0 [i; (j+1)%nat; k] /\
    matvec E x r = coef x (ln_m3n3k0 px py pz) 0 [i; (j+1)%nat; k] - coef x (ln_m3n3k0 px py pz) 0 [i; j; k]) /\
  (forall x i j k r, num (ln_m3n3k1 px py pz) 2 [i; j; k] r ->
    exists_dof (ln_m3n3k0 px py pz) 0 [i; j; k] /\ exists_dof (ln_m3n3k0 px py pz) 0 [i; j; (k+1)%nat] /\
    matvec E x r = coef x (ln_m3n3k0 px py pz) 0 [i; j; (k+1)%nat] - coef x (ln_m3n3k0 px py pz) 0 [i; j; k]).
Proof. unfold E_m3n3k0. fill_start. split; [act HA|split; act HA]. Qed.

Lemma act_m3n3k1 px py pz : exists E, E_m3n3k1 px py pz = Some E /\
  m_rows E = nd_m3n3k2 px py pz /\ m_cols E = nd_m3n3k1 px py pz /\
  (forall x i j k r, num (ln_m3n3k2 px py pz) 0 [i; j; k] r ->
    let v := coef x (ln_m3n3k1 px py pz) 1 in let w := coef x (ln_m3n3k1 px py pz) 2 in
    exists_dof (ln_m3n3k1 px py pz) 2 [i; j; k] /\ exists_dof (ln_m3n3k1 px py pz) 2 [i; (j+1)%nat; k] /\
    exists_dof (ln_m3n3k1 px py pz) 1 [i; j; k] /\ exists_dof (ln_m3n3k1 px py pz) 1 [i; j; (k+1)%nat] /\
    matvec E x r = (w [i; (j+1)%nat; k] - w [i; j; k]) - (v [i; j; (k+1)%nat] - v [i; j; k])) /\
  (forall x i j k r, num (ln_m3n3k2 px py pz) 1 [i; j; k] r ->
    let u := coef x (ln_m3n3k1 px py pz) 0 in let w := coef x (ln_m3n3k1 px py pz) 2 in
    exists_dof (ln_m3n3k1 px py pz) 0 [i; j; k] /\ exists_dof (ln_m3n3k1 px py pz) 0 [i; j; (k+1)%nat] /\
    exists_dof (ln_m3n3k1 px py pz) 2 [i; j; k] /\ exists_dof (ln_m3n3k1 px py pz) 2 [(i+1)%nat; j; k] /\
    matvec E x r = (u [i; j; (k+1)%nat] - u [i; j; k]) - (w [(i+1)%nat; j; k] - w [i; j; k])) /\
  (forall x i j k r, num (ln_m3n3k2 px py pz) 2 [i; j; k] r ->
    let u := coef x (ln_m3n3k1 px py pz) 0 in let v := coef x (ln_m3n3k1 px py pz) 1 in
    exists_dof (ln_m3n3k1 px py pz) 1 [i; j; k] /\ exists_dof (ln_m3n3k1 px py pz) 1 [(i+1)%nat; j; k] /\
    exists_dof (ln_m3n3k1 px py pz) 0 [i; j; k] /\ exists_dof (ln_m3n3k1 px py pz) 0 [i; (j+1)%nat; k] /\
    matvec E x r = (v [(i+1)%nat; j; k] - v [i; j; k]) - (u [i; (j+1)%nat; k] - u [i; j; k])).
Proof. unfold E_m3n3k1. fill_start. cbv zeta. split; [act HA|split; act HA]. Qed.

Lemma act_m3n3k2 px py pz : exists E, E_m3n3k2 px py pz = Some E /\
  m_rows E = nd_m3n3k3 px py pz /\ m_cols E = nd_m3n3k2 px py pz /\
  forall x i j k r, num (ln_m3n3k3 px py pz) 0 [i; j; k] r ->
    let u := coef x (ln_m3n3k2 px py pz) 0 in
    let v := coef x (ln_m3n3k2 px py pz) 1 in
    let w := coef x (ln_m3n3k2 px py pz) 2 in
    exists_dof (ln_m3n3k2 px py pz) 0 [i; j; k] /\ exists_dof (ln_m3n3k2 px py pz) 0 [(i+1)%nat; j; k] /\
    exists_dof (ln_m3n3k2 px py pz) 1 [i; j; k] /\ exists_dof (ln_m3n3k2 px py pz) 1 [i; (j+1)%nat; k] /\
    exists_dof (ln_m3n3k2 px py pz) 2 [i; j; k] /\ exists_dof (ln_m3n3k2 px py pz) 2 [i; j; (k+1)%nat] /\
    matvec E x r = (u [(i+1)%nat; j; k] - u [i; j; k]) + (v [i; (j+1)%nat; k] - v [i; j; k])
                 + (w [i; j; (k+1)%nat] - w [i; j; k]).
Proof. unfold E_m3n3k2. fill_start. cbv zeta. act HA. Qed.

(** * d after d is zero *)

Definition delta (c : nat) : nat -> Z := fun m => if (m =? c)%nat then 1 else 0.

Lemma matvec_delta E r c : (c < m_cols E)%nat -> matvec E (delta c) r = entry E r c.
Proof.
  intros H. unfold matvec. rewrite (sumn_single _ _ c); auto.
  - unfold delta. rewrite Nat.eqb_refl. lia.
  - intros j _ Hj. unfold delta. apply Nat.eqb_neq in Hj. rewrite Hj. lia.
Qed.

Lemma matmul_matvec E1 E0 r c : (c < m_cols E0)%nat ->
  matmul E1 E0 r c = matvec E1 (matvec E0 (delta c)) r.
Proof.
  intros H. unfold matmul, matvec at 1. apply sumn_ext. intros m _.
  rewrite matvec_delta; auto.
Qed.

Lemma coef_num x ln c ix r : num ln c ix r -> coef x ln c ix = x r.
Proof. intros (l & a & -> & Ha & Hg). unfold coef. now rewrite Ha, Hg. Qed.

Lemma annih_intro E1 E0 : m_cols E1 = m_rows E0 ->
  (forall x r, (r < m_rows E1)%nat -> matvec E1 (matvec E0 x) r = 0) -> annihilates E1 E0.
Proof.
  intros H H0. split; auto. intros r c Hr Hc. rewrite matmul_matvec; auto.
Qed.

Lemma dd_2d_inner px py E0 E1 :
  E_m2n2k0_inner px py = Some E0 -> E_m2n2k1_inner px py = Some E1 -> annihilates E1 E0.
Proof.
  intros H0 H1.
  destruct (act_m2n2k0i px py) as (E0' & H0' & Hr0 & Hc0 & Hu & Hv). rewrite H0 in H0'.
  injection H0' as <-.
  destruct (act_m2n2k1i px py) as (E1' & H1' & Hr1 & Hc1 & Hw). rewrite H1 in H1'.
  injection H1' as <-.
  apply annih_intro; [congruence|]. intros x r Hr. rewrite Hr1 in Hr.
  destruct (bij_m2n2k2 px py) as (_ & _ & Hs). destruct (Hs r Hr) as (c & ix & Hn).
  assert (exists i j, c = 0%nat /\ ix = [i; j]) as (i & j & -> & ->).
  { clear - Hn. rw_ln. destruct c as [|c]; [inv_num Hn; eauto|].
    destruct Hn as (? & ? & [= <-] & Hn & _). destruct c; discriminate Hn. }
  destruct (Hw (matvec E0 x) i j r Hn) as ([a Ha] & [b Hb] & [d Hd] & [e He] & ->).
  rewrite (coef_num _ _ _ _ _ Ha), (coef_num _ _ _ _ _ Hb), (coef_num _ _ _ _ _ Hd), (coef_num _ _ _ _ _ He).
  destruct (Hu x _ _ _ Ha) as (_ & _ & ->). destruct (Hu x _ _ _ Hb) as (_ & _ & ->).
  destruct (Hv x _ _ _ Hd) as (_ & _ & ->). destruct (Hv x _ _ _ He) as (_ & _ & ->).
  lia.
Qed.

Lemma dd_2d_outer px py E0 E1 :
  E_m2n2k0_outer px py = Some E0 -> E_m2n2k1_outer px py = Some E1 -> annihilates E1 E0.
Proof.
  intros H0 H1.
  destruct (act_m2n2k0o px py) as (E0' & H0' & Hr0 & Hc0 & Hu & Hv). rewrite H0 in H0'.
  injection H0' as <-.
  destruct (act_m2n2k1o px py) as (E1' & H1' & Hr1 & Hc1 & Hw). rewrite H1 in H1'.
  injection H1' as <-.
  apply annih_intro; [congruence|]. intros x r Hr. rewrite Hr1 in Hr.
  destruct (bij_m2n2k2 px py) as (_ & _ & Hs). destruct (Hs r Hr) as (c & ix & Hn).
  assert (exists i j, c = 0%nat /\ ix = [i; j]) as (i & j & -> & ->).
  { clear - Hn. rw_ln. destruct c as [|c]; [inv_num Hn; eauto|].
    destruct Hn as (? & ? & [= <-] & Hn & _). destruct c; discriminate Hn. }
  destruct (Hw (matvec E0 x) i j r Hn) as ([a Ha] & [b Hb] & [d Hd] & [e He] & ->).
  rewrite (coef_num _ _ _ _ _ Ha), (coef_num _ _ _ _ _ Hb), (coef_num _ _ _ _ _ Hd), (coef_num _ _ _ _ _ He).
  destruct (Hu x _ _ _ Ha) as (_ & _ & ->). destruct (Hu x _ _ _ Hb) as (_ & _ & ->).
  destruct (Hv x _ _ _ Hd) as (_ & _ & ->). destruct (Hv x _ _ _ He) as (_ & _ & ->).
  lia.
Qed.

Lemma dd_3d_curl_grad px py pz E0 E1 :
  E_m3n3k0 px py pz = Some E0 -> E_m3n3k1 px py pz = Some E1 -> annihilates E1 E0.
Proof.
  intros H0 H1.
  destruct (act_m3n3k0 px py pz) as (E0' & H0' & Hr0 & Hc0 & Hu & Hv & Hw). rewrite H0 in H0'.
  injection H0' as <-.
  destruct (act_m3n3k1 px py pz) as (E1' & H1' & Hr1 & Hc1 & Ku & Kv & Kw). rewrite H1 in H1'.
  injection H1' as <-.
  apply annih_intro; [congruence|]. intros x r Hr. rewrite Hr1 in Hr.
  destruct (bij_m3n3k2 px py pz) as (_ & _ & Hs). destruct (Hs r Hr) as (c & ix & Hn).
  assert (exists i j k, (c < 3)%nat /\ ix = [i; j; k]) as (i & j & k & Hc & ->).
  { clear - Hn. rw_ln. destruct c as [|[|[|c]]]; [inv_num Hn; do 3 eexists; split; [lia|eassumption] ..|].
    destruct Hn as (? & ? & [= <-] & Hn & _). destruct c; discriminate Hn. }
  destruct c as [|[|[|c]]]; [| | |lia].
  - destruct (Ku (matvec E0 x) i j k r Hn) as ([a Ha] & [b Hb] & [d Hd] & [e He] & ->).
    rewrite (coef_num _ _ _ _ _ Ha), (coef_num _ _ _ _ _ Hb), (coef_num _ _ _ _ _ Hd), (coef_num _ _ _ _ _ He).
    destruct (Hw x _ _ _ _ Ha) as (_ & _ & ->). destruct (Hw x _ _ _ _ Hb) as (_ & _ & ->).
    destruct (Hv x _ _ _ _ Hd) as (_ & _ & ->). destruct (Hv x _ _ _ _ He) as (_ & _ & ->). lia.
  - destruct (Kv (matvec E0 x) i j k r Hn) as ([a Ha] & [b Hb] & [d Hd] & [e He] & ->).
    rewrite (coef_num _ _ _ _ _ Ha), (coef_num _ _ _ _ _ Hb), (coef_num _ _ _ _ _ Hd), (coef_num _ _ _ _ _ He).
    destruct (Hu x _ _ _ _ Ha) as (_ & _ & ->). destruct (Hu x _ _ _ _ Hb) as (_ & _ & ->).
    destruct (Hw x _ _ _ _ Hd) as (_ & _ & ->). destruct (Hw x _ _ _ _ He) as (_ & _ & ->). lia.
  - destruct (Kw (matvec E0 x) i j k r Hn) as ([a Ha] & [b Hb] & [d Hd] & [e He] & ->).
    rewrite (coef_num _ _ _ _ _ Ha), (coef_num _ _ _ _ _ Hb), (coef_num _ _ _ _ _ Hd), (coef_num _ _ _ _ _ He).
    destruct (Hv x _ _ _ _ Ha) as (_ & _ & ->). destruct (Hv x _ _ _ _ Hb) as (_ & _ & ->).
    destruct (Hu x _ _ _ _ Hd) as (_ & _ & ->). destruct (Hu x _ _ _ _ He) as (_ & _ & ->). lia.
Qed.

Lemma dd_3d_div_curl px py pz E1 E2 :
  E_m3n3k1 px py pz = Some E1 -> E_m3n3k2 px py pz = Some E2 -> annihilates E2 E1.
Proof.
  intros H1 H2.
  destruct (act_m3n3k1 px py pz) as (E1' & H1' & Hr1 & Hc1 & Ku & Kv & Kw). rewrite H1 in H1'.
  injection H1' as <-.
  destruct (act_m3n3k2 px py pz) as (E2' & H2' & Hr2 & Hc2 & Hd). rewrite H2 in H2'.
  injection H2' as <-.
  apply annih_intro; [congruence|]. intros x r Hr. rewrite Hr2 in Hr.
  destruct (bij_m3n3k3 px py pz) as (_ & _ & Hs). destruct (Hs r Hr) as (c & ix & Hn).
  assert (exists i j k, c = 0%nat /\ ix = [i; j; k]) as (i & j & k & -> & ->).
  { clear - Hn. rw_ln. destruct c as [|c]; [inv_num Hn; eauto 7|].
    destruct Hn as (? & ? & [= <-] & Hn & _). destruct c; discriminate Hn. }
  destruct (Hd (matvec E1 x) i j k r Hn) as ([a Ha] & [b Hb] & [c Hc] & [e He] & [f Hf] & [g Hg] & ->).
  rewrite (coef_num _ _ _ _ _ Ha), (coef_num _ _ _ _ _ Hb), (coef_num _ _ _ _ _ Hc), (coef_num _ _ _ _ _ He),
    (coef_num _ _ _ _ _ Hf), (coef_num _ _ _ _ _ Hg).
  destruct (Ku x _ _ _ _ Ha) as (_ & _ & _ & _ & ->). destruct (Ku x _ _ _ _ Hb) as (_ & _ & _ & _ & ->).
  destruct (Kv x _ _ _ _ Hc) as (_ & _ & _ & _ & ->). destruct (Kv x _ _ _ _ He) as (_ & _ & _ & _ & ->).
  destruct (Kw x _ _ _ _ Hf) as (_ & _ & _ & _ & ->). destruct (Kw x _ _ _ _ Hg) as (_ & _ & _ & _ & ->).
  lia.
Qed.
