(** 2-D 0-forms: the loop with corners *)
From Coq Require Import Arith List ZArith Bool Lia Relations.
From Verif Require Import NdArray LocalNumberingModel IncidenceModel IncidenceSpec MeshSpec GatherCore GatherModel GatherProofs GatherSpec TopologyModel.
From Verif Require Import IncidenceProofs IncidenceThms GatherThms GatherInst TopologyProofs.
Import ListNotations.

Section ZeroForms.
  Context {N : nat} {mp : emap} {px py : nat}.
  Context (Hpx : 1 <= px) (Hpy : 1 <= py).
  Context (Hc : consistent 2 N mp) (Hs : no_self 2 N mp) (Hreg : regular_vertices N mp).

  Definition att (e c : nat) : list (nat * nat) := match corner_attachment mp N e c with Some l => l | None => [] end.
  Definition ts0 : list task :=
    [Group 0; Side 2; Group 1; Side 0; Inner (in_m2n2k0 px py); Side 1; Group 2; Side 3; Group 3].
  Notation SL := (sl_m2n2k0 px py).
  Notation BS := (corner_m2n2k0 px py).

  Lemma att_in e c y : e < N -> c < 4 -> (In y (att e c) <-> around (mp := mp) (N := N) (e, c) y).
  Proof.
    intros He Hcc. destruct (attachment_around Hc Hreg e c) as (l & E & H); [split; auto|]. unfold att. now rewrite E.
  Qed.
  Lemma in_ts0_side s : In (Side s) ts0 <-> s < 4.
  Proof.
    unfold ts0. simpl. split.
    - intros H. repeat match type of H with _ \/ _ => destruct H as [H|H] end; try discriminate H; try (injection H as <-; lia); destruct H.
    - intros H. do 4 (destruct s as [|s]; [auto 20|]). lia.
  Qed.
  Lemma in_ts0_group s : In (Group s) ts0 <-> s < 4.
  Proof.
    unfold ts0. simpl. split.
    - intros H. repeat match type of H with _ \/ _ => destruct H as [H|H] end; try discriminate H; try (injection H as <-; lia); destruct H.
    - intros H. do 4 (destruct s as [|s]; [auto 20|]). lia.
  Qed.

  Lemma ok0 : @loop_ok N (-1)%Z mp rule_id SL op_side BS att ts0.
  Proof.
    constructor.
    - unfold ts0. nodup_parts.
    - intros e s He Hi. apply in_ts0_side in Hi. apply (rule_id_ok N 4); auto.
    - intros e s m He Hi Hm. apply in_ts0_side in Hi. destruct (mp_good Hc Hs e s m He Hi Hm) as (A1 & A2 & A3 & A4 & A5).
      repeat split; auto; [now apply in_ts0_side|].
      do 4 (destruct s as [|s]; [simpl; now rewrite !map_length|]). lia.
    - auto.
    - intros e g He Hg. apply in_ts0_group in Hg. split.
      + apply att_in; auto. apply rst_refl.
      + intros e' g' Hin. apply (att_in _ _ _ He Hg) in Hin.
        destruct (proj1 (around_ok Hc _ _ Hin) (conj He Hg)) as [He' Hg']. simpl in He', Hg'.
        split; auto. split; [now apply in_ts0_group|]. split.
        { do 4 (destruct g as [|g]; [do 4 (destruct g' as [|g']; [reflexivity|]); lia|]). lia. }
        intros x. rewrite !att_in by auto. split; intros H; [eapply rst_trans; eauto|].
        eapply rst_trans; [apply rst_sym; eauto|auto].
  Qed.

  Notation LN := (Some [mk_arr 0 [px + 1; py + 1]]).
  Notation EQV := (@eqv N mp SL op_side BS att ts0).
  Notation SHARED := (shared LN [px; py] N mp).

  Definition cpos (c : nat) : list nat := [if corner_bit 0 c =? 0 then 0 else px; if corner_bit 1 c =? 0 then 0 else py].
  Definition lin (ix : list nat) : nat := match ix with [i; j] => i + (px + 1) * j | _ => 0 end.
  Lemma num_lin i j : i <= px -> j <= py -> num LN 0 [i; j] (lin [i; j]).
  Proof. intros Hi Hj. eapply num2_iff; [reflexivity|]. exists i, j. repeat split; auto; lia. Qed.
  Lemma num_cpos c : num LN 0 (cpos c) (lin (cpos c)).
  Proof. apply num_lin; destruct (_ =? _); lia. Qed.
  Lemma corner_slot c : c < 4 -> BS c = [0 :: cpos c].
  Proof. intros H. do 4 (destruct c as [|c]; [reflexivity|]). lia. Qed.
  Lemma cpos_flip a c : a < 2 -> c < 4 -> corner_bit a c = 1 -> nth_error [px; py] a = nth_error (cpos c) a /\
    set_at a 0 (cpos c) = cpos (flip a c).
  Proof.
    intros Ha H. destruct a as [|[|a]]; [| |lia]; do 4 (destruct c as [|c]; [cbv; intros; try discriminate; auto|]); lia.
  Qed.

  Lemma cross_touch a x y : a < 2 -> okc (N := N) x -> corner_bit a (snd x) = 1 -> cross mp a x = Some y ->
    touch LN [px; py] N mp (fst x, lin (cpos (snd x))) (fst y, lin (cpos (snd y))).
  Proof.
    intros Ha [Hx Hcx] Hb H. unfold cross in H. rewrite Hb in H. destruct (mp (fst x) (2 * a + 1)) as [m|] eqn:E; [|discriminate].
    injection H as <-. destruct (cpos_flip a (snd x) Ha Hcx Hb) as [H1 H2].
    assert (exists p, nth_error [px; py] a = Some p) as (p & Ep) by (destruct a as [|[|]]; simpl; eauto; lia).
    exists a, p, 0, (cpos (snd x)). cbn [fst snd]. repeat split; auto; try congruence; try apply num_cpos.
    rewrite H2. apply num_cpos.
  Qed.
  Lemma adjacent_shared x y : adjacent (N := N) (mp := mp) x y ->
    SHARED (fst x, lin (cpos (snd x))) (fst y, lin (cpos (snd y))).
  Proof.
    intros (Hx & a & Ha & H). destruct (cross_back Hc a x y Ha Hx H) as [Hy H'].
    destruct (flip_facts a (snd x) Ha (proj2 Hx)) as (F1 & F2 & F3 & F4).
    destruct (corner_bit a (snd x)) as [|[|]] eqn:E; [| |lia].
    - apply rst_sym, rst_step. apply (cross_touch a y x); auto.
      unfold cross in H. destruct (mp _ _); [|discriminate]. injection H as <-. exact F4.
    - apply rst_step. apply (cross_touch a x y); auto.
  Qed.
  Lemma around_shared x y : around (N := N) (mp := mp) x y -> SHARED (fst x, lin (cpos (snd x))) (fst y, lin (cpos (snd y))).
  Proof.
    induction 1; [now apply adjacent_shared|apply rst_refl|now apply rst_sym|eapply rst_trans; eauto].
  Qed.

  Lemma num_inv c ix i : num LN c ix i -> c = 0 /\ exists u v, ix = [u; v] /\ u <= px /\ v <= py /\ i = lin ix.
  Proof.
    intros Hn. pose proof (num_comp _ _ _ _ Hn) as Hl. simpl in Hl. assert (c = 0) as -> by lia. split; auto.
    inv_num Hn. subst. exists x, x0. simpl. repeat split; auto; lia.
  Qed.

  Lemma gg_corner c c' e e' : e < N -> c < 4 -> cross mp 0 (e, c) = Some (e', c') \/ cross mp 1 (e, c) = Some (e', c') ->
    EQV (e, 0 :: cpos c) (e', 0 :: cpos c').
  Proof.
    intros He Hcc H. assert (adjacent (N := N) (mp := mp) (e, c) (e', c')) as Had.
    { split; [split; auto|]. destruct H; eauto. }
    pose proof (adjacent_sym Hc _ _ Had) as [[He' Hc'] _]. simpl in He', Hc'.
    right. right. exists c, c', 0. cbn [fst snd]. repeat split; auto.
    - now apply in_ts0_group.
    - apply att_in; auto. now apply rst_step.
    - now rewrite corner_slot.
    - now rewrite corner_slot.
  Qed.

  Lemma touch_eqv x y : touch LN [px; py] N mp x y -> exists ix ix', num LN 0 ix (snd x) /\ num LN 0 ix' (snd y) /\
    EQV (fst x, 0 :: ix) (fst y, 0 :: ix').
  Proof.
    intros (a & p & c & ix & Hx & Ep & Hm & Hn & Hi & Hn'). pose proof (num_inv _ _ _ Hn) as (-> & u & v & -> & Hu & Hv & _).
    exists [u; v], (set_at a 0 [u; v]). split; auto. split; auto.
    destruct x as [e i], y as [e' i']. simpl in Hx. cbn [fst snd] in *.
    destruct a as [|[|a]]; simpl in Ep; [| |destruct a; discriminate]; injection Ep as <-; simpl in Hi; injection Hi as ->; simpl set_at; cbn in Hm.
    - destruct v as [|v].
      { apply (gg_corner 1 0); auto. left. unfold cross. cbn. now rewrite Hm. }
      destruct (Nat.eq_dec (S v) py) as [Ev|Hvp].
      { rewrite Ev. apply (gg_corner 3 2); auto. left. unfold cross. cbn. now rewrite Hm. }
      right. left. exists 1, v. cbn [fst snd]. repeat split; auto; [now apply in_ts0_side; lia| |]; simpl; rewrite nth_error_map, nth_error_seq.
      + destruct (Nat.ltb_spec v (py - 1)); [reflexivity|lia].
      + destruct (Nat.ltb_spec v (py - 1)); [reflexivity|lia].
    - destruct u as [|u].
      { apply (gg_corner 2 0); auto. right. unfold cross. cbn. now rewrite Hm. }
      destruct (Nat.eq_dec (S u) px) as [Ev|Hup].
      { rewrite Ev. apply (gg_corner 3 1); auto. right. unfold cross. cbn. now rewrite Hm. }
      right. left. exists 3, u. cbn [fst snd]. repeat split; auto; [now apply in_ts0_side; lia| |]; simpl; rewrite nth_error_map, nth_error_seq.
      + destruct (Nat.ltb_spec u (px - 1)); [reflexivity|lia].
      + destruct (Nat.ltb_spec u (px - 1)); [reflexivity|lia].
  Qed.
  Lemma gl_touch0 e e' ix ix' i i' : num LN 0 ix i -> num LN 0 ix' i' ->
    @gl N mp SL op_side ts0 (e, 0 :: ix) (e', 0 :: ix') -> SHARED (e, i) (e', i').
  Proof.
    intros Hn Hn' (s & k & He & Hsd & Hm & H1 & H2). cbn [fst snd] in *. apply in_ts0_side in Hsd.
    destruct (mp_good Hc Hs e s e' He Hsd Hm) as (A1 & A2 & A3 & A4 & A5).
    assert (s = 0 \/ s = 1 \/ s = 2 \/ s = 3) as Hs4 by lia.
    destruct Hs4 as [-> |[-> |[-> | ->]]]; (simpl in H1, H2, A4; rewrite nth_error_map in H1, H2; rewrite nth_error_seq in H1, H2;
      match type of H1 with context [?b <? ?c] => destruct (Nat.ltb_spec b c) end; [|discriminate]; simpl in H1, H2;
      injection H1 as <-; injection H2 as <-).
    - apply rst_sym, rst_step. exists 0, px, 0, [px; S k]. cbn. repeat split; auto.
    - apply rst_step. exists 0, px, 0, [px; S k]. cbn. repeat split; auto.
    - apply rst_sym, rst_step. exists 1, py, 0, [S k; py]. cbn. repeat split; auto.
    - apply rst_step. exists 1, py, 0, [S k; py]. cbn. repeat split; auto.
  Qed.

  Lemma shared0 e e' c ix c' ix' i i' : e < N -> e' < N -> num LN c ix i -> num LN c' ix' i' ->
    (EQV (e, c :: ix) (e', c' :: ix') <-> SHARED (e, i) (e', i')).
  Proof.
    intros He He' Hn Hn'. pose proof (num_inv _ _ _ Hn) as (-> & u & v & Eix & Hu & Hv & Ei).
    pose proof (num_inv _ _ _ Hn') as (-> & u' & v' & Eix' & Hu' & Hv' & Ei').
    assert (forall c ix i, num LN c ix i -> c = 0 /\ i = lin ix) as Bf.
    { intros c ix0 i0 H. apply num_inv in H as (-> & ? & ? & ? & _ & _ & ?). auto. }
    assert (forall ix ix' i, num LN 0 ix i -> num LN 0 ix' i -> ix = ix') as Binj.
    { intros ix0 ix1 i0 H H'. destruct (bij_m2n2k0 px py) as (_ & B2 & _). rewrite ln_m2n2k0_eq in B2. now destruct (B2 _ _ _ _ _ H H'). }
    split.
    - intros [[= <- <-]|[H|H]].
      + assert (i = i') as -> by congruence. apply rst_refl.
      + eapply gl_touch0; eauto.
      + destruct H as (g & g' & k & _ & Hg & Hin & H1 & H2). cbn [fst snd] in *. apply in_ts0_group in Hg.
        apply (att_in _ _ _ He Hg) in Hin. pose proof (proj1 (around_ok Hc _ _ Hin) (conj He Hg)) as [_ Hg']. simpl in Hg'.
        rewrite corner_slot in H1, H2 by auto. destruct k as [|[|k]]; try discriminate H1. simpl in H1, H2.
        injection H1 as <-. injection H2 as <-. pose proof (around_shared _ _ Hin) as H. cbn [fst snd] in H. congruence.
    - intros H.
      assert (forall x y, SHARED x y -> x = y \/ exists ix ix', num LN 0 ix (snd x) /\
        num LN 0 ix' (snd y) /\ EQV (fst x, 0 :: ix) (fst y, 0 :: ix')) as Hgen.
      { clear - Binj Hc Hs Hreg Hpx Hpy. pose proof ok0 as OK.
        intros x y H. induction H as [x y H|x|x y H [->|IH]|x y z H [->|IH] H' [->|IH']]; auto.
        - right. now apply touch_eqv.
        - destruct IH as (ix & ix' & H1 & H2 & H3). right. exists ix', ix. repeat split; auto. now apply (eqv_sym OK).
        - destruct IH as (ix & ix' & H1 & H2 & H3). destruct IH' as (kx & kx' & H4 & H5 & H6).
          rewrite (Binj _ _ _ H2 H4) in H3. right. exists ix, kx'. repeat split; auto. eapply (eqv_trans OK); eauto. }
      destruct (Hgen _ _ H) as [[= <- <-]|(kx & kx' & H1 & H2 & H3)].
      + rewrite (Binj _ _ _ Hn Hn'). left. auto.
      + simpl in *. rewrite (Binj _ _ _ Hn H1), (Binj _ _ _ Hn' H2). auto.
  Qed.

  Lemma gather_m2n2k0 : exists gm, gm_m2n2k0_mesh N mp px py = Some gm /\
    numbers gm N (nd_m2n2k0 px py) (shared (ln_m2n2k0 px py) [px; py] N mp).
  Proof.
    rewrite ln_m2n2k0_eq. unfold gm_m2n2k0_mesh, gm_m2n2k0.
    destruct (@bridge N (-1)%Z mp rule_id SL BS att ts0 [mk_arr 0 [px + 1; py + 1]] [px; py]) as (gm & E & H).
    - exact ok0.
    - repeat split; auto.
    - intros c ix. unfold ts0. split.
      + cover_to.
      + intros (i & Hn). comps Hn c; inv_num Hn; subst; unf_sl. layer x px; layer x0 py; find_slot.
    - intros H. unfold ts0 in H. unf_sl. repeat slots_in H; discriminate.
    - intros. now apply shared0.
    - exists gm. split; [exact E|]. fin H.
  Qed.
End ZeroForms.
