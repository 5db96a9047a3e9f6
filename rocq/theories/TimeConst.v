From Coq Require Import List ZArith QArith Qround Qabs Bool Lia Lqa.
From Verif Require Import MetricKeyModel MetricKeyThms MiscText TimeModel TimeSpec.
Import ListNotations.
Local Open Scope Q_scope.

Lemma qlt_spec a b : qlt a b = true <-> a < b.
Proof. unfold qlt. rewrite negb_true_iff. split; intros H. - apply Qnot_le_lt. intros L. apply Qle_bool_iff in L. congruence. - destruct (Qle_bool b a) eqn:E; [|reflexivity]. apply Qle_bool_iff in E. lra. Qed.
Lemma qlt_false a b : qlt a b = false <-> b <= a.
Proof. split; intros H. - apply Qnot_lt_le. intros L. apply qlt_spec in L. congruence. - destruct (qlt a b) eqn:E; [|reflexivity]. apply qlt_spec in E. lra. Qed.
Lemma rnd_comp a b : a == b -> rnd a = rnd b.
Proof. intros E. unfold rnd. rewrite (Qfloor_comp _ _ E). assert (F : a - inject_Z (Qfloor b) == b - inject_Z (Qfloor b)) by lra. now rewrite F. Qed.
Lemma rnd_Z z : rnd (inject_Z z) = z.
Proof. unfold rnd. rewrite Qfloor_Z. assert (F : inject_Z z - inject_Z z == 0) by lra. now rewrite F. Qed.
Lemma mod1_zero q : Qeq_bool (mod1 q) 0 = true <-> q == inject_Z (Qfloor q).
Proof. rewrite Qeq_bool_iff. unfold mod1. split; intros; lra. Qed.
Lemma mod1_unique q z f : q == inject_Z z + f -> 0 <= f < 1 -> mod1 q == f /\ Qfloor q = z.
Proof.
  intros E F. assert (H : Qfloor q = z). { apply floor_unique; rewrite ?inject_Z_plus; change (inject_Z 1) with 1; lra. }
  split; [|exact H]. unfold mod1. rewrite H. lra.
Qed.
Lemma mod1_range q : 0 <= mod1 q < 1.
Proof. unfold mod1. pose proof (Qfloor_le q) as H1. pose proof (Qlt_floor q) as H2. rewrite inject_Z_plus in H2. change (inject_Z 1) with 1 in H2. lra. Qed.
Lemma round8_comp a b : a == b -> round8 a = round8 b.
Proof. intros E. unfold round8. apply rnd_comp. now rewrite E. Qed.
Lemma inj_pos z : (0 < z)%Z -> 0 < inject_Z z.
Proof. intros. change 0 with (inject_Z 0). now rewrite <- Zlt_Qlt. Qed.
Lemma inj_le a b : (a <= b)%Z -> inject_Z a <= inject_Z b.
Proof. intros. now rewrite <- Zle_Qle. Qed.
Lemma inj_lt a b : (a < b)%Z -> inject_Z a < inject_Z b.
Proof. intros. now rewrite <- Zlt_Qlt. Qed.
Lemma inj_sub a b : inject_Z (a - b) == inject_Z a - inject_Z b.
Proof. unfold Z.sub. rewrite inject_Z_plus, inject_Z_opp. lra. Qed.

(** construction *)
Lemma new_cseq_spec t0 tmax n factor c : new_cseq t0 tmax n factor = Some c ->
  t0 < tmax /\ (0 < factor)%Z /\ (0 < c_kmax c)%Z /\ n == inject_Z (c_kmax c * factor) /\ c_t0 c = t0 /\ c_tmax c = tmax /\
  c_dt c * inject_Z (c_kmax c) == tmax - t0 /\ c_allowed c = map (fun i => round8 (inject_Z (Z.of_nat i) / inject_Z factor)) (seq 0 (Z.to_nat factor)).
Proof.
  unfold new_cseq. destruct (negb (qlt t0 tmax && _ && _)) eqn:E1; [discriminate|]. apply negb_false_iff in E1. rewrite !andb_true_iff in E1. destruct E1 as [[E1 E2] E3].
  destruct (Z.ltb_spec 0 factor) as [F|F]; [cbn [negb]|discriminate]. cbv zeta. destruct (negb _) eqn:E4; [discriminate|]. apply negb_false_iff in E4. rewrite andb_true_iff in E4. destruct E4 as [E4 E5].
  intros H. apply (f_equal (fun o => match o with Some x => x | None => c end)) in H. cbv beta iota in H. subst c. cbn [c_t0 c_tmax c_dt c_kmax c_allowed]. apply qlt_spec in E1, E3, E5. apply mod1_zero in E2, E4. set (z := Qfloor (n / inject_Z factor)) in *.
  pose proof (inj_pos _ F) as Fp.
  assert (Hz : (0 < z)%Z). { rewrite Zlt_Qlt. change (inject_Z 0) with 0. lra. }
  assert (En : n == inject_Z (z * factor)). { rewrite inject_Z_mult, <- E4. field. intros X. rewrite X in Fp. lra. }
  do 6 (split; [assumption || reflexivity|]). split; [|reflexivity]. assert (Ez : inject_Z z == n / inject_Z factor) by lra. rewrite Ez. field. split; intros X; rewrite X in *; lra.
Qed.
Lemma new_cseq_total t0 tmax n factor m : t0 < tmax -> (0 < factor)%Z -> (0 < m)%Z -> n == inject_Z (m * factor) -> exists c, new_cseq t0 tmax n factor = Some c /\ c_kmax c = m.
Proof.
  intros H1 H2 H3 H4. unfold new_cseq. pose proof (inj_pos _ H2) as Fp. assert (Hd : n / inject_Z factor == inject_Z m). { rewrite H4, inject_Z_mult. field. intros X. rewrite X in Fp. lra. }
  assert (A1 : qlt t0 tmax = true) by now apply qlt_spec. assert (A2 : Qeq_bool (mod1 n) 0 = true). { apply mod1_zero. rewrite H4 at 1. now rewrite (Qfloor_comp _ _ H4), Qfloor_Z. }
  assert (A3 : qlt 0 n = true). { apply qlt_spec. rewrite H4. apply inj_pos. nia. }
  rewrite A1, A2, A3. cbn [andb negb]. destruct (Z.ltb_spec 0 factor); [cbn [negb]|lia]. cbv zeta.
  assert (A4 : Qeq_bool (mod1 (n / inject_Z factor)) 0 = true). { apply mod1_zero. rewrite Hd at 1. now rewrite (Qfloor_comp _ _ Hd), Qfloor_Z. }
  assert (A5 : qlt 0 (n / inject_Z factor) = true). { apply qlt_spec. rewrite Hd. now apply inj_pos. }
  rewrite A4, A5. cbn [andb negb]. eexists. split; [reflexivity|]. cbn [c_kmax]. rewrite (Qfloor_comp _ _ Hd). apply Qfloor_Z.
Qed.

Section Const.
  Variables (t0 tmax n : Q) (factor : Z) (c : cseq).
  Hypothesis Hc : new_cseq t0 tmax n factor = Some c.
  Lemma dt_pos : 0 < c_dt c.
  Proof.
    destruct (new_cseq_spec _ _ _ _ _ Hc) as (H1 & H2 & H3 & H4 & H5 & H6 & H7 & _). pose proof (inj_pos _ H3) as K. destruct (Qlt_le_dec 0 (c_dt c)) as [|L]; auto. exfalso.
    assert (c_dt c * inject_Z (c_kmax c) <= 0) by nra. lra.
  Qed.
  Lemma cget_spec k t : cget c k = Some t <-> t = c_t0 c + k * c_dt c /\ - (1) <= k /\ k <= inject_Z (c_kmax c) + 1 /\ In (round8 (mod1 k)) (c_allowed c).
  Proof.
    destruct (new_cseq_spec _ _ _ _ _ Hc) as (H1 & H2 & H3 & H4 & H5 & H6 & H7 & _). pose proof dt_pos as D. unfold cget. cbv zeta.
    rewrite H5, H6.
    assert (L1 : qlt (t0 + k * c_dt c) (t0 - c_dt c) = false <-> - (1) <= k).
    { rewrite qlt_false. split; intros L; [|nra]. apply Qnot_lt_le. intros X. nra. }
    assert (L2 : qlt (tmax + c_dt c) (t0 + k * c_dt c) = false <-> k <= inject_Z (c_kmax c) + 1).
    { rewrite qlt_false. split; intros L; [|nra]. apply Qnot_lt_le. intros X. nra. }
    assert (L3 : existsb (Z.eqb (round8 (mod1 k))) (c_allowed c) = true <-> In (round8 (mod1 k)) (c_allowed c)).
    { rewrite existsb_exists. split; [intros (x & Hx & E); apply Z.eqb_eq in E; now subst|intros Hx; eexists; split; eauto using Z.eqb_refl]. }
    destruct (qlt (t0 + k * c_dt c) _) eqn:E1. { split; [discriminate|]. intros (_ & X & _). apply L1 in X. congruence. }
    destruct (qlt (tmax + _) _) eqn:E2. { split; [discriminate|]. intros (_ & _ & X & _). apply L2 in X. congruence. }
    destruct (existsb _ _) eqn:E3; cbn [negb].
    - split; intros H; [injection H as <-; tauto|]. destruct H as (-> & _). reflexivity.
    - split; [discriminate|]. intros (_ & _ & _ & X). apply L3 in X. congruence.
  Qed.
  Lemma allowed_frac i : (0 <= i < factor)%Z -> In (round8 (inject_Z i / inject_Z factor)) (c_allowed c).
  Proof.
    destruct (new_cseq_spec _ _ _ _ _ Hc) as (_ & H2 & _ & _ & _ & _ & _ & ->). intros Hi. apply in_map_iff. exists (Z.to_nat i). split; [now rewrite Z2Nat.id by lia|]. apply in_seq. lia.
  Qed.
  Lemma frac_range i : (0 <= i < factor)%Z -> 0 <= inject_Z i / inject_Z factor /\ inject_Z i / inject_Z factor <= 1 - 1 / inject_Z factor.
  Proof.
    intros Hi. destruct (new_cseq_spec _ _ _ _ _ Hc) as (_ & H2 & _). pose proof (inj_pos _ H2) as Fp. pose proof (inj_le 0 i ltac:(lia)) as I0. change (inject_Z 0) with 0 in I0.
    pose proof (inj_le i (factor - 1) ltac:(lia)) as I1. rewrite inj_sub in I1. change (inject_Z 1) with 1 in I1. split.
    - apply Qle_shift_div_l; [exact Fp|lra].
    - apply Qle_shift_div_r; [exact Fp|]. assert (E : (1 - 1 / inject_Z factor) * inject_Z factor == inject_Z factor - 1) by (field; lra). lra.
  Qed.
  (** whole multiples of 1 / factor are valid within one step around the interval *)
  Lemma cget_multiple j : (- factor <= j <= (c_kmax c + 1) * factor)%Z -> exists t, cget c (inject_Z j / inject_Z factor) = Some t /\ t == t0 + inject_Z j / inject_Z factor * c_dt c /\ t == t0 + inject_Z j * ((tmax - t0) / n).
  Proof.
    intros Hj. destruct (new_cseq_spec _ _ _ _ _ Hc) as (H1 & H2 & H3 & H4 & H5 & H6 & H7 & _). pose proof (inj_pos _ H2) as Fp. pose proof (inj_pos _ H3) as Kp.
    set (k := inject_Z j / inject_Z factor). exists (c_t0 c + k * c_dt c). split; [|split].
    - apply cget_spec. split; [reflexivity|]. split; [|split].
      + apply Qle_shift_div_l; [exact Fp|]. pose proof (inj_le _ _ (proj1 Hj)) as L. rewrite inject_Z_opp in L. lra.
      + apply Qle_shift_div_r; [exact Fp|]. pose proof (inj_le _ _ (proj2 Hj)) as L. rewrite inject_Z_mult, inject_Z_plus in L. exact L.
      + pose proof (Z.div_mod j factor ltac:(lia)) as Dj. pose proof (Z.mod_pos_bound j factor H2) as Mj. pose proof (frac_range _ Mj) as [G1 G2].
        assert (G3 : 0 < 1 / inject_Z factor) by (apply Qlt_shift_div_l; lra).
        assert (E : k == inject_Z (j / factor) + inject_Z (j mod factor) / inject_Z factor).
        { unfold k. rewrite Dj at 1. rewrite inject_Z_plus, inject_Z_mult. field. lra. }
        destruct (mod1_unique _ _ _ E ltac:(lra)) as [M _]. rewrite (round8_comp _ _ M). now apply allowed_frac.
    - rewrite H5. reflexivity.
    - rewrite H5. unfold k. assert (En : n == inject_Z (c_kmax c) * inject_Z factor) by (rewrite H4, inject_Z_mult; reflexivity). rewrite En.
      assert (E2 : tmax - t0 == c_dt c * inject_Z (c_kmax c)) by lra. rewrite E2. field. lra.
  Qed.
  (** what is accepted is near a whole multiple *)
  Lemma cget_near k t : cget c k = Some t -> t == t0 + k * c_dt c /\ exists j, Qabs (k - inject_Z j / inject_Z factor) <= 1 / E8.
  Proof.
    intros H. apply cget_spec in H as (-> & _ & _ & Hin). destruct (new_cseq_spec _ _ _ _ _ Hc) as (_ & H2 & _ & _ & H5 & _ & _ & A). rewrite H5. split; [reflexivity|]. rewrite A in Hin. apply in_map_iff in Hin as (i & E & Hi).
    exists (Qfloor k * factor + Z.of_nat i)%Z. unfold round8 in E. pose proof (inj_pos _ H2) as Fp.
    pose proof (rnd_near (inject_Z (Z.of_nat i) / inject_Z factor * E8)) as R1. pose proof (rnd_near (mod1 k * E8)) as R2. rewrite E in R1.
    apply Qabs_Qle_condition in R1, R2. apply Qabs_Qle_condition.
    assert (Ek : k - inject_Z (Qfloor k * factor + Z.of_nat i) / inject_Z factor == mod1 k - inject_Z (Z.of_nat i) / inject_Z factor). { unfold mod1. rewrite inject_Z_plus, inject_Z_mult. field. lra. }
    rewrite Ek. set (u := inject_Z (Z.of_nat i) / inject_Z factor) in *. unfold E8 in *. change (1 / 100000000) with (1 # 100000000). lra.
  Qed.
  Lemma cget_outside k : k < - (1) \/ inject_Z (c_kmax c) + 1 < k -> cget c k = None.
  Proof. intros H. destruct (cget c k) as [t|] eqn:E; [|reflexivity]. apply cget_spec in E. lra. Qed.
  Lemma cget_monotone k k' t t' : cget c k = Some t -> cget c k' = Some t' -> (k < k' <-> t < t').
  Proof. intros H1 H2. apply cget_spec in H1 as (-> & _), H2 as (-> & _). pose proof dt_pos. split; intros; [nra|]. apply Qnot_le_lt. intros L. nra. Qed.
  (** slightly above an integer: accepted; slightly below: rejected *)
  Lemma cget_above j e : (0 <= j <= c_kmax c)%Z -> 0 <= e < (1 # 200000000) -> cget c (inject_Z j + e) = Some (c_t0 c + (inject_Z j + e) * c_dt c).
  Proof.
    intros Hj He. destruct (new_cseq_spec _ _ _ _ _ Hc) as (_ & H2 & H3 & _). apply cget_spec. split; [reflexivity|]. pose proof (inj_le _ _ (proj1 Hj)) as L1. pose proof (inj_le _ _ (proj2 Hj)) as L2. change (inject_Z 0) with 0 in L1. split; [lra|]. split; [lra|].
    destruct (mod1_unique (inject_Z j + e) j e ltac:(reflexivity) ltac:(lra)) as [M _]. rewrite (round8_comp _ _ M). unfold round8. rewrite rnd_small by (unfold E8; lra).
    assert (E0 : round8 (inject_Z 0 / inject_Z factor) = 0%Z). { unfold round8. assert (Z0 : inject_Z 0 / inject_Z factor * E8 == inject_Z 0). { change (inject_Z 0) with 0. unfold Qdiv. rewrite Qmult_0_l, Qmult_0_l. reflexivity. } rewrite (rnd_comp _ _ Z0). apply rnd_Z. }
    rewrite <- E0. apply allowed_frac. lia.
  Qed.
  Lemma cget_below j e : (factor <= 100000000)%Z -> 0 < e < (1 # 200000000) -> cget c (inject_Z j - e) = None.
  Proof.
    intros Hf He. destruct (cget c _) as [t|] eqn:E; [|reflexivity]. exfalso. apply cget_spec in E as (_ & _ & _ & Hin). destruct (new_cseq_spec _ _ _ _ _ Hc) as (_ & H2 & _ & _ & _ & _ & _ & A). pose proof (inj_pos _ H2) as Fp.
    assert (Ej : inject_Z j - e == inject_Z (j - 1) + (1 - e)). { rewrite inj_sub. change (inject_Z 1) with 1. lra. }
    destruct (mod1_unique _ _ _ Ej ltac:(lra)) as [M _]. rewrite (round8_comp _ _ M) in Hin. rewrite A in Hin. apply in_map_iff in Hin as (i & Ei & Hi). apply in_seq in Hi.
    unfold round8 in Ei. pose proof (rnd_near (inject_Z (Z.of_nat i) / inject_Z factor * E8)) as R1. pose proof (rnd_near ((1 - e) * E8)) as R2. rewrite Ei in R1. apply Qabs_Qle_condition in R1, R2.
    set (r := rnd ((1 - e) * E8)) in *. pose proof (frac_range (Z.of_nat i) ltac:(lia)) as [G1 G2]. set (u := inject_Z (Z.of_nat i) / inject_Z factor) in *.
    assert (G3 : (1 # 100000000) <= 1 / inject_Z factor). { apply Qle_shift_div_l; [exact Fp|]. pose proof (inj_le _ _ Hf) as L. change (inject_Z 100000000) with E8 in L. unfold E8 in L. lra. }
    unfold E8 in *. assert (X1 : inject_Z r <= inject_Z 99999999 + (1#2)). { change (inject_Z 99999999) with 99999999. lra. }
    assert (X2 : inject_Z 99999999 + (0#1) < inject_Z r). { change (inject_Z 99999999) with 99999999. lra. }
    assert (Y1 : (r < 100000000)%Z). { rewrite Zlt_Qlt. change (inject_Z 100000000) with 100000000. change (inject_Z 99999999) with 99999999 in X1. lra. }
    assert (Y2 : (99999999 < r)%Z). { rewrite Zlt_Qlt. lra. } lia.
  Qed.
End Const.
Lemma cget_ends t0 tmax n factor c (Hc : new_cseq t0 tmax n factor = Some c) : exists a b, cget c 0 = Some a /\ a == t0 /\ cget c (inject_Z (c_kmax c)) = Some b /\ b == tmax.
Proof.
  destruct (new_cseq_spec _ _ _ _ _ Hc) as (_ & Hf & Hk & _ & H5 & _ & H7 & _).
  assert (E0 : round8 (inject_Z 0 / inject_Z factor) = 0%Z) by (unfold round8; assert (Z0 : inject_Z 0 / inject_Z factor * E8 == inject_Z 0) by (change (inject_Z 0) with 0; unfold Qdiv; rewrite Qmult_0_l, Qmult_0_l; reflexivity); rewrite (rnd_comp _ _ Z0); apply rnd_Z).
  assert (A : forall z, (0 <= z <= c_kmax c)%Z -> forall k, k == inject_Z z -> cget c k = Some (c_t0 c + k * c_dt c)).
  { intros z Hz k Ek. apply (cget_spec _ _ _ _ _ Hc). split; [reflexivity|]. pose proof (inj_le _ _ (proj1 Hz)) as L1. pose proof (inj_le _ _ (proj2 Hz)) as L2. change (inject_Z 0) with 0 in L1. split; [lra|]. split; [lra|].
    destruct (mod1_unique k z 0 ltac:(lra) ltac:(lra)) as [M _]. rewrite (round8_comp _ _ M). change (round8 0) with 0%Z. rewrite <- E0. eapply allowed_frac; eauto. lia. }
  eexists _, _. rewrite (A 0%Z ltac:(lia) 0 ltac:(reflexivity)), (A (c_kmax c) ltac:(lia) _ ltac:(reflexivity)). split; [reflexivity|]. rewrite H5. split; [ring|]. split; [reflexivity|]. rewrite Qmult_comm, H7. ring.
Qed.
