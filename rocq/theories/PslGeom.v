(** The boxes of the periodic slice and the check of its faces. *)
From Coq Require Import Arith ZArith QArith List Bool Lia Lqa Permutation.
From Verif Require Import NdArray LocalNumberingModel Dict GmModel UnModel UnSpec UnProofs PslModel PslSpec PslThms PslNumber.
Import ListNotations.
Local Open Scope nat_scope.

(** ** one axis of boxes *)
Section Axis.
  Context (lo hi : Q) (n : nat) (Hn : 1 <= n) (Hl : (lo < hi)%Q).
  Notation s := (step lo hi n).
  Notation at_ := (at_ lo hi n).
  Lemma n_pos : (0 < inject_Z (Z.of_nat n))%Q.
  Proof. unfold Qlt. simpl. lia. Qed.
  Lemma step_pos : (0 < s)%Q.
  Proof. unfold step. apply Qlt_shift_div_l; [apply n_pos|]. lra. Qed.
  Lemma at_next i : (at_ (i + 1) == at_ i + s)%Q.
  Proof. clear Hn Hl. unfold PslThms.at_. replace (Z.of_nat (i + 1)) with (Z.of_nat i + 1)%Z by lia. rewrite inject_Z_plus. ring. Qed.
  Lemma at_0 : (at_ 0 == lo)%Q.
  Proof. unfold PslThms.at_. simpl. ring. Qed.
  Lemma at_n : (at_ n == hi)%Q.
  Proof. unfold PslThms.at_, step. field. pose proof n_pos. lra. Qed.
  Lemma at_mono i j : i <= j -> (at_ i <= at_ j)%Q.
  Proof.
    induction 1 as [|j H IH]; [lra|]. replace (S j) with (j + 1) by lia. rewrite at_next. pose proof step_pos. lra.
  Qed.
  Lemma at_lt i j : (at_ i < at_ j)%Q -> i < j.
  Proof. intros H. destruct (Nat.lt_ge_cases i j) as [|L]; auto. apply at_mono in L. lra. Qed.
  Lemma axis_cover x : (lo <= x /\ x <= hi)%Q <-> exists a, a < n /\ (at_ a <= x)%Q /\ (x <= at_ a + s)%Q.
  Proof.
    split.
    - intros [H1 H2].
      assert (forall k, 1 <= k -> (x <= at_ k)%Q -> exists a, a < k /\ (at_ a <= x)%Q /\ (x <= at_ a + s)%Q) as G.
      { intros k Hk. induction Hk as [|k Hk IH]; intros Hx.
        - exists 0. change 1 with (0 + 1) in Hx. rewrite at_next in Hx. pose proof at_0. repeat split; try lia; lra.
        - destruct (Qlt_le_dec (at_ k) x) as [L|L].
          + exists k. replace (S k) with (k + 1) in Hx by lia. rewrite at_next in Hx. repeat split; try lia; lra.
          + destruct (IH L) as (a & A & B). exists a. split; [lia|auto]. }
      apply G; auto. rewrite at_n. auto.
    - intros (a & Ha & H1 & H2). pose proof (at_mono 0 a ltac:(lia)). pose proof (at_mono (a + 1) n ltac:(lia)). rewrite at_next in *. rewrite at_0, at_n in *. lra.
  Qed.
  Lemma axis_once x a b : (at_ a < x)%Q -> (x < at_ a + s)%Q -> (at_ b < x)%Q -> (x < at_ b + s)%Q -> a = b.
  Proof.
    intros A1 A2 B1 B2. rewrite <- at_next in A2, B2. assert (a < b + 1) by (apply at_lt; lra). assert (b < a + 1) by (apply at_lt; lra). lia.
  Qed.
  Lemma axis_modulo u v : modulo (hi - lo) (at_ u) (at_ v) <-> u mod n = v mod n.
  Proof.
    pose proof n_pos as Np.
    assert (at_ u - at_ v == inject_Z (Z.of_nat u - Z.of_nat v) * ((hi - lo) / inject_Z (Z.of_nat n)))%Q as E.
    { unfold PslThms.at_, step. unfold Zminus. rewrite inject_Z_plus, inject_Z_opp. ring. }
    split.
    - intros [z Hz]. rewrite E in Hz.
      assert (inject_Z (Z.of_nat u - Z.of_nat v) == inject_Z (z * Z.of_nat n))%Q as F.
      { rewrite inject_Z_mult. apply (Qmult_inj_r _ _ ((hi - lo) / inject_Z (Z.of_nat n))).
        - pose proof step_pos as P. unfold step in P. lra.
        - rewrite Hz. field. lra. }
      apply (proj1 (inject_Z_injective _ _)) in F. apply Nat2Z.inj. rewrite !Nat2Z.inj_mod.
      replace (Z.of_nat u) with (Z.of_nat v + z * Z.of_nat n)%Z by lia. apply Z_mod_plus_full.
    - intros H. exists (Z.of_nat (u / n) - Z.of_nat (v / n))%Z. rewrite E.
      pose proof (Nat.div_mod u n ltac:(lia)) as U. pose proof (Nat.div_mod v n ltac:(lia)) as V. rewrite H in U.
      assert (Z.of_nat u - Z.of_nat v = (Z.of_nat (u / n) - Z.of_nat (v / n)) * Z.of_nat n)%Z as -> by nia.
      rewrite inject_Z_mult. field. lra.
  Qed.
End Axis.

Lemma modulo_eq p q a b c d : (p == q)%Q -> (a == b)%Q -> (c == d)%Q -> (modulo p a c <-> modulo q b d).
Proof.
  intros H1 H2 H3. unfold modulo. split; intros [z E]; exists z.
  - rewrite <- H1, <- H2, <- H3. exact E.
  - rewrite H1, H2, H3. exact E.
Qed.

Section Slice.
  Context (Kx Ky Kz : nat) (Kxp : 1 <= Kx) (Kyp : 1 <= Ky) (Kzp : 1 <= Kz).
  Context (x0 x1 y0 y1 th : Q) (Hx : (x0 < x1)%Q) (Hy : (y0 < y1)%Q) (Hth : (0 < th)%Q).
  Context (m : list (nat * brick)) (S : is_slice Kx Ky Kz x0 x1 y0 y1 th m).
  Notation good := (good Kx Ky Kz x0 x1 y0 y1 th).
  Lemma Hz : (- th / 2 < th / 2)%Q.
  Proof. assert (- th / 2 == - (th / 2))%Q as -> by field. assert (0 < th / 2)%Q by (apply Qlt_shift_div_l; lra). lra. Qed.
  Lemma corner_axis a b c eb (h : bool) : good a b c eb ->
    (corner_at first3 (snd eb) h == at_ x0 x1 Kx (a + Nat.b2n h))%Q /\
    (corner_at second3 (snd eb) h == at_ y0 y1 Ky (b + Nat.b2n h))%Q /\
    (corner_at third3 (snd eb) h == at_ (- th / 2) (th / 2) Kz (c + Nat.b2n h))%Q.
  Proof.
    intros [_ _ O1 O2 O3 D1 D2 D3]. unfold corner_at. destruct h; cbn [Nat.b2n]; rewrite ?at_next, ?Nat.add_0_r, O1, O2, O3, ?D1, ?D2, ?D3; (split; [|split]); ring.
  Qed.
  Lemma label_lab a b c eb hx hy hz : good a b c eb ->
    corner_label (snd eb) hx hy hz = Some (lab Kx Ky Kz (a + Nat.b2n hx) (b + Nat.b2n hy) (c + Nat.b2n hz)).
  Proof. intros G. unfold corner_label. rewrite (g_map _ _ _ _ _ _ _ _ _ _ _ _ G). destruct hx, hy, hz; reflexivity. Qed.
  Lemma slice_corners e br e' br' hx hy hz hx' hy' hz' : In (e, br) m -> In (e', br') m ->
    exists v v', corner_label br hx hy hz = Some v /\ corner_label br' hx' hy' hz' = Some v' /\ v < Kx * Ky * Kz /\
    (v = v' <-> modulo (x1 - x0) (corner_at first3 br hx) (corner_at first3 br' hx') /\
                modulo (y1 - y0) (corner_at second3 br hy) (corner_at second3 br' hy') /\
                modulo th (corner_at third3 br hz) (corner_at third3 br' hz')).
  Proof.
    intros H H'. destruct S as (_ & _ & S2). destruct (S2 _ H) as (a & b & c & Ha & Hb & Hc & G). destruct (S2 _ H') as (a' & b' & c' & Ha' & Hb' & Hc' & G').
    pose proof (label_lab _ _ _ _ hx hy hz G) as L. pose proof (label_lab _ _ _ _ hx' hy' hz' G') as L'. cbn [snd] in *.
    eexists _, _. split; [exact L|]. split; [exact L'|]. split.
    { unfold lab. pose proof (Nat.mod_upper_bound (a + Nat.b2n hx) Kx ltac:(lia)). pose proof (Nat.mod_upper_bound (b + Nat.b2n hy) Ky ltac:(lia)).
      pose proof (Nat.mod_upper_bound (c + Nat.b2n hz) Kz ltac:(lia)).
      set (X := (a + Nat.b2n hx) mod Kx) in *. set (Y := (b + Nat.b2n hy) mod Ky) in *. set (Z := (c + Nat.b2n hz) mod Kz) in *.
      assert (Y + Z * Ky < Kz * Ky) by nia. assert (X + (Y + Z * Ky) * Kx < (Kz * Ky) * Kx) by nia. lia. }
    pose proof (fun h => corner_axis _ _ _ _ h G) as C. pose proof (fun h => corner_axis _ _ _ _ h G') as C'. cbn [snd] in *.
    rewrite (modulo_eq _ (x1 - x0) _ _ _ _ ltac:(reflexivity) (proj1 (C hx)) (proj1 (C' hx'))), axis_modulo by auto.
    rewrite (modulo_eq _ (y1 - y0) _ _ _ _ ltac:(reflexivity) (proj1 (proj2 (C hy))) (proj1 (proj2 (C' hy')))), axis_modulo by auto.
    rewrite (modulo_eq th (th / 2 - - th / 2) _ _ _ _ ltac:(field) (proj2 (proj2 (C hz))) (proj2 (proj2 (C' hz')))), axis_modulo by (auto; apply Hz).
    split; [intros E; now apply lab_inj in E|]. intros (E1 & E2 & E3). now apply lab_ext.
  Qed.
  Lemma slice_cover x y z :
    ((x0 <= x /\ x <= x1) /\ (y0 <= y /\ y <= y1) /\ (- th / 2 <= z /\ z <= th / 2))%Q <-> exists e br, In (e, br) m /\ inside false br x y z.
  Proof.
    rewrite (axis_cover x0 x1 Kx Kxp Hx), (axis_cover y0 y1 Ky Kyp Hy), (axis_cover _ _ Kz Kzp Hz). destruct S as (_ & S1 & S2). split.
    - intros ((a & Ha & A1 & A2) & (b & Hb & B1 & B2) & (c & Hc & C1 & C2)). destruct (S1 a b c Ha Hb Hc) as ([e br] & Hin & G). exists e, br. split; auto.
      pose proof (corner_axis _ _ _ _ false G) as (F1 & F2 & F3). pose proof (corner_axis _ _ _ _ true G) as (T1 & T2 & T3). cbn [snd Nat.b2n] in *.
      rewrite at_next in T1, T2, T3. rewrite Nat.add_0_r in *. unfold inside. rewrite F1, F2, F3, T1, T2, T3. auto.
    - intros (e & br & Hin & I). destruct (S2 _ Hin) as (a & b & c & Ha & Hb & Hc & G).
      pose proof (corner_axis _ _ _ _ false G) as (F1 & F2 & F3). pose proof (corner_axis _ _ _ _ true G) as (T1 & T2 & T3). cbn [snd Nat.b2n] in *.
      rewrite at_next in T1, T2, T3. rewrite Nat.add_0_r in *. unfold inside in I. rewrite F1, F2, F3, T1, T2, T3 in I.
      destruct I as (I1 & I2 & I3). split; [|split]; [exists a|exists b|exists c]; auto.
  Qed.
  Lemma slice_once e br e' br' x y z : In (e, br) m -> In (e', br') m -> inside true br x y z -> inside true br' x y z -> e = e'.
  Proof.
    intros H H' I I'. destruct S as (_ & _ & S2). destruct (S2 _ H) as (a & b & c & Ha & Hb & Hc & G). destruct (S2 _ H') as (a' & b' & c' & Ha' & Hb' & Hc' & G').
    pose proof (corner_axis _ _ _ _ false G) as (F1 & F2 & F3). pose proof (corner_axis _ _ _ _ true G) as (T1 & T2 & T3).
    pose proof (corner_axis _ _ _ _ false G') as (F1' & F2' & F3'). pose proof (corner_axis _ _ _ _ true G') as (T1' & T2' & T3').
    cbn [snd Nat.b2n] in *. rewrite at_next in T1, T2, T3, T1', T2', T3'. rewrite Nat.add_0_r in *.
    unfold inside in I, I'. rewrite F1, F2, F3, T1, T2, T3 in I. rewrite F1', F2', F3', T1', T2', T3' in I'.
    destruct I as ((? & ?) & (? & ?) & (? & ?)), I' as ((? & ?) & (? & ?) & (? & ?)).
    pose proof (g_num _ _ _ _ _ _ _ _ _ _ _ _ G) as E. pose proof (g_num _ _ _ _ _ _ _ _ _ _ _ _ G') as E'. simpl in E, E'.
    rewrite E, E'. f_equal.
    - eapply (axis_once x0 x1 Kx); eauto.
    - eapply (axis_once y0 y1 Ky); eauto.
    - eapply (axis_once (- th / 2) (th / 2) Kz); eauto. apply Hz.
  Qed.
  Lemma slice_sizes e br : In (e, br) m ->
    (first3 (b_delta br) == (x1 - x0) / inject_Z (Z.of_nat Kx))%Q /\ (second3 (b_delta br) == (y1 - y0) / inject_Z (Z.of_nat Ky))%Q /\
    (third3 (b_delta br) == th / inject_Z (Z.of_nat Kz))%Q.
  Proof.
    intros H. destruct S as (_ & _ & S2). destruct (S2 _ H) as (a & b & c & Ha & Hb & Hc & G).
    destruct G as [_ _ _ _ _ D1 D2 D3]. cbn [snd] in *. rewrite D1, D2, D3. unfold step. repeat split; try reflexivity.
    field. pose proof (n_pos Kz Kzp). lra.
  Qed.
End Slice.
