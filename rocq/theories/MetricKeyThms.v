From Coq Require Import ZArith QArith Qround Qabs List Lia Lqa Arith.
From Verif Require Import NdArray IncidenceModel IncidenceSpec IncidenceProofs MeshModel MeshSpec MeshProofs IndexMapThms MetricKeyModel.
Import ListNotations.
Local Open Scope Q_scope.

Lemma rnd_near q : Qabs (inject_Z (rnd q) - q) <= 1 # 2.
Proof.
  unfold rnd. pose proof (Qfloor_le q) as H1. pose proof (Qlt_floor q) as H2.
  rewrite inject_Z_plus in H2. change (inject_Z 1) with 1 in H2.
  apply Qabs_Qle_condition.
  destruct (Qcompare_spec (q - inject_Z (Qfloor q)) (1#2)) as [H|H|H].
  - destruct (Z.even _); rewrite ?inject_Z_plus; change (inject_Z 1) with 1; lra.
  - lra.
  - rewrite ?inject_Z_plus; change (inject_Z 1) with 1; lra.
Qed.

Lemma round5_near q : - (1 # 200000) <= round5 q - q <= 1 # 200000.
Proof.
  unfold round5. pose proof (rnd_near (q * 100000)) as H. apply Qabs_Qle_condition in H.
  set (z := inject_Z _) in *. assert (z / 100000 == z * (1 # 100000)) as -> by (unfold Qdiv; reflexivity). lra.
Qed.

Lemma len_key_close p L L' : 0 <= p -> len_key p L = len_key p L' ->
  Qabs (p * L - p * L') <= (1 + p) * (1 # 100000).
Proof.
  intros Hp E. unfold len_key in E.
  pose proof (rnd_near (p * round5 L * 100000)) as H1. pose proof (rnd_near (p * round5 L' * 100000)) as H2.
  rewrite E in H1. apply Qabs_Qle_condition in H1, H2. set (k := inject_Z _) in *.
  pose proof (round5_near L) as [H3 H3']. pose proof (round5_near L') as [H4 H4'].
  set (r := round5 L) in *. set (r' := round5 L') in *.
  assert (p * (r - L) <= p * (1 # 200000) /\ p * (- (1 # 200000)) <= p * (r - L)) as [A1 A2].
  { split; rewrite !(Qmult_comm p); apply Qmult_le_compat_r; auto. }
  assert (p * (r' - L') <= p * (1 # 200000) /\ p * (- (1 # 200000)) <= p * (r' - L')) as [B1 B2].
  { split; rewrite !(Qmult_comm p); apply Qmult_le_compat_r; auto. }
  assert (p * (r - L) == p * r - p * L) as EA by ring. assert (p * (r' - L') == p * r' - p * L') as EB by ring.
  rewrite EA in A1, A2. rewrite EB in B1, B2. clear EA EB.
  apply Qabs_Qle_condition. set (pr := p * r) in *. set (pr' := p * r') in *.
  set (pl := p * L) in *. set (pl' := p * L') in *.
  assert ((1 + p) * (1 # 100000) == (1#100000) + p * (1#100000)) as -> by ring.
  split; lra.
Qed.

(** equal keys: the physical lengths differ by at most (1+p)e-5 along every axis *)
Lemma metric_key_close paras layout ix ix' : Forall (fun p => 0 <= p) paras ->
  length layout = length paras -> length ix = length paras -> length ix' = length paras ->
  metric_key paras layout ix = metric_key paras layout ix' ->
  forall a p L i i', nth_error paras a = Some p -> nth_error layout a = Some L ->
    nth_error ix a = Some i -> nth_error ix' a = Some i' ->
    Qabs (p * nth i L 0 - p * nth i' L 0) <= (1 + p) * (1 # 100000).
Proof.
  unfold metric_key. intros Hp. revert layout ix ix'.
  induction Hp as [|p0 paras Hp0 Hp IH]; intros [|L0 layout] [|i0 ix] [|i0' ix']; simpl; try (intros; discriminate).
  - intros _ _ _ _ [|a]; discriminate.
  - intros [= E1] [= E2] [= E3] [= K1 K2] [|a] p L i i'; simpl.
    + intros [= ->] [= ->] [= ->] [= ->]. now apply len_key_close.
    + apply (IH layout ix ix' E1 E2 E3 K2 a p L i i').
Qed.

Lemma rnd_small q : 0 <= q < (1 # 2) -> rnd q = 0%Z.
Proof.
  intros [H1 H2]. unfold rnd.
  assert (Qfloor q = 0%Z) as E.
  { pose proof (Qfloor_le q) as A. pose proof (Qlt_floor q) as B. rewrite inject_Z_plus in B. change (inject_Z 1) with 1 in B.
    assert (inject_Z (Qfloor q) < inject_Z 1) as C by (change (inject_Z 1) with 1; lra).
    assert (inject_Z (-1) < inject_Z (Qfloor q)) as D by (change (inject_Z (-1)) with (-1#1); lra).
    rewrite <- Zlt_Qlt in C, D. lia. }
  rewrite E. change (inject_Z 0) with 0.
  destruct (Qcompare_spec (q - 0) (1#2)) as [H|H|H]; auto; lra.
Qed.

Lemma len_key_small p L : 0 <= L < (1 # 200000) -> len_key p L = 0%Z.
Proof.
  intros [H1 H2]. unfold len_key, round5. rewrite (rnd_small (L * 100000)) by lra.
  assert (p * (inject_Z 0 / 100000) * 100000 == 0) as E by (change (inject_Z 0) with 0; unfold Qdiv; ring).
  apply rnd_small. rewrite E. split; lra.
Qed.

Lemma zl_eqb_spec x y : (if list_eq_dec Z.eq_dec x y then true else false) = true <-> x = y.
Proof. destruct (list_eq_dec Z.eq_dec x y) as [E|E]; split; auto; discriminate || contradiction. Qed.

(** for every ratio there is a layout of one region with two elements whose
    sizes have this ratio, and which are put into one metric group *)
Lemma metric_key_collision (N : positive) (p : Q) : exists a : Q,
  let layout := [a; inject_Z (Zpos N) * a; 1 - a - inject_Z (Zpos N) * a] in
  Forall (fun x => 0 < x) layout /\ fold_right Qplus 0 layout == 1 /\
  exists arrs n acc gs, gen_numbering 0%nat [[3%nat]] = Some (arrs, n, acc) /\
    gen_groups (fun k k' => if list_eq_dec Z.eq_dec k k' then true else false) arrs [metric_key [p] [layout]] = Some gs /\
    exists k g, In (k, g) gs /\ In 0%nat g /\ In 1%nat g.
Proof.
  exists (1 # (250000 * N)). cbv zeta.
  assert (inject_Z (Zpos N) * (1 # (250000 * N)) == (1 # 250000)) as E.
  { unfold Qeq, inject_Z, Qmult; simpl Qnum; simpl Qden. lia. }
  assert ((1 # (250000 * N)) <= (1 # 250000)) as E2 by (unfold Qle; simpl Qnum; simpl Qden; lia).
  assert (0 < (1 # (250000 * N))) as E3 by reflexivity.
  set (a := 1 # (250000 * N)) in *. set (b := inject_Z (Zpos N) * a) in *.
  split; [|split].
  - constructor; [auto|]. constructor; [rewrite E; reflexivity|]. constructor; [rewrite E; lra|constructor].
  - simpl. ring.
  - set (lay := [a; b; 1 - a - b]).
    destruct (groups_of_mesh (fun k k' => if list_eq_dec Z.eq_dec k k' then true else false)
       zl_eqb_spec [[3%nat]] [metric_key [p] [lay]] eq_refl)
      as (arrs & acc & gs & H1 & H2 & [_ Hcov] & _ & _ & Hg).
    exists arrs, (num_elements [[3%nat]]), acc, gs. split; auto. split; auto.
    assert (In 0%nat (concat (map snd gs))) as H0 by (apply Hcov; unfold num_elements; simpl; lia).
    apply in_concat in H0 as (g & Hin & H0). apply in_map_iff in Hin as ([k g'] & E' & Hin). simpl in E'. subst g'.
    exists k, g. split; auto. split; auto.
    apply (Hg k g 0%nat Hin) in H0 as (R & I & key & Hkey & (dis & r & Hd & Hr & He) & Hk).
    apply (Hg k g 1%nat Hin). exists 0%nat, [1%nat], key.
    destruct R as [|[|]]; try discriminate. injection Hd as <-. injection Hkey as <-.
    split; [reflexivity|]. split.
    { exists [3%nat], 1%nat. repeat split; auto. }
    rewrite <- Hk. assert (I = [0%nat]) as ->.
    { simpl in He. assert (r = 0%nat) by lia. subst r.
      apply (ravelF_inj [3%nat] I [0%nat] 0%nat); auto. }
    unfold metric_key. simpl. f_equal.
    rewrite !len_key_small; auto; lra.
Qed.
