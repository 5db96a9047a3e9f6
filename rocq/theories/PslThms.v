(** The periodic slice: nodes, boxes, numberings. *)
From Coq Require Import Arith ZArith QArith List Bool Lia.
From Verif Require Import NdArray LocalNumberingModel Dict GmModel UnModel UnSpec UnSlices UnPrograms UnThms PslModel PslSpec.
Import ListNotations.
Local Open Scope nat_scope.

(** ** arithmetic *)
Lemma mix n x y x' y' : x < n -> x' < n -> x + y * n = x' + y' * n -> x = x' /\ y = y'.
Proof.
  intros H H' E. assert (y = y') as ->; [|lia].
  destruct (Nat.lt_trichotomy y y') as [L|[L|L]]; auto; exfalso.
  - assert (S y * n <= y' * n) by (apply Nat.mul_le_mono_r; lia). simpl in *. lia.
  - assert (S y' * n <= y * n) by (apply Nat.mul_le_mono_r; lia). simpl in *. lia.
Qed.
Lemma up K a : 1 <= K -> (a + 1) mod K = a mod K -> K = 1.
Proof.
  intros H E. pose proof (Nat.div_mod a K ltac:(lia)) as D. pose proof (Nat.div_mod (a + 1) K ltac:(lia)) as D'.
  rewrite E in D'. assert (K * ((a + 1) / K) = K * (a / K) + 1) as E' by lia.
  destruct (Nat.lt_trichotomy ((a + 1) / K) (a / K)) as [L|[L|L]]; try (rewrite L in *; lia).
  - nia.
  - assert (K * S (a / K) <= K * ((a + 1) / K)) by (apply Nat.mul_le_mono_l; lia). nia.
Qed.
Lemma up_inj K a b : 1 <= K -> a < K -> b < K -> (a + 1) mod K = (b + 1) mod K -> a = b.
Proof.
  intros H Ha Hb. assert (forall c, c < K -> (c + 1) mod K = if c + 1 =? K then 0 else c + 1) as R.
  { intros c Hc. destruct (Nat.eqb_spec (c + 1) K) as [->|N]; [apply Nat.mod_same; lia|apply Nat.mod_small; lia]. }
  rewrite !R by auto. destruct (Nat.eqb_spec (a + 1) K), (Nat.eqb_spec (b + 1) K); lia.
Qed.

Section Slice.
  Context (Kx Ky Kz : nat) (Px : 1 <= Kx) (Py : 1 <= Ky) (Pz : 1 <= Kz).
  Definition lab (a b c : nat) : nat := a mod Kx + (b mod Ky + c mod Kz * Ky) * Kx.
  Lemma lab_inj a b c a' b' c' : lab a b c = lab a' b' c' -> a mod Kx = a' mod Kx /\ b mod Ky = b' mod Ky /\ c mod Kz = c' mod Kz.
  Proof.
    unfold lab. intros H. apply mix in H as [? H]; try (apply Nat.mod_upper_bound; lia).
    apply mix in H as [? H]; try (apply Nat.mod_upper_bound; lia). auto.
  Qed.
  Lemma lab_ext a b c a' b' c' : a mod Kx = a' mod Kx -> b mod Ky = b' mod Ky -> c mod Kz = c' mod Kz -> lab a b c = lab a' b' c'.
  Proof. unfold lab. now intros -> -> ->. Qed.
  Definition labs (a b c : nat) : list nat :=
    [lab (a + 0) (b + 0) (c + 0); lab (a + 1) (b + 0) (c + 0); lab (a + 0) (b + 1) (c + 0); lab (a + 1) (b + 1) (c + 0);
     lab (a + 0) (b + 0) (c + 1); lab (a + 1) (b + 0) (c + 1); lab (a + 0) (b + 1) (c + 1); lab (a + 1) (b + 1) (c + 1)].
  Definition num (a b c : nat) : nat := a + (b + c * Ky) * Kx.

  Lemma mod_cases K i : 1 <= K -> i <= K -> (i < K /\ i mod K = i) \/ (i = K /\ i mod K = 0).
  Proof.
    intros H Hi. destruct (Nat.eq_dec i K) as [->|N]; [right; split; auto; apply Nat.mod_same; lia|left; split; [lia|apply Nat.mod_small; lia]].
  Qed.
  Lemma nodes3_lab i j k : i <= Kx -> j <= Ky -> k <= Kz -> nodes3 Kx Ky Kz i j k = Z.of_nat (lab i j k).
  Proof.
    intros Hi Hj Hk. unfold nodes3, lab, lt2.
    destruct (mod_cases Kx i Px Hi) as [[Ci ->]|[Ci ->]], (mod_cases Ky j Py Hj) as [[Cj ->]|[Cj ->]], (mod_cases Kz k Pz Hk) as [[Ck ->]|[Ck ->]];
    repeat match goal with |- context [?x =? ?y] => destruct (Nat.eqb_spec x y); try lia end; cbn [andb];
    repeat match goal with |- context [?x <? ?y] => destruct (Nat.ltb_spec x y); try lia end; cbn [andb]; f_equal; nia.
  Qed.
  Lemma nodes2_lab i j k : Kz = 1 -> i <= Kx -> j <= Ky -> nodes2 Kx Ky i j = Z.of_nat (lab i j k).
  Proof.
    intros E Hi Hj. unfold nodes2, lab, lt2. rewrite E, Nat.mod_1_r.
    destruct (mod_cases Kx i Px Hi) as [[Ci ->]|[Ci ->]], (mod_cases Ky j Py Hj) as [[Cj ->]|[Cj ->]];
    repeat match goal with |- context [?x =? ?y] => destruct (Nat.eqb_spec x y); try lia end; cbn [andb];
    repeat match goal with |- context [?x <? ?y] => destruct (Nat.ltb_spec x y); try lia end; cbn [andb]; f_equal; nia.
  Qed.
  Lemma full3_ok : full3 Kx Ky Kz (nodes3 Kx Ky Kz) = true.
  Proof.
    unfold full3. apply forallb_forall. intros i Hi. apply forallb_forall. intros j Hj. apply forallb_forall. intros k Hk.
    apply in_seq in Hi, Hj, Hk. rewrite nodes3_lab by lia. apply negb_true_iff, Z.eqb_neq. lia.
  Qed.
  Lemma full2_ok : Kz = 1 -> full2 Kx Ky (nodes2 Kx Ky) = true.
  Proof.
    intros E. unfold full2. apply forallb_forall. intros i Hi. apply forallb_forall. intros j Hj.
    apply in_seq in Hi, Hj. rewrite (nodes2_lab i j 0) by (auto; lia). apply negb_true_iff, Z.eqb_neq. lia.
  Qed.

  (** ** the elements *)
  Context (x0 x1 y0 y1 th : Q).
  Definition step (lo hi : Q) (n : nat) : Q := ((hi - lo) / inject_Z (Z.of_nat n))%Q.
  Definition at_ (lo hi : Q) (n i : nat) : Q := (lo + inject_Z (Z.of_nat i) * step lo hi n)%Q.
  Record good (a b c : nat) (eb : nat * brick) : Prop := {
    g_num : fst eb = num a b c;
    g_map : b_map (snd eb) = labs a b c;
    g_ox : (first3 (b_origin (snd eb)) == at_ x0 x1 Kx a)%Q;
    g_oy : (second3 (b_origin (snd eb)) == at_ y0 y1 Ky b)%Q;
    g_oz : (third3 (b_origin (snd eb)) == at_ (- th / 2) (th / 2) Kz c)%Q;
    g_dx : (first3 (b_delta (snd eb)) == step x0 x1 Kx)%Q;
    g_dy : (second3 (b_delta (snd eb)) == step y0 y1 Ky)%Q;
    g_dz : (third3 (b_delta (snd eb)) == step (- th / 2) (th / 2) Kz)%Q }.
  Definition is_slice (m : list (nat * brick)) : Prop :=
    map fst m = seq 0 (Kx * Ky * Kz) /\
    (forall a b c, a < Kx -> b < Ky -> c < Kz -> exists eb, In eb m /\ good a b c eb) /\
    (forall eb, In eb m -> exists a b c, a < Kx /\ b < Ky /\ c < Kz /\ good a b c eb).
  Lemma seq_shift_map d n : forall s, map (fun i => i + d) (seq s n) = seq (s + d) n.
  Proof. induction n as [|n IH]; intros s; simpl; auto. f_equal. rewrite IH. reflexivity. Qed.
  Lemma seq_rows n d m : flat_map (fun j => map (fun i => i + j * n + d) (seq 0 n)) (seq 0 m) = seq d (n * m).
  Proof.
    induction m as [|m IH]; [now rewrite Nat.mul_0_r|]. rewrite seq_S, flat_map_app, IH. simpl. rewrite app_nil_r.
    replace (n * S m) with (n * m + n) by lia. rewrite seq_app. f_equal.
    rewrite (map_ext _ (fun i => i + (m * n + d))) by (intros; lia). rewrite seq_shift_map. f_equal. lia.
  Qed.
  Lemma seq_blocks n m : flat_map (fun k => seq (k * n) n) (seq 0 m) = seq 0 (n * m).
  Proof.
    induction m as [|m IH]; [now rewrite Nat.mul_0_r|]. rewrite seq_S, flat_map_app, IH. simpl. rewrite app_nil_r.
    replace (n * S m) with (n * m + n) by lia. rewrite seq_app. f_equal. f_equal. lia.
  Qed.
  Lemma map_flat_map {A B C} (f : B -> C) (g : A -> list B) l : map f (flat_map g l) = flat_map (fun a => map f (g a)) l.
  Proof. induction l as [|a l IH]; simpl; auto. now rewrite map_app, IH. Qed.
  Lemma linspace_step lo hi n i : (linspace lo hi n (i + 1) - linspace lo hi n i == step lo hi n)%Q.
  Proof.
    unfold linspace, step. replace (Z.of_nat (i + 1)) with (Z.of_nat i + 1)%Z by lia. rewrite inject_Z_plus. ring.
  Qed.
  Lemma elements3_ok : is_slice (elements3 x0 x1 y0 y1 th Kx Ky Kz (nodes3 Kx Ky Kz)).
  Proof.
    unfold elements3. split; [|split].
    - rewrite map_flat_map. rewrite <- seq_blocks. apply flat_map_ext. intros k. rewrite map_flat_map.
      rewrite <- (seq_rows Kx (k * (Kx * Ky)) Ky). apply flat_map_ext. intros j. rewrite map_map. apply map_ext. intros i. simpl. lia.
    - intros a b c Ha Hb Hc. eexists. split.
      + apply in_flat_map. exists c. split; [apply in_seq; lia|]. apply in_flat_map. exists b. split; [apply in_seq; lia|].
        apply in_map_iff. exists a. split; [reflexivity|apply in_seq; lia].
      + constructor; cbn [fst snd b_map b_origin b_delta first3 second3 third3]; try reflexivity; try apply linspace_step.
        * unfold num. lia.
        * rewrite !nodes3_lab by lia. cbn [map]. rewrite !Nat2Z.id. unfold labs. now rewrite !Nat.add_0_r.
    - intros eb H. apply in_flat_map in H as (c & Hc & H). apply in_flat_map in H as (b & Hb & H). apply in_map_iff in H as (a & <- & Ha).
      apply in_seq in Ha, Hb, Hc. exists a, b, c. repeat (split; [lia|]).
      constructor; cbn [fst snd b_map b_origin b_delta first3 second3 third3]; try reflexivity; try apply linspace_step.
      + unfold num. lia.
      + rewrite !nodes3_lab by lia. cbn [map]. rewrite !Nat2Z.id. unfold labs. now rewrite !Nat.add_0_r.
  Qed.
  Lemma elements2_ok : Kz = 1 -> is_slice (elements2 x0 x1 y0 y1 th Kx Ky (nodes2 Kx Ky)).
  Proof.
    intros E.
    assert (forall a b, a < Kx -> b < Ky -> good a b 0
      (a + b * Kx, {| b_origin := (sx x0 x1 Kx a, sy y0 y1 Ky b, (- th / 2)%Q);
          b_delta := ((sx x0 x1 Kx (a + 1) - sx x0 x1 Kx a)%Q, (sy y0 y1 Ky (b + 1) - sy y0 y1 Ky b)%Q, th);
          b_map := map Z.to_nat [nodes2 Kx Ky a b; nodes2 Kx Ky (a + 1) b; nodes2 Kx Ky a (b + 1); nodes2 Kx Ky (a + 1) (b + 1);
                                 nodes2 Kx Ky a b; nodes2 Kx Ky (a + 1) b; nodes2 Kx Ky a (b + 1); nodes2 Kx Ky (a + 1) (b + 1)] |})) as G.
    { intros a b Ha Hb. constructor; cbn [fst snd b_map b_origin b_delta first3 second3 third3]; try reflexivity; try apply linspace_step.
      - unfold num. lia.
      - unfold labs. rewrite (nodes2_lab a b 0), (nodes2_lab (a + 1) b 0), (nodes2_lab a (b + 1) 0), (nodes2_lab (a + 1) (b + 1) 0) by (auto; lia).
        cbn [map]. rewrite !Nat2Z.id, !Nat.add_0_r. unfold lab. rewrite E, !Nat.mod_1_r. reflexivity.
      - unfold at_. simpl. ring.
      - unfold step. rewrite E. simpl. field. }
    unfold elements2. split; [|split].
    - rewrite map_flat_map, E, Nat.mul_1_r. rewrite <- (seq_rows Kx 0 Ky). apply flat_map_ext. intros j. rewrite map_map. apply map_ext. intros i. simpl. lia.
    - intros a b c Ha Hb Hc. replace c with 0 by lia. eexists. split; [|now apply G].
      apply in_flat_map. exists b. split; [apply in_seq; lia|]. apply in_map_iff. exists a. split; [reflexivity|apply in_seq; lia].
    - intros eb H. apply in_flat_map in H as (b & Hb & H). apply in_map_iff in H as (a & <- & Ha).
      apply in_seq in Ha, Hb. exists a, b, 0. repeat (split; [lia|]). apply G; lia.
  Qed.
End Slice.

Lemma Qltb_iff a b : Qltb a b = true <-> (a < b)%Q.
Proof.
  unfold Qltb. rewrite negb_true_iff. destruct (Qle_bool b a) eqn:E.
  - apply Qle_bool_iff in E. split; [discriminate|]. intros H. exfalso. now apply Qlt_not_le in H.
  - split; auto. intros _. apply Qnot_le_lt. intros H. apply Qle_bool_iff in H. congruence.
Qed.
Definition lay_of (lay : layout) : list Z := match lay with One k => [k; k] | Many l => l end.
Lemma slice_inv lay x0 x1 y0 y1 th levels m : periodic_slice lay x0 x1 y0 y1 th levels = Some m ->
  (0 < th)%Q /\ (x0 < x1)%Q /\ (y0 < y1)%Q /\
  exists Kx Ky Kz, 1 <= Kx /\ 1 <= Ky /\ 1 <= Kz /\ lay_of lay = [Z.of_nat Kx; Z.of_nat Ky] /\ levels = Z.of_nat Kz /\
    is_slice Kx Ky Kz x0 x1 y0 y1 th m.
Proof.
  unfold periodic_slice. fold (lay_of lay).
  destruct (Qltb 0 th) eqn:E1, (Qltb x0 x1) eqn:E2, (Qltb y0 y1) eqn:E3, (Z.leb_spec 1 levels); cbn [andb]; try discriminate.
  apply Qltb_iff in E1, E2, E3.
  destruct (lay_of lay) as [|k0 [|k1 [|]]] eqn:L; try discriminate.
  destruct (Z.ltb_spec 0 k0), (Z.ltb_spec 0 k1); cbn [andb]; try discriminate.
  assert (1 <= Z.to_nat k0 /\ 1 <= Z.to_nat k1 /\ 1 <= Z.to_nat levels) as (A & B & C) by lia.
  intros H'. do 3 (split; [auto|]). exists (Z.to_nat k0), (Z.to_nat k1), (Z.to_nat levels). rewrite !Z2Nat.id by lia. do 5 (split; [auto|]).
  destruct (Nat.eqb_spec (Z.to_nat levels) 1) as [E|N].
  - rewrite (full2_ok _ _ (Z.to_nat levels)) in H' by auto. injection H' as <-. now apply elements2_ok.
  - rewrite full3_ok in H' by auto. injection H' as <-. now apply elements3_ok.
Qed.
Lemma slice_defined lay x0 x1 y0 y1 th levels :
  (exists m, periodic_slice lay x0 x1 y0 y1 th levels = Some m) <->
  (0 < th)%Q /\ (x0 < x1)%Q /\ (y0 < y1)%Q /\ (1 <= levels)%Z /\ exists k0 k1, (1 <= k0)%Z /\ (1 <= k1)%Z /\ lay_of lay = [k0; k1].
Proof.
  split.
  - intros [m H]. apply slice_inv in H as (H1 & H2 & H3 & Kx & Ky & Kz & A & B & C & L & -> & _). repeat (split; auto; try lia).
    exists (Z.of_nat Kx), (Z.of_nat Ky). repeat split; auto; lia.
  - intros (H1 & H2 & H3 & H4 & k0 & k1 & A & B & L). unfold periodic_slice. fold (lay_of lay). rewrite L.
    rewrite (proj2 (Qltb_iff _ _) H1), (proj2 (Qltb_iff _ _) H2), (proj2 (Qltb_iff _ _) H3), (proj2 (Z.leb_le _ _) H4).
    rewrite (proj2 (Z.ltb_lt 0 k0)), (proj2 (Z.ltb_lt 0 k1)) by lia. cbn [andb].
    destruct (Nat.eqb_spec (Z.to_nat levels) 1) as [E|N].
    + rewrite (full2_ok _ _ (Z.to_nat levels)) by (auto; lia). eauto.
    + rewrite full3_ok by lia. eauto.
Qed.
