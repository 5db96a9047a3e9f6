(** * Fields given piece by piece; the operators of samples are the operators of fields *)
From Coq Require Import Reals List Lra Lia Bool FunctionalExtensionality.
From Coquelicot Require Import Coquelicot.
From Verif Require Import FieldModel SampleModel SampleSpec.
Import ListNotations.
Local Open Scope R_scope.

Notation step ints := (fun (out : R) (p : bool * R) => if fst p then place ints (snd p) else out).
Lemma step_false ints l out : existsb fst l = false -> fold_left (step ints) l out = out.
Proof.
  revert out. induction l as [|[b v] l IH]; intros out H; [reflexivity|]. cbn [existsb fst] in H. apply orb_false_iff in H. destruct H as [-> H].
  cbn [fold_left fst]. apply IH. exact H.
Qed.
Lemma piece_last ints l v r d fill : existsb fst r = false -> genpiecewise ints (l ++ (true, v) :: r) d fill = place ints v.
Proof.
  intros H. unfold genpiecewise.
  assert (E : existsb fst (l ++ (true, v) :: r) = true) by (rewrite existsb_app; cbn; apply orb_true_r).
  destruct d as [w|]; rewrite ?E; cbn [negb]; rewrite ?fold_left_app; cbn [fold_left fst snd]; rewrite (step_false ints r) by exact H; reflexivity.
Qed.
Lemma piece_none ints l d fill : existsb fst l = false -> genpiecewise ints l d fill = place ints (match d with Some v => v | None => fill end).
Proof.
  intros H. unfold genpiecewise. destruct d as [w|]; rewrite ?H; cbn [negb].
  - rewrite fold_left_app. reflexivity.
  - apply step_false. exact H.
Qed.
(** conditions of which exactly one holds: the order does not matter *)
Lemma piece_one ints l d fill v : In (true, v) l -> (forall w, In (true, w) l -> w = v) -> genpiecewise ints l d fill = place ints v.
Proof.
  intros I U. assert (H : exists a w b, l = a ++ (true, w) :: b /\ existsb fst b = false).
  { clear U. induction l as [|[c w] l IH]; [destruct I|]. destruct (existsb fst l) eqn:E.
    - apply existsb_exists in E. destruct E as ([c' w'] & I' & E'). cbn in E'. subst c'.
      destruct l as [|p l'] eqn:L; [destruct I'|]. 
      assert (J : exists z, In (true, z) l) by (exists w'; rewrite L; exact I'). rewrite <- L in *. clear I I' w'.
      clear L p l'. 
      assert (K : exists a w b, l = a ++ (true, w) :: b /\ existsb fst b = false).
      { clear IH. induction l as [|[c2 w2] l IH2]; [destruct J as [? []]|]. destruct (existsb fst l) eqn:E2.
        - destruct IH2 as (a & z & b & -> & B).
          + apply existsb_exists in E2. destruct E2 as ([c3 w3] & I3 & E3). cbn in E3. subst c3. exists w3. exact I3.
          + exists ((c2, w2) :: a), z, b. split; [reflexivity|exact B].
        - destruct J as [z [J|J]].
          + injection J as -> ->. exists [], z, l. split; [reflexivity|exact E2].
          + exfalso. assert (X : existsb fst l = true) by (apply existsb_exists; exists (true, z); split; [exact J|reflexivity]). congruence. }
      destruct K as (a & z & b & -> & B). exists ((c, w) :: a), z, b. split; [reflexivity|exact B].
    - destruct I as [I|I].
      + injection I as -> ->. exists [], v, l. split; [reflexivity|exact E].
      + exfalso. assert (X : existsb fst l = true) by (apply existsb_exists; exists (true, v); split; [exact I|reflexivity]). congruence. }
  destruct H as (a & w & b & -> & B). rewrite (piece_last ints a w b d fill B). f_equal. apply U. apply in_or_app. right. left. reflexivity.
Qed.
Lemma int_part_spec v n : IZR n <= v < IZR n + 1 -> n = Int_part v.
Proof.
  intros [A B]. destruct (base_Int_part v) as [C D]. apply Zle_antisym.
  - apply Z.lt_succ_r. apply lt_IZR. rewrite succ_IZR. lra.
  - apply Z.lt_succ_r. apply lt_IZR. rewrite succ_IZR. lra.
Qed.
Lemma truncate_small v : -1 < v < 1 -> truncate v = 0.
Proof.
  intros [A B]. unfold truncate. destruct (Rle_dec 0 v) as [H|H].
  - replace (Int_part v) with 0%Z; [reflexivity|]. apply int_part_spec. cbn. lra.
  - replace (Int_part (- v)) with 0%Z; [cbn; ring|]. apply int_part_spec. cbn. lra.
Qed.
Lemma truncate_int k : truncate (IZR k) = IZR k.
Proof.
  assert (I : forall n, Int_part (IZR n) = n) by (intros n; symmetry; apply int_part_spec; lra).
  unfold truncate. destruct (Rle_dec 0 (IZR k)); [rewrite I; reflexivity|]. replace (- IZR k) with (IZR (- k)) by apply opp_IZR. rewrite I, opp_IZR. ring.
Qed.
Lemma rle_true a b : a <= b -> rle a b = true. Proof. unfold rle. destruct (Rle_dec a b); [reflexivity|lra]. Qed.
Lemma rle_false a b : b < a -> rle a b = false. Proof. unfold rle. destruct (Rle_dec a b); [lra|reflexivity]. Qed.
Lemma rlt_true a b : a < b -> rlt a b = true. Proof. unfold rlt. destruct (Rlt_dec a b); [reflexivity|lra]. Qed.
Lemma rlt_false a b : b <= a -> rlt a b = false. Proof. unfold rlt. destruct (Rlt_dec a b); [lra|reflexivity]. Qed.

Lemma shear_low delta t x y : y <= PI -> shear_u delta t x y = tanh ((y - PI / 2) / delta).
Proof. intros H. unfold shear_u. rewrite rle_true, rlt_false by lra. reflexivity. Qed.
Lemma shear_high delta t x y : PI <= y -> shear_u delta t x y = tanh ((3 * PI / 2 - y) / delta).
Proof.
  intros H. destruct (Req_EM_T y PI) as [->|N].
  - rewrite shear_low by lra. f_equal. f_equal. lra.
  - unfold shear_u. rewrite rle_false, rlt_true by lra. reflexivity.
Qed.
Lemma shear_mirror delta t x y : shear_u delta t x (2 * PI - y) = shear_u delta t x y.
Proof.
  destruct (Rle_dec y PI) as [H|H].
  - rewrite (shear_low _ _ _ y) by lra. rewrite shear_high by lra. f_equal. f_equal. lra.
  - rewrite (shear_high _ _ _ y) by lra. rewrite shear_low by lra. f_equal. f_equal. lra.
Qed.
Lemma loop_value A0 Rad t x y : loop_A false A0 Rad t x y = A0 * Rmax 0 (Rad - sqrt (x ^ 2 + y ^ 2)).
Proof.
  unfold loop_A. cbv zeta. set (r := sqrt (x ^ 2 + y ^ 2)). destruct (Rle_dec r Rad) as [H|H].
  - rewrite rle_true, rlt_false by lra. cbn. rewrite Rmax_right by lra. ring.
  - rewrite rle_false, rlt_true by lra. cbn. rewrite Rmax_left by lra. ring.
Qed.
Lemma loop_ints A0 Rad t x y : 0 <= A0 -> 0 <= Rad -> A0 * Rad < 1 -> loop_A true A0 Rad t x y = 0.
Proof.
  intros HA HR H1. unfold loop_A. cbv zeta. assert (P := sqrt_pos (x ^ 2 + y ^ 2)). set (r := sqrt (x ^ 2 + y ^ 2)) in *. destruct (Rle_dec r Rad) as [H|H].
  - rewrite rle_true, rlt_false by lra. cbn. rewrite truncate_small; [ring|]. nra.
  - rewrite rle_false, rlt_true by lra. cbn. rewrite truncate_small; [ring|]. lra.
Qed.
Lemma loop_dir Lx Ly : Lx <> 0 -> sqrt (Lx ^ 2 + Ly ^ 2) * (1 / sqrt (1 + (Ly / Lx)²)) = Rabs Lx.
Proof.
  intros H. replace (Lx ^ 2 + Ly ^ 2) with (Lx² * (1 + (Ly / Lx)²)) by (unfold Rsqr; field; exact H).
  assert (G : 0 < 1 + (Ly / Lx)²) by (generalize (Rle_0_sqr (Ly / Lx)); lra).
  rewrite sqrt_mult by (try apply Rle_0_sqr; lra). rewrite sqrt_Rsqr_abs. field. apply Rgt_not_eq. apply sqrt_lt_R0. exact G.
Qed.
Lemma loop_velocity Lx Ly t x y : Lx <> 0 -> at2 (loop_u Lx Ly) t x y = (Rabs Lx, Rabs Lx * (Ly / Lx)).
Proof.
  intros H. unfold at2, loop_u. cbv zeta. cbn [a1 a2]. rewrite cos_atan, sin_atan. assert (D := loop_dir Lx Ly H).
  apply f_equal2.
  - rewrite D. ring.
  - rewrite <- D. unfold Rdiv. ring.
Qed.
Lemma loop_right Lx Ly t x y : 0 < Lx -> at2 (loop_u Lx Ly) t x y = (Lx, Ly).
Proof. intros H. rewrite loop_velocity by lra. rewrite Rabs_pos_eq by lra. apply f_equal2; [reflexivity|]. field. lra. Qed.
Lemma loop_left Lx Ly t x y : Lx < 0 -> at2 (loop_u Lx Ly) t x y = (- Lx, - Ly).
Proof. intros H. rewrite loop_velocity by lra. rewrite Rabs_left by lra. apply f_equal2; [reflexivity|]. field. lra. Qed.
Lemma lid_value speed t x y : lid speed t x y = if Rle_dec y (1 / 2) then 0 else speed.
Proof.
  unfold lid. destruct (Rle_dec y (1 / 2)).
  - rewrite rle_true, rlt_false by lra. reflexivity.
  - rewrite rle_false, rlt_true by lra. reflexivity.
Qed.
Lemma disc_p_value t x y : (3 / 4 <= x -> 11 / 20 <= y -> disc_p t x y = 1) /\ (x < 3 / 4 \/ y < 11 / 20 -> disc_p t x y = / 1000000).
Proof.
  unfold disc_p. split.
  - intros A B. rewrite (rlt_false x), (rle_true (75 / 100) x), (rlt_false y), (rle_true (11 / 20) y) by lra. reflexivity.
  - intros A. destruct (Rlt_dec x (3 / 4)) as [H|H].
    + rewrite (rlt_true x), (rle_false (75 / 100) x) by lra. reflexivity.
    + rewrite (rlt_false x), (rle_true (75 / 100) x), (rlt_true y), (rle_false (11 / 20) y) by lra. reflexivity.
Qed.
Lemma disc_n_value t x y : (3 / 4 <= x -> y <= 9 / 20 -> disc_n t x y = 1) /\ (x < 3 / 4 \/ 9 / 20 < y -> disc_n t x y = / 1000000).
Proof.
  unfold disc_n. split.
  - intros A B. rewrite (rlt_false x), (rle_true (75 / 100) x), (rlt_false (9 / 20) y), (rle_true y (9 / 20)) by lra. reflexivity.
  - intros A. destruct (Rlt_dec x (3 / 4)) as [H|H].
    + rewrite (rlt_true x), (rle_false (75 / 100) x) by lra. reflexivity.
    + rewrite (rlt_false x), (rle_true (75 / 100) x), (rlt_true (9 / 20) y), (rle_false y (9 / 20)) by lra. reflexivity.
Qed.
Lemma disc_positive t x y : 0 < disc_p t x y /\ 0 < disc_n t x y.
Proof.
  split.
  - destruct (Rlt_dec x (3 / 4)); [|destruct (Rlt_dec y (11 / 20))].
    + rewrite (proj2 (disc_p_value t x y)) by lra. lra.
    + rewrite (proj2 (disc_p_value t x y)) by lra. lra.
    + rewrite (proj1 (disc_p_value t x y)) by lra. lra.
  - destruct (Rlt_dec x (3 / 4)); [|destruct (Rlt_dec (9 / 20) y)].
    + rewrite (proj2 (disc_n_value t x y)) by lra. lra.
    + rewrite (proj2 (disc_n_value t x y)) by lra. lra.
    + rewrite (proj1 (disc_n_value t x y)) by lra. lra.
Qed.
