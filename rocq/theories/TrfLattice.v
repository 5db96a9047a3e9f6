(** The vertices of all triangles of the reference square in integer coordinates. *)
From Coq Require Import List ZArith QArith Qcanon Bool Lia.
From Verif Require Import TrfModel TrfSpec.
Import ListNotations.
Local Open Scope Qc_scope.

Lemma qeqb_spec a b : qeqb a b = true <-> a = b.
Proof. unfold qeqb. destruct (Qc_eq_dec a b); split; congruence. Qed.
Lemma q_of_add a b : q_of (a + b) = q_of a + q_of b.
Proof. unfold q_of, Qcplus. apply Qc_is_canon. cbn [this Q2Qc]. rewrite !Qred_correct, inject_Z_plus. reflexivity. Qed.
Lemma q_of_mul a b : q_of (a * b) = q_of a * q_of b.
Proof. unfold q_of, Qcmult. apply Qc_is_canon. cbn [this Q2Qc]. rewrite !Qred_correct, inject_Z_mult. reflexivity. Qed.
Lemma q_of_opp a : q_of (- a) = - q_of a.
Proof. unfold q_of, Qcopp. apply Qc_is_canon. cbn [this Q2Qc]. rewrite !Qred_correct, inject_Z_opp. reflexivity. Qed.
Lemma q_of_sub a b : q_of (a - b) = q_of a - q_of b.
Proof. unfold Z.sub. rewrite q_of_add, q_of_opp. reflexivity. Qed.
Lemma q_of_le a b : (a <= b)%Z <-> q_of a <= q_of b.
Proof. unfold q_of, Qcle. cbn [this Q2Qc]. rewrite !Qred_correct, <- Zle_Qle. reflexivity. Qed.
Lemma q_of_lt a b : (a < b)%Z <-> q_of a < q_of b.
Proof. unfold q_of, Qclt. cbn [this Q2Qc]. rewrite !Qred_correct, <- Zlt_Qlt. reflexivity. Qed.
Lemma q_of_inj a b : q_of a = q_of b -> a = b.
Proof. intros H. assert (q_of a <= q_of b) by (rewrite H; apply Qcle_refl). assert (q_of b <= q_of a) by (rewrite H; apply Qcle_refl).
  apply q_of_le in H0. apply q_of_le in H1. lia. Qed.
Lemma q_of_1 : q_of 1 = 1. Proof. apply Qc_is_canon. reflexivity. Qed.
Lemma q_of_2 : q_of 2 = 1 + 1. Proof. apply Qc_is_canon. reflexivity. Qed.
Lemma q_of_0 : q_of 0 = 0. Proof. apply Qc_is_canon. reflexivity. Qed.
Lemma half_half : half + half = 1. Proof. apply Qc_is_canon. reflexivity. Qed.
Lemma half_2 : half * (1 + 1) = 1. Proof. apply Qc_is_canon. reflexivity. Qed.

Fixpoint u (k : nat) : Qc := match k with O => 1 | S k => u k * half end.
Definition lat (k : nat) (z : Z) : Qc := q_of z * u k - 1.
Lemma u_pos k : 0 < u k.
Proof. induction k; cbn [u]; [reflexivity|]. apply (Qcmult_lt_compat_r 0 (u k) half) in IHk; [|reflexivity]. rewrite Qcmult_0_l in IHk. exact IHk. Qed.
Lemma u_nz k : u k <> 0. Proof. intros H. pose proof (u_pos k). rewrite H in H0. discriminate. Qed.
Lemma lat_double k z : lat (S k) (2 * z) = lat k z.
Proof. unfold lat. cbn [u]. rewrite q_of_mul, q_of_2. transitivity (q_of z * u k * (half * (1 + 1)) - 1); [ring|]. rewrite half_2. ring. Qed.
Lemma lat_inj k z z' : lat k z = lat k z' -> z = z'.
Proof. unfold lat. intros H. apply q_of_inj. assert (q_of z * u k = q_of z' * u k).
  { replace (q_of z * u k) with (q_of z * u k - 1 + 1) by ring. rewrite H. ring. }
  apply (f_equal (fun t => t / u k)) in H0. assert (forall t, t * u k / u k = t) as E by (intros; field; apply u_nz).
  rewrite !E in H0. exact H0. Qed.
Lemma lat_up j k z : lat (j + k) (z * 2 ^ Z.of_nat j) = lat k z.
Proof. induction j; [cbn [Nat.add]; f_equal; cbn; lia|]. rewrite <- IHj. cbn [Nat.add].
  rewrite <- (lat_double (j + k)). f_equal. rewrite Nat2Z.inj_succ, Z.pow_succ_r; lia. Qed.
Lemma lat_eq k k' z z' : lat k z = lat k' z' -> (z * 2 ^ Z.of_nat k' = z' * 2 ^ Z.of_nat k)%Z.
Proof. intros H. rewrite <- (lat_up k' k), <- (lat_up k k') in H. rewrite (Nat.add_comm k k') in H. exact (lat_inj _ _ _ H). Qed.
Lemma lat_lt k z z' : (z < z')%Z -> lat k z < lat k z'.
Proof. intros H. apply q_of_lt in H. unfold lat. apply (Qcmult_lt_compat_r _ _ (u k) (u_pos k)) in H.
  unfold Qcminus. apply Qclt_minus_iff. apply Qclt_minus_iff in H.
  replace (q_of z' * u k + - (1) + - (q_of z * u k + - (1))) with (q_of z' * u k + - (q_of z * u k)) by ring. exact H. Qed.
Lemma lat_0 k : lat k 0 = -(1). Proof. unfold lat. rewrite q_of_0. ring. Qed.
Lemma lat_top k : lat k (2 * 2 ^ Z.of_nat k) = 1.
Proof. pose proof (lat_up k 0 2) as H. rewrite Nat.add_0_r in H. rewrite H. unfold lat. rewrite q_of_2. cbn [u]. ring. Qed.
Lemma lat_odd_level k k' c c' : lat k (2 * c + 1) = lat k' (2 * c' + 1) -> k = k' /\ c = c'.
Proof.
  intros H. assert (k = k').
  { apply lat_eq in H. destruct (Nat.lt_trichotomy k k') as [L|[L|L]]; [|exact L|].
    - replace k' with (k + S (k' - k - 1))%nat in H by lia. rewrite Nat2Z.inj_add, Z.pow_add_r, Nat2Z.inj_succ, Z.pow_succ_r in H by lia.
      assert ((2 * c + 1) * (2 * 2 ^ Z.of_nat (k' - k - 1)) = 2 * c' + 1)%Z; [|lia].
      apply (Z.mul_reg_r _ _ (2 ^ Z.of_nat k)); [apply Z.pow_nonzero; lia|]. rewrite <- H. ring.
    - replace k with (k' + S (k - k' - 1))%nat in H by lia. rewrite Nat2Z.inj_add, Z.pow_add_r, Nat2Z.inj_succ, Z.pow_succ_r in H by lia.
      assert ((2 * c' + 1) * (2 * 2 ^ Z.of_nat (k - k' - 1)) = 2 * c + 1)%Z; [|lia].
      apply (Z.mul_reg_r _ _ (2 ^ Z.of_nat k')); [apply Z.pow_nonzero; lia|]. rewrite H. ring. }
  subst. apply lat_inj in H. lia. Qed.
Lemma lat_odd_even k k' c c' : lat k (2 * c + 1) = lat k' (2 * c') -> (k < k')%nat.
Proof.
  intros H. apply lat_eq in H. destruct (Nat.lt_ge_cases k k') as [L|L]; [exact L|]. exfalso.
  replace k with (k' + (k - k'))%nat in H by lia. rewrite Nat2Z.inj_add, Z.pow_add_r in H by lia.
  assert (2 * c + 1 = 2 * c' * 2 ^ Z.of_nat (k - k'))%Z; [|lia].
  apply (Z.mul_reg_r _ _ (2 ^ Z.of_nat k')); [apply Z.pow_nonzero; lia|]. rewrite H. ring. Qed.

Definition ip (k : nat) (a b : Z) : pt := (lat k a, lat k b).
(** integer triangle: parity of the depth, level, right angle, leg to vertex 1 *)
Notation shape := (bool * nat * Z * Z * Z * Z)%type.
Definition sverts (T : shape) : pt * pt * pt :=
  match T with (_, k, a, b, x, y) => (ip k a b, ip k (a + x) (b + y), ip k (a - y) (b + x)) end.
Definition shape0 (s : side) : shape :=
  match s with
  | North => (false, O, 1, 1, -1, 1) | South => (false, O, 1, 1, 1, -1)
  | West => (false, O, 1, 1, -1, -1) | East => (false, O, 1, 1, 1, 1) end%Z.
Definition sstep (T : shape) (h : half_id) : shape :=
  match T with
  | (false, k, a, b, x, y) =>
      let f := ((x - y) / 2)%Z in let g := ((x + y) / 2)%Z in
      match h with h0 => (true, k, a + f, b + g, - f, - g) | h2 => (true, k, a + f, b + g, - g, f) end%Z
  | (true, k, a, b, x, y) =>
      match h with
      | h0 => (false, S k, 2 * a + (x - y), 2 * b + (x + y), - (x - y), - (x + y))
      | h2 => (false, S k, 2 * a + (x - y), 2 * b + (x + y), - (x + y), x - y) end%Z
  end.
Definition shp (s : side) (p : list half_id) : shape := fold_left sstep p (shape0 s).
Lemma shp_snoc s p h : shp s (p ++ [h]) = sstep (shp s p) h.
Proof. unfold shp. rewrite fold_left_app. reflexivity. Qed.
Lemma verts_snoc s p h : verts s (p ++ [h]) = split_verts (verts s p) h.
Proof. unfold verts. rewrite fold_left_app. reflexivity. Qed.

Definition unit_diag (x y : Z) := ((x = 1 \/ x = -1) /\ (y = 1 \/ y = -1))%Z.
Definition unit_axis (x y : Z) := (x = 0 /\ (y = 1 \/ y = -1) \/ y = 0 /\ (x = 1 \/ x = -1))%Z.
Definition inb (k : nat) (z : Z) := (0 <= z <= 2 * 2 ^ Z.of_nat k)%Z.
Definition good (T : shape) (n : nat) : Prop :=
  match T with
  | (o, k, a, b, x, y) =>
      n = (2 * k + if o then 1 else 0)%nat /\
      (if o then unit_axis x y /\ exists c, (a + b = 2 * c + 1)%Z
       else unit_diag x y /\ (exists c, a = 2 * c + 1)%Z /\ (exists c, b = 2 * c + 1)%Z) /\
      inb k a /\ inb k b /\ inb k (a + x) /\ inb k (b + y) /\ inb k (a - y) /\ inb k (b + x)
  end.
Lemma mid_lat k a b c d : (fst (mid (ip k a b) (ip k c d)), snd (mid (ip k a b) (ip k c d))) = ip (S k) (a + c) (b + d).
Proof. unfold mid, ip, lat. cbn [fst snd u]. rewrite !q_of_add. 
  assert (E : forall p q r, (p * r - 1 + (q * r - 1)) * half = (p + q) * (r * half) - 1).
  { intros. transitivity ((p + q) * (r * half) - half * (1 + 1)); [ring|]. rewrite half_2. reflexivity. }
  rewrite !E. reflexivity. Qed.
Lemma mid_lat2 k a b c d e f : (a + c = 2 * e)%Z -> (b + d = 2 * f)%Z -> mid (ip k a b) (ip k c d) = ip k e f.
Proof. intros H H'. pose proof (mid_lat k a b c d) as E. rewrite <- surjective_pairing in E. rewrite E, H, H'. unfold ip. rewrite !lat_double. reflexivity. Qed.
Lemma ip_double k a b : ip (S k) (2 * a) (2 * b) = ip k a b.
Proof. unfold ip. rewrite !lat_double. reflexivity. Qed.

Lemma tri_eq k a b c d e f a' b' c' d' e' f' : (a = a' -> b = b' -> c = c' -> d = d' -> e = e' -> f = f' ->
  (ip k a b, ip k c d, ip k e f) = (ip k a' b', ip k c' d', ip k e' f'))%Z.
Proof. intros; subst; reflexivity. Qed.
Lemma shape_good s p : good (shp s p) (length p) /\ verts s p = sverts (shp s p).
Proof.
  induction p as [|h p IH] using rev_ind.
  - destruct s; cbn; (split; [repeat split; unfold inb, unit_diag; cbn; try lia; try (exists 0%Z; reflexivity)|]);
      unfold verts, ip, lat; cbn; repeat f_equal; apply Qc_is_canon; reflexivity.
  - rewrite shp_snoc, verts_snoc, app_length. cbn [length]. destruct IH as [G V]. rewrite V.
    destruct (shp s p) as [[[[[o k] a] b] x] y]. cbn [good] in G. destruct G as (N & D & B1 & B2 & B3 & B4 & B5 & B6).
    unfold inb in *. destruct o.
    + destruct D as [D [c C]]. assert (P2 : (2 ^ Z.of_nat (S k) = 2 * 2 ^ Z.of_nat k)%Z) by (rewrite Nat2Z.inj_succ, Z.pow_succ_r; lia).
      split.
      * destruct h; cbn [sstep good]; unfold inb; rewrite ?P2;
          (split; [lia|]); (split; [|repeat split; lia]);
          destruct D as [[-> [-> | ->]] | [-> [-> | ->]]]; unfold unit_diag;
          (split; [lia|]); (split; [first [exists a; lia | exists (a - 1)%Z; lia] | first [exists b; lia | exists (b - 1)%Z; lia]]).
      * cbn [sverts split_verts]. rewrite <- (ip_double k a b), <- (ip_double k (a + x)), <- (ip_double k (a - y)).
        assert (M : mid (ip (S k) (2 * (a + x)) (2 * (b + y))) (ip (S k) (2 * (a - y)) (2 * (b + x))) = ip (S k) (2 * a + (x - y)) (2 * b + (x + y)))
          by (apply mid_lat2; lia).
        destruct h; cbn [sstep sverts]; rewrite M; apply tri_eq; lia.
    + destruct D as [D [[c C] [c' C']]].
      assert (Hf : (x - y = 2 * ((x - y) / 2))%Z) by (destruct D as [[-> | ->] [-> | ->]]; reflexivity).
      assert (Hg : (x + y = 2 * ((x + y) / 2))%Z) by (destruct D as [[-> | ->] [-> | ->]]; reflexivity).
      assert (Ax : unit_axis ((x - y) / 2) ((x + y) / 2)) by (destruct D as [[-> | ->] [-> | ->]]; unfold unit_axis; cbn; lia).
      set (f := ((x - y) / 2)%Z) in *. set (g := ((x + y) / 2)%Z) in *.
      split.
      * destruct h; cbn [sstep good]; fold f g; unfold inb; (split; [lia|]); (split; [|repeat split; lia]);
          (split; [unfold unit_axis in *; lia|]);
          destruct Ax as [[-> [-> | ->]] | [-> [-> | ->]]]; (exists (c + c' + 1)%Z; lia) || (exists (c + c')%Z; lia).
      * cbn [sverts split_verts].
        assert (M : mid (ip k (a + x) (b + y)) (ip k (a - y) (b + x)) = ip k (a + f) (b + g)) by (apply mid_lat2; lia).
        destruct h; cbn [sstep sverts]; fold f g; rewrite M; apply tri_eq; lia.
Qed.
