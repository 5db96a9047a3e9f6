(** Triangles with the longest side on a side of the square. *)
From Coq Require Import List ZArith QArith Qcanon Bool Lia.
From Verif Require Import TrfModel TrfSpec TrfLattice TrfLattice2.
Import ListNotations.
Local Open Scope Z_scope.

Definition onb (p : pt) : Prop := exists s t, p = along s t.
Definition top (k : nat) : Z := 2 * 2 ^ Z.of_nat k.
Lemma lat_m1 k z : lat k z = Qcopp 1 -> z = 0.
Proof. rewrite <- (lat_0 k). apply lat_inj. Qed.
Lemma lat_p1 k z : lat k z = 1%Qc -> z = top k.
Proof. unfold top. rewrite <- (lat_top k) at 1. apply lat_inj. Qed.
Lemma onb_ip k a b : onb (ip k a b) <-> a = 0 \/ a = top k \/ b = 0 \/ b = top k.
Proof.
  unfold onb, ip. split.
  - intros (s & t & E). destruct s; apply pair_equal_spec in E; destruct E as [E1 E2].
    + left. exact (lat_m1 _ _ E1). + right; right; left. exact (lat_m1 _ _ E2).
    + right; right; right. exact (lat_p1 _ _ E2). + right; left. exact (lat_p1 _ _ E1).
  - intros [-> | [-> | [-> | ->]]]; unfold top; rewrite ?lat_0, ?lat_top;
      [exists North | exists South | exists West | exists East]; eexists; reflexivity.
Qed.
Lemma top_even k : exists e, top k = 2 * e /\ 1 <= e.
Proof. exists (2 ^ Z.of_nat k). split; [reflexivity|]. pose proof (Z.pow_pos_nonneg 2 (Z.of_nat k)). lia. Qed.

(** the bottom of the triangle is the segment between 2c and 2c + 2 of side s1, in units of level k *)
Definition bottom_side (s : side) (p : list half_id) (s1 : side) (k : nat) (c : Z) : Prop :=
  length p = (2 * k)%nat /\ 0 <= 2 * c /\ 2 * c + 2 <= top k /\ tmid s p = along s1 (lat k (2 * c + 1)) /\
  match verts s p with (_, v1, v2) =>
    (v1 = along s1 (lat k (2 * c)) /\ v2 = along s1 (lat k (2 * c + 2))) \/
    (v2 = along s1 (lat k (2 * c)) /\ v1 = along s1 (lat k (2 * c + 2))) end.

Lemma along_w k z : ip k z 0 = along West (lat k z). Proof. unfold ip, along. rewrite lat_0. reflexivity. Qed.
Lemma along_e k z : ip k z (top k) = along East (lat k z). Proof. unfold ip, along, top. rewrite lat_top. reflexivity. Qed.
Lemma along_n k z : ip k 0 z = along North (lat k z). Proof. unfold ip, along. rewrite lat_0. reflexivity. Qed.
Lemma along_s k z : ip k (top k) z = along South (lat k z). Proof. unfold ip, along, top. rewrite lat_top. reflexivity. Qed.

Lemma side_cases s p : let v := verts s p in
  (onb (tmid s p) \/ (onb (snd (fst v)) /\ onb (snd v))) -> exists s1 k c, bottom_side s p s1 k c /\
  forall s' p', tmid s' p' = tmid s p -> s' = s /\ p' = p.
Proof.
  intros v H. unfold v in *. clear v. 
  assert (U : (exists s1 k c, bottom_side s p s1 k c /\ ~ (exists s' p', shp s' p' = sopp (shp s p))) ->
    exists s1 k c, bottom_side s p s1 k c /\ forall s' p', tmid s' p' = tmid s p -> s' = s /\ p' = p).
  { intros (s1 & k & c & B & N). exists s1, k, c. split; [exact B|]. intros s' p' E. symmetry in E.
    destruct (tmid_cases _ _ _ _ E) as [[-> ->] | [E' _]]; [auto|]. exfalso. apply N. eauto. }
  apply U. clear U. unfold bottom_side. rewrite tmid_shape in *. destruct (shape_good s p) as [G V]. rewrite V in *. clear V.
  pose proof (fun s' p' => proj1 (shape_good s' p')) as GG. 
  destruct (shp s p) as [[[[[o k] a] b] x] y]. cbn [good] in G. destruct G as (N & D & B1 & B2 & B3 & B4 & B5 & B6).
  cbn [sverts smid snd fst] in *. destruct (top_even k) as (tk & TK & Tpos). fold (top k) in *. 
  destruct o.
  - exfalso. destruct D as [D [c C]]. destruct (top_even (S k)) as (tk' & TK' & _). destruct H as [H | [H1 H2]].
    + apply onb_ip in H. rewrite TK' in H. unfold unit_axis in D. lia.
    + apply onb_ip in H1. apply onb_ip in H2. rewrite TK in *. unfold unit_axis in D.
      lia.
  - destruct D as [D [[c C] [d C']]]. destruct (axis_half _ _ D) as (f & g & F & Gg & Ex & Ey & Ax). rewrite F, Gg in *. unfold inb in *. fold (top k) in *.
    assert (NO : forall P : Prop, (a + f = 0 \/ a + f = top k) /\ (f = 1 \/ f = -1) \/ (b + g = 0 \/ b + g = top k) /\ (g = 1 \/ g = -1) -> 
      (exists s' p', shp s' p' = (false, k, a + (x - y), b + (x + y), - x, - y)) -> P).
    { intros P O (s' & p' & E). exfalso. specialize (GG s' p'). rewrite E in GG. cbn [good] in GG. unfold inb in GG. fold (top k) in GG. lia. }
    cbn [sopp].
    destruct Ax as [[-> Ag] | [-> Af]].
    + assert (O : b + g = 0 \/ b + g = top k).
      { destruct H as [H | [H1 H2]]; [apply onb_ip in H | apply onb_ip in H1; apply onb_ip in H2]; rewrite TK in *; lia. }
      assert (V1 : forall z, b + g = z -> ip k (a + x) (b + y) = ip k (a + g) z /\ ip k (a - y) (b + x) = ip k (a - g) z)
        by (intros z <-; split; apply ip_eq; lia).
      assert (V0 : a + 0 = 2 * c + 1) by lia.
      destruct O as [O | O]; [exists West | exists East]; exists k, c; (split; [|intros E; apply (NO _ ltac:(lia) E)]);
        destruct (V1 _ O) as [-> ->]; rewrite O, V0, ?along_w, ?along_e;
        (split; [cbn iota in N; lia|]); (split; [lia|]); (split; [lia|]); (split; [reflexivity|]);
        destruct Ag as [-> | ->]; [right | left | right | left]; split; f_equal; f_equal; lia.
    + assert (O : a + f = 0 \/ a + f = top k).
      { destruct H as [H | [H1 H2]]; [apply onb_ip in H | apply onb_ip in H1; apply onb_ip in H2]; rewrite TK in *; lia. }
      assert (V1 : forall z, a + f = z -> ip k (a + x) (b + y) = ip k z (b - f) /\ ip k (a - y) (b + x) = ip k z (b + f))
        by (intros z <-; split; apply ip_eq; lia).
      assert (V0 : b + 0 = 2 * d + 1) by lia.
      destruct O as [O | O]; [exists North | exists South]; exists k, d; (split; [|intros E; apply (NO _ ltac:(lia) E)]);
        destruct (V1 _ O) as [-> ->]; rewrite O, V0, ?along_n, ?along_s;
        (split; [cbn iota in N; lia|]); (split; [lia|]); (split; [lia|]); (split; [reflexivity|]);
        destruct Af as [-> | ->]; [left | right | left | right]; split; f_equal; f_equal; lia.
Qed.
Lemma mid_side s p : onb (tmid s p) -> exists s1 k c, bottom_side s p s1 k c.
Proof. intros H. destruct (side_cases s p (or_introl H)) as (s1 & k & c & B & _). eauto. Qed.
Lemma ends_side s p : onb (snd (fst (verts s p))) -> onb (snd (verts s p)) -> exists s1 k c, bottom_side s p s1 k c.
Proof. intros H H'. destruct (side_cases s p (or_intror (conj H H'))) as (s1 & k & c & B & _). eauto. Qed.
Lemma mid_side_unique s p s' p' : onb (tmid s p) -> tmid s' p' = tmid s p -> s' = s /\ p' = p.
Proof. intros H E. destruct (side_cases s p (or_introl H)) as (s1 & k & c & _ & U). exact (U _ _ E). Qed.
