(** Triangles of the reference square: their names are their vertices, and the middle of the longest side tells the side. *)
From Coq Require Import List ZArith QArith Qcanon Bool Lia.
From Verif Require Import TrfModel TrfSpec TrfLattice.
Import ListNotations.
Local Open Scope Z_scope.

Lemma good_len T n n' : good T n -> good T n' -> n = n'.
Proof. destruct T as [[[[[o k] a] b] x] y]. cbn. intros [-> _] [-> _]. reflexivity. Qed.
Lemma shape_eq (o : bool) (k : nat) (a b x y a' b' x' y' : Z) : a = a' -> b = b' -> x = x' -> y = y' -> (o, k, a, b, x, y) = (o, k, a', b', x', y').
Proof. intros; subst; reflexivity. Qed.
Lemma shape_eq_inv (o o' : bool) (k k' : nat) (a b x y a' b' x' y' : Z) : (o, k, a, b, x, y) = (o', k', a', b', x', y') ->
  a = a' /\ b = b' /\ x = x' /\ y = y'.
Proof. intros E. inversion E. auto. Qed.
Lemma shp_step_inj T T' n h h' : good T n -> good T' n -> sstep T h = sstep T' h' -> T = T' /\ h = h'.
Proof.
  destruct T as [[[[[o k] a] b] x] y], T' as [[[[[o' k'] a'] b'] x'] y']. cbn [good].
  intros (N & D & _) (N' & D' & _). destruct o, o'; cbn iota in N, N'; try lia; assert (k = k') by lia; subst k'; clear N N'.
  - destruct D as [D [c C]], D' as [D' [c' C']]. unfold unit_axis in *.
    destruct h, h'; cbn [sstep]; intros E; apply shape_eq_inv in E; destruct E as (? & ? & ? & ?); (split; [|reflexivity]) || exfalso.
    + apply shape_eq; lia.
    + lia.
    + lia.
    + apply shape_eq; lia.
  - destruct D as [D [[c C] [d C2]]], D' as [D' [[c' C'] [d' C2']]]. unfold unit_diag in *.
    assert (Hf : x - y = 2 * ((x - y) / 2)) by (destruct D as [[-> | ->] [-> | ->]]; reflexivity).
    assert (Hg : x + y = 2 * ((x + y) / 2)) by (destruct D as [[-> | ->] [-> | ->]]; reflexivity).
    assert (Hf' : x' - y' = 2 * ((x' - y') / 2)) by (destruct D' as [[-> | ->] [-> | ->]]; reflexivity).
    assert (Hg' : x' + y' = 2 * ((x' + y') / 2)) by (destruct D' as [[-> | ->] [-> | ->]]; reflexivity).
    cbn [sstep]. set (f := (x - y) / 2) in *. set (g := (x + y) / 2) in *. set (f' := (x' - y') / 2) in *. set (g' := (x' + y') / 2) in *.
    destruct h, h'; intros E; apply shape_eq_inv in E; destruct E as (? & ? & ? & ?); (split; [|reflexivity]) || exfalso.
    + apply shape_eq; lia.
    + lia.
    + lia.
    + apply shape_eq; lia.
Qed.
Lemma shp_inj s p s' p' : shp s p = shp s' p' -> s = s' /\ p = p'.
Proof.
  revert s' p'. induction p as [|h p IH] using rev_ind; intros s' p' E;
    pose proof (proj1 (shape_good s' p')) as G'; rewrite <- E in G';
    pose proof (good_len _ _ _ G' (proj1 (shape_good _ _))) as L.
  - destruct p'; [|discriminate]. split; [|reflexivity]. destruct s, s'; cbn in E; congruence.
  - destruct (@exists_last _ p') as (q & h' & ->). { intros ->. rewrite app_length in L. cbn in L. lia. }
    rewrite !app_length in L. cbn in L. rewrite !shp_snoc in E.
    apply (shp_step_inj _ _ (length p)) in E; [|apply shape_good|replace (length p) with (length q) by lia; apply shape_good].
    destruct E as [E ->]. apply IH in E. destruct E as [-> ->]. auto.
Qed.

(** the middle of the longest side, the side opposite to vertex 0 *)
Definition tmid (s : side) (p : list half_id) : pt := match verts s p with (_, v1, v2) => mid v1 v2 end.
Definition smid (T : shape) : pt :=
  match T with
  | (false, k, a, b, x, y) => ip k (a + (x - y) / 2) (b + (x + y) / 2)
  | (true, k, a, b, x, y) => ip (S k) (2 * a + (x - y)) (2 * b + (x + y))
  end.
Definition sopp (T : shape) : shape :=
  match T with (o, k, a, b, x, y) => (o, k, a + (x - y), b + (x + y), - x, - y) end.
Lemma axis_half x y : unit_diag x y -> exists f g, (x - y) / 2 = f /\ (x + y) / 2 = g /\ x = f + g /\ y = g - f /\
  (f = 0 /\ (g = 1 \/ g = -1) \/ g = 0 /\ (f = 1 \/ f = -1)).
Proof. intros [[-> | ->] [-> | ->]]; eexists; eexists; (split; [reflexivity|]); (split; [reflexivity|]); repeat split; try reflexivity; auto. Qed.

Lemma tmid_shape s p : tmid s p = smid (shp s p).
Proof.
  unfold tmid. destruct (shape_good s p) as [G V]. rewrite V. destruct (shp s p) as [[[[[o k] a] b] x] y]. cbn [sverts smid].
  cbn in G. destruct G as (_ & D & _). destruct o.
  - pose proof (mid_lat k (a + x) (b + y) (a - y) (b + x)) as E. rewrite <- surjective_pairing in E. rewrite E. replace (a + x + (a - y)) with (2 * a + (x - y)) by ring. replace (b + y + (b + x)) with (2 * b + (x + y)) by ring. reflexivity.
  - destruct D as [D _]. destruct (axis_half _ _ D) as (f & g & -> & -> & -> & -> & _). apply mid_lat2; lia.
Qed.

Lemma lat_oo k k' z z' c c' : lat k z = lat k' z' -> z = 2 * c + 1 -> z' = 2 * c' + 1 -> k = k' /\ z = z'.
Proof. intros H -> ->. apply lat_odd_level in H. lia. Qed.
Lemma lat_oe k k' z z' c c' : lat k z = lat k' z' -> z = 2 * c + 1 -> z' = 2 * c' -> (k < k')%nat.
Proof. intros H -> ->. eapply lat_odd_even; eassumption. Qed.

Lemma odd2 a t : t = 1 \/ t = -1 -> exists d, 2 * a + t = 2 * d + 1.
Proof. intros [-> | ->]; [exists a | exists (a - 1)]; lia. Qed.
Lemma even2 a t : t = 1 \/ t = -1 -> exists d, 2 * a + 1 + t = 2 * d.
Proof. intros [-> | ->]; [exists (a + 1) | exists a]; lia. Qed.
Lemma smid_opp T T' n n' : good T n -> good T' n' -> smid T = smid T' -> T' = T \/ T' = sopp T.
Proof.
  destruct T as [[[[[o k] a] b] x] y], T' as [[[[[o' k'] a'] b'] x'] y']. cbn [good smid sopp].
  intros (N & D & _) (N' & D' & _) E.
  destruct o, o'; apply pair_equal_spec in E; destruct E as [EX EY].
  - destruct D as [D [c C]], D' as [D' [c' C']]. unfold unit_axis in *.
    assert (P1 : exists d, 2 * a + (x - y) = 2 * d + 1) by (apply odd2; lia).
    assert (P2 : exists d, 2 * b + (x + y) = 2 * d + 1) by (apply odd2; lia).
    assert (P3 : exists d, 2 * a' + (x' - y') = 2 * d + 1) by (apply odd2; lia).
    assert (P4 : exists d, 2 * b' + (x' + y') = 2 * d + 1) by (apply odd2; lia).
    destruct P1 as [d1 P1], P2 as [d2 P2], P3 as [d3 P3], P4 as [d4 P4].
    destruct (lat_oo _ _ _ _ _ _ EX P1 P3) as [K X]. destruct (lat_oo _ _ _ _ _ _ EY P2 P4) as [_ Y].
    injection K as <-. clear P1 P2 P3 P4 EX EY.
    assert (a' = a /\ b' = b /\ x' = x /\ y' = y \/ a' = a + (x - y) /\ b' = b + (x + y) /\ x' = - x /\ y' = - y) as [(-> & -> & -> & ->) | (-> & -> & -> & ->)] by lia; auto.
  - exfalso. destruct D as [D [c C]], D' as [D' [[c' C'] [d' C2']]]. unfold unit_axis in *.
    destruct (axis_half _ _ D') as (f & g & F & G & Ex & Ey & Ax). rewrite F, G in *.
    assert (P1 : exists d, 2 * a + (x - y) = 2 * d + 1) by (apply odd2; lia).
    assert (P2 : exists d, 2 * b + (x + y) = 2 * d + 1) by (apply odd2; lia).
    destruct P1 as [d1 P1], P2 as [d2 P2]. destruct Ax as [[-> Ag] | [-> Af]].
    + destruct (lat_oo _ _ _ _ _ c' EX P1 ltac:(lia)) as [K _]. 
      assert (exists e, b' + g = 2 * e) as [e He] by (destruct (even2 d' _ ltac:(eassumption)) as [e He]; exists e; lia).
      pose proof (lat_oe _ _ _ _ _ _ EY P2 He). lia.
    + destruct (lat_oo _ _ _ _ _ d' EY P2 ltac:(lia)) as [K _]. 
      assert (exists e, a' + f = 2 * e) as [e He] by (destruct (even2 c' _ ltac:(eassumption)) as [e He]; exists e; lia).
      pose proof (lat_oe _ _ _ _ _ _ EX P1 He). lia.
  - exfalso. rename D into D0. destruct D' as [D [c C]], D0 as [D' [[c' C'] [d' C2']]]. unfold unit_axis in *.
    destruct (axis_half _ _ D') as (f & g & F & G & Ex & Ey & Ax). rewrite F, G in *. symmetry in EX, EY.
    assert (P1 : exists d, 2 * a' + (x' - y') = 2 * d + 1) by (apply odd2; lia).
    assert (P2 : exists d, 2 * b' + (x' + y') = 2 * d + 1) by (apply odd2; lia).
    destruct P1 as [d1 P1], P2 as [d2 P2]. destruct Ax as [[-> Ag] | [-> Af]].
    + destruct (lat_oo _ _ _ _ _ c' EX P1 ltac:(lia)) as [K _]. 
      assert (exists e, b + g = 2 * e) as [e He] by (destruct (even2 d' _ ltac:(eassumption)) as [e He]; exists e; lia).
      pose proof (lat_oe _ _ _ _ _ _ EY P2 He). lia.
    + destruct (lat_oo _ _ _ _ _ d' EY P2 ltac:(lia)) as [K _]. 
      assert (exists e, a + f = 2 * e) as [e He] by (destruct (even2 c' _ ltac:(eassumption)) as [e He]; exists e; lia).
      pose proof (lat_oe _ _ _ _ _ _ EX P1 He). lia.
  - destruct D as [D [[c C] [d C2]]], D' as [D' [[c' C'] [d' C2']]].
    destruct (axis_half _ _ D) as (f & g & F & G & Ex & Ey & Ax). rewrite F, G in *.
    destruct (axis_half _ _ D') as (f' & g' & F' & G' & Ex' & Ey' & Ax'). rewrite F', G' in *.
    assert (Ev : forall z t, (t = 1 \/ t = -1) -> exists e, 2 * z + 1 + t = 2 * e) by (intros z t [-> | ->]; [exists (z + 1); lia | exists z; lia]).
    destruct Ax as [[-> Ag] | [-> Af]], Ax' as [[-> Ag'] | [-> Af']].
    + destruct (lat_oo _ _ _ _ c c' EX ltac:(lia) ltac:(lia)) as [<- X]. apply lat_inj in EY. clear EX Ev.
      assert (a' = a /\ b' = b /\ x' = x /\ y' = y \/ a' = a + (x - y) /\ b' = b + (x + y) /\ x' = - x /\ y' = - y) as [(-> & -> & -> & ->) | (-> & -> & -> & ->)] by lia; auto.
    + exfalso. destruct (Ev c' f' Af') as [e1 H1]. destruct (Ev d g Ag) as [e2 H2].
      pose proof (lat_oe _ _ _ _ c e1 EX ltac:(lia) ltac:(lia)). symmetry in EY. pose proof (lat_oe _ _ _ _ d' e2 EY ltac:(lia) ltac:(lia)). lia.
    + exfalso. destruct (Ev c f Af) as [e1 H1]. destruct (Ev d' g' Ag') as [e2 H2].
      pose proof (lat_oe _ _ _ _ d e2 EY ltac:(lia) ltac:(lia)). symmetry in EX. pose proof (lat_oe _ _ _ _ c' e1 EX ltac:(lia) ltac:(lia)). lia.
    + destruct (lat_oo _ _ _ _ d d' EY ltac:(lia) ltac:(lia)) as [<- Y]. apply lat_inj in EX. clear EY Ev.
      assert (a' = a /\ b' = b /\ x' = x /\ y' = y \/ a' = a + (x - y) /\ b' = b + (x + y) /\ x' = - x /\ y' = - y) as [(-> & -> & -> & ->) | (-> & -> & -> & ->)] by lia; auto.
Qed.

(** same middle: the same triangle, or the other one with this side, of the same depth *)
Lemma tmid_cases s p s' p' : tmid s p = tmid s' p' ->
  (s = s' /\ p = p') \/ (shp s' p' = sopp (shp s p) /\ length p = length p').
Proof.
  rewrite !tmid_shape. intros H. pose proof (proj1 (shape_good s p)) as G. pose proof (proj1 (shape_good s' p')) as G'.
  destruct (smid_opp _ _ _ _ G G' H) as [E | E].
  - left. apply shp_inj. congruence.
  - right. split; [exact E|]. rewrite E in G'. destruct (shp s p) as [[[[[o k] a] b] x] y]. cbn in G, G'.
    destruct G as [-> _], G' as [-> _]. reflexivity.
Qed.
Lemma ip_eq k a b a' b' : a = a' -> b = b' -> ip k a b = ip k a' b'.
Proof. intros; subst; reflexivity. Qed.
Lemma opp_verts s p s' p' : shp s' p' = sopp (shp s p) ->
  match verts s p, verts s' p' with (_, v1, v2), (_, v1', v2') => v1' = v2 /\ v2' = v1 end.
Proof.
  intros E. destruct (shape_good s p) as [_ ->], (shape_good s' p') as [_ ->]. rewrite E.
  destruct (shp s p) as [[[[[o k] a] b] x] y]. cbn [sopp sverts]. split; apply ip_eq; lia.
Qed.
Lemma same_mid_same_bottom s p s' p' : tmid s p = tmid s' p' ->
  match verts s p, verts s' p' with (_, v1, v2), (_, v1', v2') => (v1' = v1 /\ v2' = v2) \/ (v1' = v2 /\ v2' = v1) end.
Proof.
  intros H. destruct (tmid_cases _ _ _ _ H) as [[-> ->] | [E _]].
  - destruct (verts s' p') as [[v0 v1] v2]. auto.
  - apply opp_verts in E. destruct (verts s p) as [[v0 v1] v2], (verts s' p') as [[w0 w1] w2]. auto.
Qed.
Lemma at_most_two s p s1 p1 s2 p2 : tmid s p = tmid s1 p1 -> tmid s p = tmid s2 p2 ->
  (s1, p1) <> (s, p) -> (s2, p2) <> (s, p) -> (s1, p1) = (s2, p2).
Proof.
  intros H1 H2 N1 N2. destruct (tmid_cases _ _ _ _ H1) as [[-> ->] | [E1 _]]; [congruence|].
  destruct (tmid_cases _ _ _ _ H2) as [[-> ->] | [E2 _]]; [congruence|].
  rewrite <- E2 in E1. apply shp_inj in E1. destruct E1 as [-> ->]. reflexivity.
Qed.

(** the bottom of a triangle that touches the boundary of the square *)
Lemma verts_ip s p : exists k a0 b0 a1 b1 a2 b2, verts s p = (ip k a0 b0, ip k a1 b1, ip k a2 b2) /\
  inb k a0 /\ inb k b0 /\ inb k a1 /\ inb k b1 /\ inb k a2 /\ inb k b2.
Proof.
  destruct (shape_good s p) as [G V]. rewrite V. destruct (shp s p) as [[[[[o k] a] b] x] y]. cbn in G.
  destruct G as (_ & _ & B). cbn [sverts]. eexists; eexists; eexists; eexists; eexists; eexists; eexists. split; [reflexivity|]. tauto.
Qed.
