(** Proofs about axis-parallel geometries. *)
From Coq Require Import QArith Qabs List Lqa Lia Bool.
From Verif Require Import AxisModel AxisSpec AxisCells.
Import ListNotations.
Local Open Scope Q_scope.

Lemma qgt_true : forall a b, qgt a b = true <-> b < a.
Proof. intros; unfold qgt; rewrite negb_true_iff; apply qle_false. Qed.
Lemma qgt_false : forall a b, qgt a b = false <-> a <= b.
Proof. intros; unfold qgt; rewrite negb_false_iff; apply qle_iff. Qed.
Lemma qlt_true : forall a b, qlt a b = true <-> a < b.
Proof. intros; unfold qlt; rewrite negb_true_iff; apply qle_false. Qed.
Lemma qlt_false : forall a b, qlt a b = false <-> b <= a.
Proof. intros; unfold qlt; rewrite negb_false_iff; apply qle_iff. Qed.

Lemma axis_eqb_eq : forall a b, axis_eqb a b = true <-> a = b.
Proof. intros [] []; cbn; split; congruence. Qed.

Lemma axis_dec : forall a b : axis, {a = b} + {a <> b}.
Proof. decide equality. Defined.

(** ** boxes given by corner and sides *)
Definition lo (od : point3 * point3) (b : axis) : Q := fst (sort2 (coo b (fst od)) (coo b (fst od) + coo b (snd od))).
Definition hi (od : point3 * point3) (b : axis) : Q := snd (sort2 (coo b (fst od)) (coo b (fst od) + coo b (snd od))).
Definition pts (od : point3 * point3) : point3 -> Prop := box_points (fst od) (snd od).

Lemma sort2_between : forall a b c, between a b c <-> fst (sort2 a b) <= c /\ c <= snd (sort2 a b).
Proof. intros a b c; unfold between, sort2; qb; cbn [fst snd]; split; intros; lra. Qed.

Lemma sort2_strictly : forall a b c, strictly a b c <-> fst (sort2 a b) < c /\ c < snd (sort2 a b).
Proof. intros a b c; unfold strictly, sort2; qb; cbn [fst snd]; split; intros; lra. Qed.

Lemma sort2_le : forall a b, fst (sort2 a b) <= snd (sort2 a b).
Proof. intros a b; unfold sort2; qb; cbn [fst snd]; lra. Qed.

Lemma sort2_width : forall a d, snd (sort2 a (a + d)) - fst (sort2 a (a + d)) == Qabs d.
Proof.
  intros a d; unfold sort2; qb; cbn [fst snd].
  - rewrite Qabs_pos by lra; lra.
  - rewrite Qabs_neg by lra; lra.
Qed.

Lemma lo_le_hi : forall od b, lo od b <= hi od b.
Proof. intros; apply sort2_le. Qed.

Lemma pts_iff : forall od p, pts od p <-> forall b, lo od b <= coo b p /\ coo b p <= hi od b.
Proof.
  intros od p; unfold pts, box_points, lo, hi. split; intros H b; specialize (H b); apply sort2_between; exact H.
Qed.

Definition mkpt (f : axis -> Q) : point3 := mkP (f AX) (f AY) (f AZ).
Lemma coo_mkpt : forall f b, coo b (mkpt f) = f b.
Proof. intros f []; reflexivity. Qed.

Definition clip (l u x : Q) : Q := if Qle_bool x l then l else if Qle_bool u x then u else x.

Lemma within_box : forall t s g, 0 <= t ->
  (within t (pts g) (pts s) <-> forall b, lo s b - lo g b <= t /\ hi g b - hi s b <= t).
Proof.
  intros t s g T; split.
  - intros W b.
    pose proof (lo_le_hi g) as L.
    destruct (W (mkpt (lo g))) as (q & Q1 & Q2).
    { apply pts_iff; intros c; rewrite coo_mkpt; split; [lra|apply L]. }
    destruct (W (mkpt (hi g))) as (r & R1 & R2).
    { apply pts_iff; intros c; rewrite coo_mkpt; split; [apply L|lra]. }
    rewrite pts_iff in Q1, R1. specialize (Q1 b); specialize (R1 b); specialize (Q2 b); specialize (R2 b).
    rewrite coo_mkpt in Q2, R2. apply Qabs_Qle_condition in Q2. apply Qabs_Qle_condition in R2. split; lra.
  - intros H p Hp. rewrite pts_iff in Hp.
    exists (mkpt (fun b => clip (lo s b) (hi s b) (coo b p))). split.
    + apply pts_iff; intros b; rewrite coo_mkpt. pose proof (lo_le_hi s b). unfold clip; qb; lra.
    + intros b; rewrite coo_mkpt. apply Qabs_Qle_condition.
      specialize (H b); specialize (Hp b). pose proof (lo_le_hi s b). unfold clip; qb; lra.
Qed.

Lemma within_ext : forall t A A' B B', same_points A A' -> same_points B B' -> (within t A B <-> within t A' B').
Proof.
  intros t A A' B B' HA HB; unfold within; split; intros W p Hp.
  - destruct (W p (proj2 (HA p) Hp)) as (q & Q1 & Q2). exists q; split; [apply HB; exact Q1|exact Q2].
  - destruct (W p (proj1 (HA p) Hp)) as (q & Q1 & Q2). exists q; split; [apply HB; exact Q1|exact Q2].
Qed.

(** Segments and rectangles as flat boxes. *)
Lemma coo_along : forall a b len, coo b (along a len) = if axis_dec b a then len else 0.
Proof. intros [] [] len; reflexivity. Qed.

Lemma seg_pts : forall a o len, same_points (seg_points a o len) (pts (o, along a len)).
Proof.
  intros a o len p; unfold seg_points, pts, box_points; cbn [fst snd]; split.
  - intros (H1 & H2) b. rewrite coo_along. destruct (axis_dec b a) as [->|D]; [exact H1|].
    specialize (H2 b D). left; lra.
  - intros H; split.
    + specialize (H a). rewrite coo_along in H. destruct (axis_dec a a); [exact H|congruence].
    + intros b D. specialize (H b). rewrite coo_along in H. destruct (axis_dec b a); [congruence|].
      destruct H; lra.
Qed.

Lemma rect_pts : forall a o d, coo a d == 0 -> same_points (rect_points a o d) (pts (o, d)).
Proof.
  intros a o d Z p; unfold rect_points, pts, box_points; cbn [fst snd]; split.
  - intros (H1 & H2) b. destruct (axis_dec b a) as [->|D]; [left; lra|exact (H2 b D)].
  - intros H; split; [specialize (H a); destruct H; lra|intros b D; exact (H b)].
Qed.

Lemma lo_flat : forall o d b, coo b d == 0 -> lo (o, d) b == coo b o /\ hi (o, d) b == coo b o.
Proof. intros o d b Z; unfold lo, hi, sort2; cbn [fst snd]; qb; cbn [fst snd]; split; lra. Qed.

Lemma hi_lo : forall od b, hi od b - lo od b == Qabs (coo b (snd od)).
Proof. intros; apply sort2_width. Qed.

(** ** construction *)
Lemma new_seg_inv : forall a o len s, new_seg a o len = Some s ->
  tol4 < Qabs len /\ sg_axis s = a /\ sg_length s = len /\
  sg_bounds s = (lo (o, along a len) a, hi (o, along a len) a) /\
  sg_line s = match a with AX => (py o, pz o) | AY => (pz o, px o) | AZ => (px o, py o) end.
Proof.
  intros a o len s H; unfold new_seg in H. destruct (qgt (Qabs len) tol4) eqn:E; [|discriminate].
  apply qgt_true in E. split; [exact E|].
  destruct a; injection H as <-; cbn [sg_axis sg_length sg_bounds sg_line];
    (split; [reflexivity|split; [reflexivity|split; [|reflexivity]]]);
    unfold lo, hi; cbn [fst snd coo along px py pz]; apply surjective_pairing.
Qed.

Lemma new_rect_inv : forall a o d s, new_rect a o d = Some s ->
  coo a d == 0 /\ (forall b, b <> a -> tol4 < Qabs (coo b d)) /\ rc_axis s = a /\ rc_face s = coo a o /\
  rc_b0 s = match a with AX => (lo (o, d) AY, hi (o, d) AY) | AY => (lo (o, d) AZ, hi (o, d) AZ) | AZ => (lo (o, d) AX, hi (o, d) AX) end /\
  rc_b1 s = match a with AX => (lo (o, d) AZ, hi (o, d) AZ) | AY => (lo (o, d) AX, hi (o, d) AX) | AZ => (lo (o, d) AY, hi (o, d) AY) end /\
  rc_area s = (snd (rc_b0 s) - fst (rc_b0 s)) * (snd (rc_b1 s) - fst (rc_b1 s)).
Proof.
  intros a o d s H; unfold new_rect in H.
  destruct a;
    (match type of H with (if ?c then _ else _) = _ => destruct c eqn:E; [|discriminate] end);
    injection H as <-; apply andb_true_iff in E; destruct E as [E1 E2]; apply andb_true_iff in E2; destruct E2 as [E2 E3];
    apply Qeq_bool_iff in E1; apply qgt_true in E2; apply qgt_true in E3;
    (split; [exact E1|]); (split; [intros [] D; cbn [coo]; (congruence || assumption)|]);
    cbn [rc_axis rc_face rc_b0 rc_b1 rc_area rect_of];
    (split; [reflexivity|split; [reflexivity|split; [|split; [|reflexivity]]]]);
    unfold lo, hi; cbn [fst snd coo]; apply surjective_pairing.
Qed.

(** ** containment *)
Lemma tol8_pos : 0 < tol8. Proof. reflexivity. Qed.
Lemma tol8_tol4 : 2 * tol8 < tol4. Proof. reflexivity. Qed.

Lemma same_line : forall x y z X Y Z : Q,
  (qgt (Qabs (x - X)) tol8 || qgt (Qabs (y - Y)) tol8) = false <-> Qabs (x - X) <= tol8 /\ Qabs (y - Y) <= tol8.
Proof. intros; rewrite orb_false_iff, !qgt_false; reflexivity. Qed.

Lemma or_false : forall a b t, (qgt a t || qgt b t) = false <-> a <= t /\ b <= t.
Proof. intros; rewrite orb_false_iff, !qgt_false; reflexivity. Qed.

Lemma if_false_true : forall c : bool, (if c then false else true) = true <-> c = false.
Proof. intros []; split; congruence. Qed.
Lemma if_false_b : forall c b : bool, (if c then false else b) = true <-> c = false /\ b = true.
Proof. intros [] []; split; intros; try (destruct H); try split; congruence. Qed.

Lemma abs_split : forall x t, Qabs x <= t <-> - t <= x /\ x <= t.
Proof. intros; apply Qabs_Qle_condition. Qed.

Lemma seg_contain_box : forall a o len s a' o' len' g, new_seg a o len = Some s -> new_seg a' o' len' = Some g ->
  (seg_contain s g = true <->
   forall b, lo (o, along a len) b - lo (o', along a' len') b <= tol8 /\ hi (o', along a' len') b - hi (o, along a len) b <= tol8).
Proof.
  intros a o len s a' o' len' g Hs Hg.
  destruct (new_seg_inv _ _ _ _ Hs) as (L & As & _ & Bs & Ns).
  destruct (new_seg_inv _ _ _ _ Hg) as (L' & Ag & _ & Bg & Ng).
  unfold seg_contain. rewrite As, Ag. destruct (axis_dec a a') as [<-|D].
  - replace (axis_eqb a a) with true by (symmetry; apply axis_eqb_eq; reflexivity). cbn [negb].
    rewrite Bs, Bg.
    assert (F : forall b, b <> a -> lo (o, along a len) b == coo b o /\ hi (o, along a len) b == coo b o /\
                          lo (o', along a len') b == coo b o' /\ hi (o', along a len') b == coo b o').
    { intros b Db.
      destruct (lo_flat o (along a len) b) as (F1 & F2).
      { rewrite coo_along; destruct (axis_dec b a); [congruence|reflexivity]. }
      destruct (lo_flat o' (along a len') b) as (F3 & F4).
      { rewrite coo_along; destruct (axis_dec b a); [congruence|reflexivity]. }
      auto. }
    destruct a; (rewrite Ns, Ng; rewrite if_false_b, or_false, if_false_true, or_false, !abs_split;
      split;
      [ intros ((P1 & P2) & P3) b; destruct b;
        try exact P3;
        match goal with |- context [lo _ ?b] => destruct (F b ltac:(discriminate)) as (F1 & F2 & F3 & F4); cbn [coo] in F1, F2, F3, F4; lra end
      | intros P; split; [|apply P];
        repeat match goal with
        | Fx : forall b, b <> ?a -> _ |- _ =>
          pose proof (Fx AX) as FX; pose proof (Fx AY) as FY; pose proof (Fx AZ) as FZ; clear Fx
        end;
        pose proof (P AX) as PX; pose proof (P AY) as PY; pose proof (P AZ) as PZ; cbn [coo] in *;
        try (specialize (FX ltac:(discriminate))); try (specialize (FY ltac:(discriminate))); try (specialize (FZ ltac:(discriminate)));
        lra ]).
  - replace (axis_eqb a a') with false by (destruct a, a'; (reflexivity || congruence)). cbn [negb].
    split; [discriminate|]. intros P. exfalso. specialize (P a').
    destruct (lo_flat o (along a len) a') as (F1 & F2).
    { rewrite coo_along; destruct (axis_dec a' a); [congruence|reflexivity]. }
    pose proof (hi_lo (o', along a' len') a') as W. cbn [snd] in W. rewrite coo_along in W.
    destruct (axis_dec a' a'); [|congruence]. pose proof tol8_tol4. lra.
Qed.

Theorem seg_contain_iff : forall a o len s a' o' len' g, new_seg a o len = Some s -> new_seg a' o' len' = Some g ->
  (seg_contain s g = true <-> within tol8 (seg_points a' o' len') (seg_points a o len)).
Proof.
  intros a o len s a' o' len' g Hs Hg.
  rewrite (seg_contain_box a o len s a' o' len' g Hs Hg).
  rewrite (within_ext tol8 _ _ _ _ (seg_pts a' o' len') (seg_pts a o len)).
  rewrite within_box by (pose proof tol8_pos; lra). reflexivity.
Qed.

(** ** equality *)
Lemma seg_eq_contains : forall a o len s a' o' len' g, new_seg a o len = Some s -> new_seg a' o' len' = Some g ->
  (seg_eq s g = true <-> seg_contain s g = true /\ seg_contain g s = true).
Proof.
  intros a o len s a' o' len' g Hs Hg.
  unfold seg_eq, seg_contain. destruct (axis_eqb (sg_axis s) (sg_axis g)) eqn:E.
  - assert (E' : axis_eqb (sg_axis g) (sg_axis s) = true) by (apply axis_eqb_eq in E; apply axis_eqb_eq; congruence).
    rewrite E'; cbn [negb].
    destruct (sg_line s) as [a0 a1], (sg_line g) as [c0 c1], (sg_bounds s) as [b0 b1], (sg_bounds g) as [d0 d1].
    repeat (rewrite if_false_true || rewrite if_false_b); rewrite !or_false, !abs_split. split; intros; lra.
  - cbn [negb]. split; [discriminate|intros (H & _); discriminate].
Qed.

Theorem seg_eq_iff : forall a o len s a' o' len' g, new_seg a o len = Some s -> new_seg a' o' len' = Some g ->
  (seg_eq s g = true <->
   within tol8 (seg_points a' o' len') (seg_points a o len) /\ within tol8 (seg_points a o len) (seg_points a' o' len')).
Proof.
  intros a o len s a' o' len' g Hs Hg.
  rewrite (seg_eq_contains a o len s a' o' len' g Hs Hg).
  rewrite (seg_contain_iff a o len s a' o' len' g Hs Hg), (seg_contain_iff a' o' len' g a o len s Hg Hs). reflexivity.
Qed.

(** ** rectangles *)
Lemma rect_contain_box : forall a o d s a' o' d' g, new_rect a o d = Some s -> new_rect a' o' d' = Some g ->
  (rect_contain s g = true <->
   forall b, lo (o, d) b - lo (o', d') b <= tol8 /\ hi (o', d') b - hi (o, d) b <= tol8).
Proof.
  intros a o d s a' o' d' g Hs Hg.
  destruct (new_rect_inv _ _ _ _ Hs) as (Z & L & As & Fs & B0 & B1 & _).
  destruct (new_rect_inv _ _ _ _ Hg) as (Z' & L' & Ag & Fg & C0 & C1 & _).
  unfold rect_contain. rewrite As, Ag, Fs, Fg, B0, B1, C0, C1. destruct (axis_dec a a') as [<-|D].
  - replace (axis_eqb a a) with true by (symmetry; apply axis_eqb_eq; reflexivity). cbn [negb orb].
    destruct (lo_flat o d a Z) as (F1 & F2). destruct (lo_flat o' d' a Z') as (F3 & F4).
    destruct a; (repeat (rewrite if_false_true || rewrite if_false_b); rewrite !or_false, qgt_false, abs_split; cbn [coo] in *; split;
      [ intros (P0 & P1 & P2) b; destruct b; (exact P1 || exact P2 || lra)
      | intros P; pose proof (P AX) as PX; pose proof (P AY) as PY; pose proof (P AZ) as PZ; lra ]).
  - replace (axis_eqb a a') with false by (destruct a, a'; (reflexivity || congruence)). cbn [negb orb].
    split; [discriminate|]. intros P. exfalso. specialize (P a).
    destruct (lo_flat o d a Z) as (F1 & F2).
    pose proof (hi_lo (o', d') a) as W. cbn [snd] in W. specialize (L' a D). pose proof tol8_tol4. lra.
Qed.

Theorem rect_contain_iff : forall a o d s a' o' d' g, new_rect a o d = Some s -> new_rect a' o' d' = Some g ->
  (rect_contain s g = true <-> within tol8 (rect_points a' o' d') (rect_points a o d)).
Proof.
  intros a o d s a' o' d' g Hs Hg.
  rewrite (rect_contain_box a o d s a' o' d' g Hs Hg).
  destruct (new_rect_inv _ _ _ _ Hs) as (Z & _). destruct (new_rect_inv _ _ _ _ Hg) as (Z' & _).
  rewrite (within_ext tol8 _ _ _ _ (rect_pts a' o' d' Z') (rect_pts a o d Z)).
  rewrite within_box by (pose proof tol8_pos; lra). reflexivity.
Qed.

Theorem rect_eq_iff : forall a o d s a' o' d' g, new_rect a o d = Some s -> new_rect a' o' d' = Some g ->
  (rect_eq s g = true <->
   within tol8 (rect_points a' o' d') (rect_points a o d) /\ within tol8 (rect_points a o d) (rect_points a' o' d')).
Proof.
  intros a o d s a' o' d' g Hs Hg.
  rewrite <- (rect_contain_iff a o d s a' o' d' g Hs Hg), <- (rect_contain_iff a' o' d' g a o d s Hg Hs).
  unfold rect_eq, rect_contain. destruct (axis_eqb (rc_axis s) (rc_axis g)) eqn:E.
  - assert (E' : axis_eqb (rc_axis g) (rc_axis s) = true) by (apply axis_eqb_eq in E; apply axis_eqb_eq; congruence).
    rewrite E'; cbn [negb orb].
    destruct (rc_b0 s) as [a0 a1], (rc_b1 s) as [b0 b1], (rc_b0 g) as [c0 c1], (rc_b1 g) as [e0 e1].
    repeat (rewrite if_false_true || rewrite if_false_b); rewrite !or_false, !qgt_false, !abs_split. split; intros; lra.
  - cbn [negb orb]. split; [discriminate|intros (H & _); discriminate].
Qed.

(** ** boxes *)
Lemma new_hexa_inv : forall o d s, new_hexa o d = Some s ->
  (forall b, tol4 < Qabs (coo b d)) /\
  hx_b0 s = sort2 (px o) (px o + py d) /\ hx_b1 s = (lo (o, d) AY, hi (o, d) AY) /\ hx_b2 s = (lo (o, d) AZ, hi (o, d) AZ) /\
  hx_volume s = (snd (hx_b0 s) - fst (hx_b0 s)) * (snd (hx_b1 s) - fst (hx_b1 s)) * (snd (hx_b2 s) - fst (hx_b2 s)) /\
  hx_center s = mkP (px o + px d / 2) (py o + py d / 2) (pz o + pz d / 2) /\
  hx_d s = mkP (Qabs (px d)) (Qabs (py d)) (Qabs (pz d)).
Proof.
  intros o d s H; unfold new_hexa in H.
  match type of H with (if ?c then _ else _) = _ => destruct c eqn:E; [|discriminate] end.
  apply andb_true_iff in E; destruct E as [E E3]; apply andb_true_iff in E; destruct E as [E1 E2].
  apply qgt_true in E1; apply qgt_true in E2; apply qgt_true in E3.
  injection H as <-. split; [intros []; assumption|].
  cbn [hx_b0 hx_b1 hx_b2 hx_volume hx_center hx_d].
  split; [reflexivity|]. split; [unfold lo, hi; apply surjective_pairing|].
  split; [unfold lo, hi; apply surjective_pairing|]. repeat split; reflexivity.
Qed.

(** The box that the constructor really keeps: its extent along x is that along y. *)
Definition kept (d : point3) : point3 := mkP (py d) (py d) (pz d).

Lemma hexa_contain_box : forall o d s o' d' g, new_hexa o d = Some s -> new_hexa o' d' = Some g ->
  (hexa_contain s g = true <->
   forall b, lo (o, kept d) b - lo (o', kept d') b <= tol8 /\ hi (o', kept d') b - hi (o, kept d) b <= tol8).
Proof.
  intros o d s o' d' g Hs Hg.
  destruct (new_hexa_inv _ _ _ Hs) as (_ & B0 & B1 & B2 & _).
  destruct (new_hexa_inv _ _ _ Hg) as (_ & C0 & C1 & C2 & _).
  unfold hexa_contain. rewrite B0, B1, B2, C0, C1, C2.
  rewrite (surjective_pairing (sort2 (px o) (px o + py d))), (surjective_pairing (sort2 (px o') (px o' + py d'))).
  repeat (rewrite if_false_true || rewrite if_false_b); rewrite !or_false. split.
  - intros (P0 & P1 & P2) []; assumption.
  - intros P; split; [exact (P AX)|split; [exact (P AY)|exact (P AZ)]].
Qed.

Theorem hexa_contain_iff : forall o d s o' d' g, new_hexa o d = Some s -> new_hexa o' d' = Some g ->
  px d == py d -> px d' == py d' ->
  (hexa_contain s g = true <-> within tol8 (box_points o' d') (box_points o d)).
Proof.
  intros o d s o' d' g Hs Hg E E'.
  rewrite (hexa_contain_box o d s o' d' g Hs Hg).
  assert (K : forall o d, px d == py d -> same_points (box_points o d) (pts (o, kept d))).
  { intros o1 d1 E1 p. unfold pts, box_points, between; cbn [fst snd]. split; intros H b; specialize (H b);
      destruct b; cbn [coo kept px py pz] in *; (exact H || (destruct H; [left|right]; lra)). }
  rewrite (within_ext tol8 _ _ _ _ (K o' d' E') (K o d E)).
  rewrite within_box by (pose proof tol8_pos; lra). reflexivity.
Qed.

Theorem hexa_eq_near : forall o d s o' d' g, new_hexa o d = Some s -> new_hexa o' d' = Some g ->
  (hexa_eq s g = true -> within ((3 # 2) * tol8) (box_points o' d') (box_points o d) /\
                         within ((3 # 2) * tol8) (box_points o d) (box_points o' d')) /\
  (within ((2 # 5) * tol8) (box_points o' d') (box_points o d) -> within ((2 # 5) * tol8) (box_points o d) (box_points o' d') ->
   hexa_eq s g = true).
Proof.
  intros o d s o' d' g Hs Hg.
  destruct (new_hexa_inv _ _ _ Hs) as (_ & _ & _ & _ & _ & C & D).
  destruct (new_hexa_inv _ _ _ Hg) as (_ & _ & _ & _ & _ & C' & D').
  assert (M : forall od b, (lo od b + hi od b) / 2 == coo b (fst od) + coo b (snd od) / 2).
  { intros od b; unfold lo, hi, sort2; qb; cbn [fst snd]; field. }
  change (box_points o' d') with (pts (o', d')). change (box_points o d) with (pts (o, d)).
  assert (T : 0 < tol8) by reflexivity.
  rewrite !within_box by lra.
  assert (F : hexa_eq s g = true <-> forall b,
     Qabs ((coo b o + coo b d / 2) - (coo b o' + coo b d' / 2)) < tol8 /\ Qabs (Qabs (coo b d) - Qabs (coo b d')) < tol8).
  { unfold hexa_eq. rewrite C, C', D, D'; cbn [px py pz]. rewrite !andb_true_iff, !qlt_true. split.
    - intros (((((P1 & P2) & P3) & P4) & P5) & P6) []; cbn [coo]; split; assumption.
    - intros P. pose proof (P AX) as (X1 & X2); pose proof (P AY) as (Y1 & Y2); pose proof (P AZ) as (Z1 & Z2). tauto. }
  assert (A : forall b, (coo b o + coo b d / 2) - (coo b o' + coo b d' / 2) ==
                        ((lo (o, d) b + hi (o, d) b) - (lo (o', d') b + hi (o', d') b)) * (1 # 2)).
  { intros b. pose proof (M (o, d) b) as M1; pose proof (M (o', d') b) as M2; cbn [fst snd] in M1, M2.
    rewrite <- M1, <- M2. field. }
  assert (B : forall b, Qabs (coo b d) - Qabs (coo b d') == (hi (o, d) b - lo (o, d) b) - (hi (o', d') b - lo (o', d') b)).
  { intros b. pose proof (hi_lo (o, d) b) as M1; pose proof (hi_lo (o', d') b) as M2; cbn [snd] in M1, M2.
    rewrite M1, M2; reflexivity. }
  rewrite F. split.
  - intros P. split; intros b; destruct (P b) as (P1 & P2); rewrite A in P1; rewrite B in P2;
      apply Qabs_Qlt_condition in P1; apply Qabs_Qlt_condition in P2; lra.
  - intros P1 P2 b. rewrite (A b), (B b). specialize (P1 b); specialize (P2 b).
    split; apply Qabs_Qlt_condition; lra.
Qed.
