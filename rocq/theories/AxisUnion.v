(** When sums of sizes show that parts cover a geometry. *)
From Coq Require Import QArith Qabs List Lqa Lia Bool.
From Verif Require Import AxisModel AxisSpec AxisCells AxisThms.
Import ListNotations.
Local Open Scope Q_scope.

(** ** separate lists *)
Lemma separate_fop : forall {T} (inner : T -> point3 -> Prop) l, separate inner l ->
  ForallOrdPairs (fun x y => forall p, ~ (inner x p /\ inner y p)) l.
Proof.
  intros T inner l; induction l as [|x l IH]; intros H; constructor.
  - apply Forall_forall; intros y Hy. apply In_nth_error in Hy. destruct Hy as (k & Hk).
    exact (H 0%nat (S k) x y ltac:(discriminate) eq_refl Hk).
  - apply IH. intros i j a b D Ha Hb. exact (H (S i) (S j) a b ltac:(congruence) Ha Hb).
Qed.

Lemma fop_filter : forall {T} (R : T -> T -> Prop) f l, ForallOrdPairs R l -> ForallOrdPairs R (filter f l).
Proof.
  intros T R f l H; induction H as [|x l H1 H2 IH]; [constructor|].
  cbn [filter]. destruct (f x); [|exact IH]. constructor; [|exact IH].
  rewrite Forall_forall in *. intros y Hy. apply filter_In in Hy. exact (H1 y (proj1 Hy)).
Qed.

Lemma fop_map : forall {S T} (f : S -> T) (R : T -> T -> Prop) (R' : S -> S -> Prop) l,
  (forall x y, In x l -> In y l -> R' x y -> R (f x) (f y)) -> ForallOrdPairs R' l -> ForallOrdPairs R (map f l).
Proof.
  intros S T f R R' l; induction l as [|x l IH]; intros H F; [constructor|].
  inversion F; subst. cbn [map]. constructor.
  - rewrite Forall_forall in *. intros y Hy. apply in_map_iff in Hy. destruct Hy as (z & <- & Hz).
    apply H; [left; reflexivity|right; exact Hz|exact (H2 z Hz)].
  - apply IH; [intros a b Ha Hb; apply H; right; assumption|exact H3].
Qed.

Lemma fop_sepb : forall l, ForallOrdPairs (fun x y => forall p, ~ (in_open p x /\ in_open p y)) l -> sepb l.
Proof.
  intros l F; induction F as [|x l H1 H2 IH]; intros i j a b D Ha Hb p (P1 & P2).
  - destruct i; discriminate.
  - rewrite Forall_forall in H1. destruct i as [|i], j as [|j]; cbn in Ha, Hb.
    + congruence.
    + injection Ha as <-. exact (H1 b (nth_error_In _ _ Hb) p (conj P1 P2)).
    + injection Hb as <-. exact (H1 a (nth_error_In _ _ Ha) p (conj P2 P1)).
    + exact (IH i j a b ltac:(congruence) Ha Hb p (conj P1 P2)).
Qed.

(** ** free axes *)
Definition nb (F : list axis) (od : point3 * point3) : nbox := map (fun b => (lo od b, hi od b)) F.
Definition view (F : list axis) (p : point3) : list Q := map (fun b => coo b p) F.

(** No extent off the axes of F, some extent along each of them. *)
Definition shape (F : list axis) (od : point3 * point3) : Prop :=
  (forall b, ~ In b F -> coo b (snd od) == 0) /\ (forall b, In b F -> 0 < Qabs (coo b (snd od))).

Definition inner_pts (F : list axis) (od : point3 * point3) (p : point3) : Prop :=
  (forall b, ~ In b F -> coo b p == coo b (fst od)) /\
  (forall b, In b F -> strictly (coo b (fst od)) (coo b (fst od) + coo b (snd od)) (coo b p)).

Lemma in_box_view : forall F od p, in_box (view F p) (nb F od) <-> forall b, In b F -> lo od b <= coo b p /\ coo b p <= hi od b.
Proof.
  intros F od p; induction F as [|a F IH]; [split; [intros _ b []|intros _; exact I]|].
  cbn [view nb map in_box fst snd]. fold (view F p) (nb F od). rewrite IH. split.
  - intros (H1 & H2 & H3) b [<-|Hb]; [split; assumption|exact (H3 b Hb)].
  - intros H. split; [apply H; left; reflexivity|]. split; [apply H; left; reflexivity|].
    intros b Hb; apply H; right; exact Hb.
Qed.

Lemma in_open_view : forall F od p, in_open (view F p) (nb F od) <-> forall b, In b F -> lo od b < coo b p /\ coo b p < hi od b.
Proof.
  intros F od p; induction F as [|a F IH]; [split; [intros _ b []|intros _; exact I]|].
  cbn [view nb map in_open fst snd]. fold (view F p) (nb F od). rewrite IH. split.
  - intros (H1 & H2 & H3) b [<-|Hb]; [split; assumption|exact (H3 b Hb)].
  - intros H. split; [apply H; left; reflexivity|]. split; [apply H; left; reflexivity|].
    intros b Hb; apply H; right; exact Hb.
Qed.

Lemma in_box_length : forall p b, in_box p b -> length p = length b.
Proof. induction p as [|x p IH]; intros [|i b] H; try destruct H; [reflexivity|]. destruct H0. cbn; f_equal; exact (IH b H1). Qed.

Lemma in_open_length : forall p b, in_open p b -> length p = length b.
Proof. induction p as [|x p IH]; intros [|i b] H; try destruct H; [reflexivity|]. destruct H0. cbn; f_equal; exact (IH b H1). Qed.

(** A point with given coordinates along F and those of o elsewhere. *)
Fixpoint pickc (F : list axis) (v : list Q) (o : point3) (b : axis) : Q :=
  match F, v with
  | a :: F', x :: v' => if axis_dec b a then x else pickc F' v' o b
  | _, _ => coo b o
  end.

Lemma pickc_off : forall F v o b, ~ In b F -> pickc F v o b = coo b o.
Proof.
  induction F as [|a F IH]; intros [|x v] o b H; try reflexivity.
  cbn [pickc]. destruct (axis_dec b a) as [->|D]; [exfalso; apply H; left; reflexivity|].
  apply IH; intros K; apply H; right; exact K.
Qed.

Lemma view_pick : forall F v o, NoDup F -> length v = length F -> view F (mkpt (pickc F v o)) = v.
Proof.
  intros F v o N L. unfold view.
  rewrite (map_ext _ (pickc F v o)) by (intros; apply coo_mkpt).
  revert v L; induction N as [|a F Ha N IH]; intros [|x v] L; try discriminate; [reflexivity|].
  cbn [map pickc]. destruct (axis_dec a a); [|congruence]. f_equal.
  transitivity (map (pickc F v o) F); [|apply IH; cbn in L; lia].
  apply map_ext_in. intros b Hb. destruct (axis_dec b a); [congruence|reflexivity].
Qed.

Lemma pts_shape : forall F od p, shape F od ->
  (pts od p <-> in_box (view F p) (nb F od) /\ forall b, ~ In b F -> coo b p == coo b (fst od)).
Proof.
  intros F [o d] p (H1 & H2). rewrite pts_iff, in_box_view. cbn [fst snd] in *. split.
  - intros P; split; [intros b _; exact (P b)|].
    intros b Hb. destruct (lo_flat o d b (H1 b Hb)). specialize (P b). lra.
  - intros (P1 & P2) b. destruct (in_dec axis_dec b F) as [Hb|Hb]; [exact (P1 b Hb)|].
    destruct (lo_flat o d b (H1 b Hb)). specialize (P2 b Hb). lra.
Qed.

Lemma inner_shape : forall F od p,
  inner_pts F od p <-> in_open (view F p) (nb F od) /\ forall b, ~ In b F -> coo b p == coo b (fst od).
Proof.
  intros F od p; unfold inner_pts. rewrite in_open_view. split.
  - intros (P1 & P2); split; [|exact P1]. intros b Hb. apply sort2_strictly. exact (P2 b Hb).
  - intros (P1 & P2); split; [exact P2|]. intros b Hb. apply sort2_strictly. exact (P1 b Hb).
Qed.

Lemma lo_ends : forall od b, In (lo od b) (ends b (fst od) (snd od)).
Proof. intros od b; unfold lo, sort2, ends; destruct (Qle_bool _ _); cbn; tauto. Qed.
Lemma hi_ends : forall od b, In (hi od b) (ends b (fst od) (snd od)).
Proof. intros od b; unfold hi, sort2, ends; destruct (Qle_bool _ _); cbn; tauto. Qed.

Section Union.
  Context {T : Type} (od : T -> point3 * point3) (size : T -> Q) (sel : T -> bool) (F : list axis) (t : Q).

  Theorem union_iff : forall (s : point3 * point3) (m : Q) (gs : list T) (tolc tola : Q),
    NoDup F -> 0 <= tolc -> tolc <= t -> 0 < tola -> tola <= qpow t (length F) ->
    (forall g, In g gs -> (sel g = true <-> within tolc (pts (od g)) (pts s))) ->
    shape F s -> (forall g, In g gs -> sel g = true -> shape F (od g)) ->
    m == measure (nb F s) -> (forall g, In g gs -> sel g = true -> size g == measure (nb F (od g))) ->
    corners_apart t (s :: map od gs) ->
    separate (fun g => inner_pts F (od g)) gs ->
    (Qabs (m - qsum (map size (filter sel gs))) < tola <->
     union_of_part (fun g => pts (od g)) (pts s) gs).
  Proof.
    intros s m gs tolc tola N T0 T1 T2 T3 Hsel Hs Hshape Hm Hsize Hap Hsep.
    set (P := filter sel gs).
    assert (HP : forall g, In g P -> In g gs /\ sel g = true) by (intros g Hg; apply filter_In; exact Hg).
    assert (In_s : forall b x, In x (ends b (fst s) (snd s)) -> In x (flat_map (fun od => ends b (fst od) (snd od)) (s :: map od gs))).
    { intros b x Hx. cbn [flat_map]. apply in_or_app; left; exact Hx. }
    assert (In_g : forall b x g, In g gs -> In x (ends b (fst (od g)) (snd (od g))) ->
                                 In x (flat_map (fun od => ends b (fst od) (snd od)) (s :: map od gs))).
    { intros b x g Hg Hx. cbn [flat_map]. apply in_or_app; right. apply in_flat_map. exists (od g). split; [|exact Hx].
      apply in_map; exact Hg. }
    (* selected pieces lie exactly inside *)
    assert (EX : forall g, In g P -> forall b, lo s b <= lo (od g) b /\ hi (od g) b <= hi s b).
    { intros g Hg b. destruct (HP g Hg) as (G1 & G2).
      pose proof (proj1 (Hsel g G1) G2) as W. rewrite (within_box tolc s (od g) T0) in W. destruct (W b) as (W1 & W2). split.
      - destruct (Qlt_le_dec (lo (od g) b) (lo s b)) as [L|L]; [|exact L].
        rewrite (Hap b (lo s b) (lo (od g) b)); [lra| | |].
        + apply In_s, lo_ends.
        + apply (In_g b _ g G1), lo_ends.
        + rewrite Qabs_pos; lra.
      - destruct (Qlt_le_dec (hi s b) (hi (od g) b)) as [L|L]; [|exact L].
        rewrite (Hap b (hi (od g) b) (hi s b)); [lra| | |].
        + apply (In_g b _ g G1), hi_ends.
        + apply In_s, hi_ends.
        + rewrite Qabs_pos; lra. }
    assert (SUB : forall g, In g P -> forall p, pts (od g) p -> pts s p).
    { intros g Hg p Hp. rewrite pts_iff in *. intros b. specialize (Hp b). specialize (EX g Hg b). lra. }
    assert (FLAT : forall g, In g P -> forall b, ~ In b F -> coo b (fst (od g)) == coo b (fst s)).
    { intros g Hg b Hb. destruct (HP g Hg) as (G1 & G2). destruct (Hshape g G1 G2) as (Z & _). destruct Hs as (Z' & _).
      specialize (Z b Hb). specialize (Z' b Hb). specialize (EX g Hg b).
      destruct (od g) as [o1 d1]; destruct s as [o2 d2]; cbn [fst snd] in *.
      destruct (lo_flat o1 d1 b Z). destruct (lo_flat o2 d2 b Z'). lra. }
    (* the grid *)
    set (L := fun b => flat_map (fun od => ends b (fst od) (snd od)) (s :: map od gs)).
    set (G := map (fun b => mkgrid (L b)) F).
    assert (HG : grid G).
    { apply Forall_forall; intros A HA. apply in_map_iff in HA. destruct HA as (b & <- & _). apply mkgrid_asc. }
    assert (ON : forall x, shape F x -> (forall b, In (lo x b) (L b) /\ In (hi x b) (L b)) -> ongrid G (nb F x)).
    { intros x (_ & X2) Hx. unfold ongrid, G, nb. clear -X2 Hx. induction F as [|b F' IH]; [constructor|].
      cbn [map]. constructor.
      - cbn [fst snd]. split; [apply mkgrid_has, Hx|]. split; [apply mkgrid_has, Hx|].
        pose proof (hi_lo x b). specialize (X2 b (or_introl eq_refl)). lra.
      - apply IH. intros c Hc; apply X2; right; exact Hc. }
    assert (ONs : ongrid G (nb F s)).
    { apply ON; [exact Hs|]. intros b; split; [apply In_s, lo_ends|apply In_s, hi_ends]. }
    assert (ONg : Forall (ongrid G) (map (fun g => nb F (od g)) P)).
    { apply Forall_forall; intros x Hx. apply in_map_iff in Hx. destruct Hx as (g & <- & Hg).
      destruct (HP g Hg) as (G1 & G2). apply ON; [exact (Hshape g G1 G2)|].
      intros b; split; [apply (In_g b _ g G1), lo_ends|apply (In_g b _ g G1), hi_ends]. }
    assert (SEP : sepb (map (fun g => nb F (od g)) P)).
    { apply fop_sepb.
      apply (fop_map (fun g => nb F (od g)) _ (fun x y => forall p, ~ (inner_pts F (od x) p /\ inner_pts F (od y) p))).
      - intros x y Hx Hy D v (V1 & V2).
        assert (LV : length v = length F) by (rewrite (in_open_length _ _ V1); apply map_length).
        apply (D (mkpt (pickc F v (fst s)))). rewrite !inner_shape, view_pick by assumption.
        split; (split; [assumption|]); intros b Hb; rewrite coo_mkpt, pickc_off by exact Hb; symmetry; apply FLAT; assumption.
      - apply fop_filter, separate_fop, Hsep. }
    assert (INB : forall r, In r (map (fun g => nb F (od g)) P) -> forall v, in_box v r -> in_box v (nb F s)).
    { intros r Hr v Hv. apply in_map_iff in Hr. destruct Hr as (g & <- & Hg).
      assert (LV : length v = length F) by (rewrite (in_box_length _ _ Hv); apply map_length).
      rewrite <- (view_pick F v (fst s) N LV) in *. rewrite in_box_view in *.
      intros b Hb. specialize (Hv b Hb). specialize (EX g Hg b). lra. }
    assert (CELL : forall c, In c (cells G) -> tola <= measure c).
    { intros c Hc. apply Qle_trans with (qpow t (length F)); [exact T3|].
      replace (length F) with (length G) by (apply map_length).
      apply cells_size; [lra| |exact Hc].
      intros A HA i Hi. apply in_map_iff in HA. destruct HA as (b & <- & _).
      exact (mkgrid_gap (L b) t (Hap b) i Hi). }
    pose proof (cover_iff G (map (fun g => nb F (od g)) P) (nb F s) tola HG ONs ONg SEP INB T2 CELL) as C.
    assert (SUM : qsum (map size P) == qsum (map measure (map (fun g => nb F (od g)) P))).
    { rewrite map_map. apply qsum_ext. intros g Hg. destruct (HP g Hg) as (G1 & G2). exact (Hsize g G1 G2). }
    rewrite SUM, Hm, C. clear C SUM CELL. split.
    - intros Cov. exists P. split; [intros g Hg; exact (proj1 (HP g Hg))|].
      intros p; split.
      + intros Hp. pose proof Hp as Hp'. rewrite (pts_shape F s p Hs) in Hp. destruct Hp as (P1 & P2).
        destruct (Cov _ P1) as (r & Hr & Pr). apply in_map_iff in Hr. destruct Hr as (g & <- & Hg).
        exists g; split; [exact Hg|]. destruct (HP g Hg) as (G1 & G2).
        rewrite (pts_shape F (od g) p (Hshape g G1 G2)). split; [exact Pr|].
        intros b Hb. rewrite (P2 b Hb). symmetry; exact (FLAT g Hg b Hb).
      + intros (g & Hg & Pg). exact (SUB g Hg p Pg).
    - intros (part & Hpart & Same) v Hv.
      assert (LV : length v = length F) by (rewrite (in_box_length _ _ Hv); apply map_length).
      assert (Ps : pts s (mkpt (pickc F v (fst s)))).
      { rewrite (pts_shape F s _ Hs), view_pick by assumption. split; [exact Hv|].
        intros b Hb; rewrite coo_mkpt, pickc_off by exact Hb; reflexivity. }
      destruct (proj1 (Same _) Ps) as (g & Hg & Pg).
      assert (HgP : In g P).
      { apply filter_In. split; [exact (Hpart g Hg)|]. apply (Hsel g (Hpart g Hg)).
        intros q Hq. exists q. split; [apply (Same q); exists g; split; assumption|].
        intros b. setoid_replace (coo b q - coo b q) with 0 by ring. exact T0. }
      destruct (HP g HgP) as (G1 & G2).
      exists (nb F (od g)). split; [apply in_map_iff; exists g; split; [reflexivity|exact HgP]|].
      rewrite (pts_shape F (od g) _ (Hshape g G1 G2)), view_pick in Pg by assumption. exact (proj1 Pg).
  Qed.
End Union.
