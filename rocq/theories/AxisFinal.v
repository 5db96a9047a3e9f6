(** Unions of segments, rectangles and boxes; keys; refutations. *)
From Coq Require Import QArith Qabs Qround List Lqa Lia Bool.
From Verif Require Import AxisModel AxisSpec AxisCells AxisThms AxisUnion.
Import ListNotations.
Local Open Scope Q_scope.

Lemma forall2_pairs : forall {S T} (R : S -> T -> Prop) l m, Forall2 R l m ->
  exists k, l = map fst k /\ m = map snd k /\ forall x, In x k -> R (fst x) (snd x).
Proof.
  intros S T R l m H; induction H as [|x y l m Hxy H (k & E1 & E2 & K)].
  - exists []; repeat split; intros x [].
  - exists ((x, y) :: k); cbn [map fst snd]. split; [congruence|]. split; [congruence|].
    intros z [<-|Hz]; [exact Hxy|exact (K z Hz)].
Qed.

Lemma filter_map : forall {S T} (f : S -> T) p l, filter p (map f l) = map f (filter (fun x => p (f x)) l).
Proof.
  intros S T f p l; induction l as [|x l IH]; [reflexivity|]. cbn [map filter].
  destruct (p (f x)); cbn [map]; rewrite IH; reflexivity.
Qed.

Lemma filter_filter : forall {T} (f g : T -> bool) l, (forall x, In x l -> f x = true -> g x = true) ->
  filter f (filter g l) = filter f l.
Proof.
  intros T f g l; induction l as [|x l IH]; intros H; [reflexivity|].
  assert (K : forall y, In y l -> f y = true -> g y = true) by (intros y Hy; apply H; right; exact Hy).
  cbn [filter]. destruct (g x) eqn:E.
  - cbn [filter]. rewrite (IH K); reflexivity.
  - rewrite (IH K). destruct (f x) eqn:E'; [|reflexivity].
    rewrite (H x (or_introl eq_refl) E') in E; discriminate.
Qed.

Lemma separate_map : forall {S T} (f : S -> T) inner l, separate inner (map f l) -> separate (fun x => inner (f x)) l.
Proof.
  intros S T f inner l H i j x y D Hx Hy.
  apply (H i j (f x) (f y) D); rewrite nth_error_map; [rewrite Hx|rewrite Hy]; reflexivity.
Qed.

Lemma separate_weak : forall {T} (f g : T -> point3 -> Prop) l, (forall x p, In x l -> g x p -> f x p) ->
  separate f l -> separate g l.
Proof.
  intros T f g l H S i j x y D Hx Hy p (P1 & P2).
  apply (S i j x y D Hx Hy p); split; apply H; eauto using nth_error_In.
Qed.

Lemma union_map : forall {S T} (f : S -> T) points A l,
  union_of_part points A (map f l) <-> union_of_part (fun x => points (f x)) A l.
Proof.
  intros S T f points A l; unfold union_of_part; split.
  - intros (part & H1 & H2).
    assert (E : exists k, incl k l /\ part = map f k).
    { clear H2. induction part as [|x part IH]; [exists []; split; [intros y []|reflexivity]|].
      destruct IH as (k & K1 & K2); [intros y Hy; apply H1; right; exact Hy|].
      specialize (H1 x (or_introl eq_refl)). apply in_map_iff in H1. destruct H1 as (z & E & Hz).
      exists (z :: k). split; [intros y [<-|Hy]; [exact Hz|exact (K1 y Hy)]|cbn; congruence]. }
    destruct E as (k & K1 & ->). exists k. split; [exact K1|].
    intros p. rewrite (H2 p). split.
    + intros (x & Hx & P). apply in_map_iff in Hx. destruct Hx as (z & <- & Hz). exists z; auto.
    + intros (z & Hz & P). exists (f z). split; [apply in_map; exact Hz|exact P].
  - intros (k & K1 & K2). exists (map f k). split.
    + intros x Hx. apply in_map_iff in Hx. destruct Hx as (z & <- & Hz). apply in_map; exact (K1 z Hz).
    + intros p. rewrite (K2 p). split.
      * intros (z & Hz & P). exists (f z). split; [apply in_map; exact Hz|exact P].
      * intros (x & Hx & P). apply in_map_iff in Hx. destruct Hx as (z & <- & Hz). exists z; auto.
Qed.

Lemma union_ext : forall {T} (f g : T -> point3 -> Prop) A B l, (forall x, In x l -> same_points (f x) (g x)) -> same_points A B ->
  (union_of_part f A l <-> union_of_part g B l).
Proof.
  intros T f g A B l H AB; unfold union_of_part; split; intros (part & P1 & P2); exists part; (split; [exact P1|]);
    intros p; specialize (P2 p); specialize (AB p).
  - split.
    + intros Hp. apply AB, P2 in Hp. destruct Hp as (x & Hx & Px). exists x; split; [exact Hx|]. apply (H x (P1 x Hx)); exact Px.
    + intros (x & Hx & Px). apply AB, P2. exists x; split; [exact Hx|]. apply (H x (P1 x Hx)); exact Px.
  - split.
    + intros Hp. apply AB, P2 in Hp. destruct Hp as (x & Hx & Px). exists x; split; [exact Hx|]. apply (H x (P1 x Hx)); exact Px.
    + intros (x & Hx & Px). apply AB, P2. exists x; split; [exact Hx|]. apply (H x (P1 x Hx)); exact Px.
Qed.

(** ** segments *)
Notation segarg := (axis * point3 * Q)%type.
Definition sa_box (i : segarg) : point3 * point3 := (snd (fst i), along (fst (fst i)) (snd i)).

Lemma strictly_flat : forall x c, ~ strictly x (x + 0) c.
Proof. intros x c [H|H]; lra. Qed.

Theorem seg_union_iff : forall a o len s (ins : list segarg) gs,
  new_seg a o len = Some s ->
  Forall2 (fun i g => new_seg (fst (fst i)) (snd (fst i)) (snd i) = Some g) ins gs ->
  0 < len -> Forall (fun i => 0 < snd i) ins ->
  corners_apart tol8 (sa_box (a, o, len) :: map sa_box ins) ->
  separate (fun i p => fst (fst i) = a /\ seg_inner (fst (fst i)) (snd (fst i)) (snd i) p) ins ->
  (seg_union s gs = true <->
   union_of_part (fun i => seg_points (fst (fst i)) (snd (fst i)) (snd i)) (seg_points a o len) ins).
Proof.
  intros a o len s ins gs Hs Hg Pos Poss Hap Hsep.
  destruct (forall2_pairs _ _ _ Hg) as (k & -> & -> & K). clear Hg.
  destruct (new_seg_inv _ _ _ _ Hs) as (L & As & Ls & _).
  unfold seg_union. rewrite Ls.
  rewrite filter_filter.
  2:{ intros x _ C. unfold seg_contain in C. destruct (axis_eqb (sg_axis s) (sg_axis x)) eqn:E; [|discriminate].
      apply axis_eqb_eq in E. apply axis_eqb_eq; congruence. }
  rewrite qlt_true, filter_map, map_map.
  rewrite union_map.
  rewrite (union_ext _ (fun x => pts (sa_box (fst x))) _ (pts (sa_box (a, o, len)))).
  2:{ intros [[[a' o'] l'] g] _. apply seg_pts. }
  2:{ apply seg_pts. }
  apply (union_iff (fun x => sa_box (fst x)) (fun x => sg_length (snd x)) (fun x => seg_contain s (snd x)) [a] tol8
           (sa_box (a, o, len)) len k tol8 tol8).
  - constructor; [intros []|constructor].
  - discriminate.
  - apply Qle_refl.
  - reflexivity.
  - cbn [length qpow]. setoid_replace (tol8 * 1) with tol8 by ring. apply Qle_refl.
  - intros [[[a' o'] l'] g] Hg. specialize (K _ Hg). cbn [fst snd] in K |- *.
    rewrite (seg_contain_box a o len s a' o' l' g Hs K).
    rewrite within_box by discriminate. reflexivity.
  - split; intros b Hb; unfold sa_box; cbn [fst snd]; rewrite coo_along; destruct (axis_dec b a) as [->|D].
    + exfalso; apply Hb; left; reflexivity.
    + reflexivity.
    + rewrite Qabs_pos; lra.
    + destruct Hb as [<-|[]]; congruence.
  - intros [[[a' o'] l'] g] Hg C. specialize (K _ Hg). cbn [fst snd] in K, C |- *.
    destruct (new_seg_inv _ _ _ _ K) as (L' & Ag & _).
    assert (Ea : a' = a).
    { unfold seg_contain in C. destruct (axis_eqb (sg_axis s) (sg_axis g)) eqn:E; [|discriminate].
      apply axis_eqb_eq in E. congruence. }
    clear Ag; subst a'. split; intros b Hb; unfold sa_box; cbn [fst snd]; rewrite coo_along; destruct (axis_dec b a) as [->|D].
    + exfalso; apply Hb; left; reflexivity.
    + reflexivity.
    + assert (0 < tol4) by reflexivity. lra.
    + destruct Hb as [<-|[]]; congruence.
  - cbn [nb map measure]. unfold width; cbn [fst snd]. rewrite hi_lo. unfold sa_box; cbn [fst snd].
    rewrite coo_along. destruct (axis_dec a a); [|congruence]. rewrite Qabs_pos by lra. ring.
  - intros [[[a' o'] l'] g] Hg C. specialize (K _ Hg). cbn [fst snd] in K, C |- *.
    destruct (new_seg_inv _ _ _ _ K) as (L' & Ag & Lg & _).
    assert (Ea : a' = a).
    { unfold seg_contain in C. destruct (axis_eqb (sg_axis s) (sg_axis g)) eqn:E; [|discriminate].
      apply axis_eqb_eq in E. congruence. }
    clear Ag; subst a'. rewrite Lg.
    assert (P' : 0 < l').
    { rewrite Forall_forall in Poss. exact (Poss (a, o', l') (in_map fst _ _ Hg)). }
    cbn [nb map measure]. unfold width; cbn [fst snd]. rewrite hi_lo. unfold sa_box; cbn [fst snd].
    rewrite coo_along. destruct (axis_dec a a); [|congruence]. rewrite Qabs_pos by lra. ring.
  - rewrite <- map_map. exact Hap.
  - apply separate_map in Hsep. refine (separate_weak _ _ _ _ Hsep).
    intros [[[a' o'] l'] g] p _ (I1 & I2). unfold sa_box in *; cbn [fst snd] in *.
    specialize (I2 a (or_introl eq_refl)). rewrite coo_along in I2. destruct (axis_dec a a') as [<-|D].
    + split; [reflexivity|]. split; [exact I2|].
      intros b Hb; apply I1; intros [E|[]]; congruence.
    + exfalso; exact (strictly_flat _ _ I2).
Qed.

(** ** rectangles *)
Notation rectarg := (axis * point3 * point3)%type.
Definition ra_box (i : rectarg) : point3 * point3 := (snd (fst i), snd i).

Definition others (a : axis) : list axis :=
  match a with AX => [AY; AZ] | AY => [AZ; AX] | AZ => [AX; AY] end.

Lemma others_in : forall a b, In b (others a) <-> b <> a.
Proof. intros [] []; cbn; split; intros; try tauto; try congruence; intuition congruence. Qed.

Lemma rect_size : forall a o d s, new_rect a o d = Some s -> rc_area s == measure (nb (others a) (o, d)).
Proof.
  intros a o d s H. destruct (new_rect_inv _ _ _ _ H) as (_ & _ & _ & _ & B0 & B1 & ->).
  rewrite B0, B1. destruct a; cbn [others nb map measure]; unfold width; cbn [fst snd]; ring.
Qed.

Lemma rect_shape : forall a o d s, new_rect a o d = Some s -> shape (others a) (o, d).
Proof.
  intros a o d s H. destruct (new_rect_inv _ _ _ _ H) as (Z & L & _). split; cbn [snd]; intros b Hb.
  - destruct (axis_dec b a) as [->|D]; [exact Z|exfalso; apply Hb, others_in, D].
  - apply others_in in Hb. specialize (L b Hb). assert (0 < tol4) by reflexivity. lra.
Qed.

Theorem rect_union_iff : forall a o d s (ins : list rectarg) gs,
  new_rect a o d = Some s ->
  Forall2 (fun i g => new_rect (fst (fst i)) (snd (fst i)) (snd i) = Some g) ins gs ->
  corners_apart (1 # 3000) (ra_box (a, o, d) :: map ra_box ins) ->
  separate (fun i p => fst (fst i) = a /\ rect_inner (fst (fst i)) (snd (fst i)) (snd i) p) ins ->
  (rect_union s gs = true <->
   union_of_part (fun i => rect_points (fst (fst i)) (snd (fst i)) (snd i)) (rect_points a o d) ins).
Proof.
  intros a o d s ins gs Hs Hg Hap Hsep.
  destruct (forall2_pairs _ _ _ Hg) as (k & -> & -> & K). clear Hg.
  destruct (new_rect_inv _ _ _ _ Hs) as (Z & L & As & Fs & _).
  assert (AXIS : forall g, rect_contain s g = true -> rc_axis g = a /\ Qabs (rc_face s - rc_face g) <= tol8).
  { intros g C. unfold rect_contain in C.
    destruct (axis_eqb (rc_axis s) (rc_axis g)) eqn:E; [|discriminate].
    destruct (qgt (Qabs (rc_face s - rc_face g)) tol8) eqn:E'; [discriminate|].
    apply axis_eqb_eq in E. apply qgt_false in E'. split; [congruence|exact E']. }
  unfold rect_union. rewrite filter_filter.
  2:{ intros g Hg C. destruct (AXIS g C) as (E1 & E2). apply andb_true_iff. split; [apply axis_eqb_eq; congruence|].
      apply qlt_true. apply in_map_iff in Hg. destruct Hg as ([[[a' o'] d'] g'] & E & Hg); cbn [snd] in E; subst g'.
      specialize (K _ Hg); cbn [fst snd] in K. destruct (new_rect_inv _ _ _ _ K) as (Z' & L' & Ag & Fg & _).
      rewrite Fs, Fg in *.
      assert (Q : coo a o == coo a' o').
      { rewrite Ag in E1. subst a'. apply (Hap a).
        - cbn [flat_map]. left; reflexivity.
        - cbn [flat_map]. apply in_or_app; right. apply in_flat_map.
          exists (o', d'). split; [|left; reflexivity].
          apply in_map_iff. exists (a, o', d'). split; [reflexivity|]. exact (in_map fst _ _ Hg).
        - apply Qle_trans with tol8; [exact E2|discriminate]. }
      setoid_replace (coo a o - coo a' o') with 0 by lra. reflexivity. }
  rewrite qlt_true, filter_map, map_map.
  rewrite union_map.
  rewrite (union_ext _ (fun x => pts (ra_box (fst x))) _ (pts (ra_box (a, o, d)))).
  2:{ intros [[[a' o'] d'] g] Hx. specialize (K _ Hx); cbn [fst snd] in K |- *.
      destruct (new_rect_inv _ _ _ _ K) as (Z' & _). exact (rect_pts a' o' d' Z'). }
  2:{ exact (rect_pts a o d Z). }
  apply (union_iff (fun x => ra_box (fst x)) (fun x => rc_area (snd x)) (fun x => rect_contain s (snd x)) (others a) (1 # 3000)
           (ra_box (a, o, d)) (rc_area s) k tol8 tol7).
  - destruct a; repeat constructor; cbn; intuition discriminate.
  - discriminate.
  - discriminate.
  - reflexivity.
  - destruct a; cbn; discriminate.
  - intros [[[a' o'] d'] g] Hg. specialize (K _ Hg). cbn [fst snd] in K |- *.
    rewrite (rect_contain_box a o d s a' o' d' g Hs K).
    rewrite within_box by discriminate. reflexivity.
  - exact (rect_shape a o d s Hs).
  - intros [[[a' o'] d'] g] Hg C. specialize (K _ Hg). cbn [fst snd] in K, C |- *.
    destruct (AXIS g C) as (E & _). destruct (new_rect_inv _ _ _ _ K) as (_ & _ & Ag & _).
    replace a with a' by congruence. exact (rect_shape a' o' d' g K).
  - exact (rect_size a o d s Hs).
  - intros [[[a' o'] d'] g] Hg C. specialize (K _ Hg). cbn [fst snd] in K, C |- *.
    destruct (AXIS g C) as (E & _). destruct (new_rect_inv _ _ _ _ K) as (_ & _ & Ag & _).
    replace a with a' by congruence. exact (rect_size a' o' d' g K).
  - rewrite <- map_map. exact Hap.
  - apply separate_map in Hsep. refine (separate_weak _ _ _ _ Hsep).
    intros [[[a' o'] d'] g] p Hg (I1 & I2). specialize (K _ Hg). unfold ra_box in *; cbn [fst snd] in *.
    destruct (new_rect_inv _ _ _ _ K) as (Z' & _).
    destruct (axis_dec a' a) as [->|D].
    + split; [reflexivity|]. split.
      * apply I1. rewrite others_in; congruence.
      * intros b Hb; apply I2, others_in, Hb.
    + exfalso. specialize (I2 a' (proj2 (others_in a a') D)). destruct I2; lra.
Qed.

(** ** boxes *)
Notation boxarg := (point3 * point3)%type.

Lemma hexa_size : forall o d s, new_hexa o d = Some s -> px d == py d ->
  hx_volume s == measure (nb [AX; AY; AZ] (o, d)).
Proof.
  intros o d s H E. destruct (new_hexa_inv _ _ _ H) as (_ & B0 & B1 & B2 & -> & _).
  rewrite B0, B1, B2. cbn [nb map measure]; unfold width; cbn [fst snd].
  rewrite sort2_width, !hi_lo. cbn [fst snd coo]. rewrite E. ring.
Qed.

Theorem hexa_union_iff : forall o d s (ins : list boxarg) gs,
  new_hexa o d = Some s ->
  Forall2 (fun i g => new_hexa (fst i) (snd i) = Some g) ins gs ->
  px d == py d -> Forall (fun i => px (snd i) == py (snd i)) ins ->
  corners_apart (1 # 200) ((o, d) :: ins) ->
  separate (fun i => box_inner (fst i) (snd i)) ins ->
  (hexa_union s gs = true <->
   union_of_part (fun i => box_points (fst i) (snd i)) (box_points o d) ins).
Proof.
  intros o d s ins gs Hs Hg Sq Sqs Hap Hsep.
  destruct (forall2_pairs _ _ _ Hg) as (k & -> & -> & K). clear Hg.
  rewrite Forall_forall in Sqs.
  unfold hexa_union. rewrite qlt_true, filter_map, map_map.
  rewrite union_map. change (box_points o d) with (pts (o, d)).
  apply (union_iff (fun x => fst x) (fun x => hx_volume (snd x)) (fun x => hexa_contain s (snd x)) [AX; AY; AZ] (1 # 200)
           (o, d) (hx_volume s) k tol8 tol7).
  - repeat constructor; cbn; intuition discriminate.
  - discriminate.
  - discriminate.
  - reflexivity.
  - cbn; discriminate.
  - intros [[o' d'] g] Hg. specialize (K _ Hg). cbn [fst snd] in K |- *.
    exact (hexa_contain_iff o d s o' d' g Hs K Sq (Sqs _ (in_map fst _ _ Hg))).
  - split; [intros [] Hb; exfalso; apply Hb; cbn; tauto|].
    intros b _; destruct (new_hexa_inv _ _ _ Hs) as (L & _). specialize (L b). assert (0 < tol4) by reflexivity. cbn [snd]; lra.
  - intros [[o' d'] g] Hg _. specialize (K _ Hg). cbn [fst snd] in K |- *.
    split; [intros [] Hb; exfalso; apply Hb; cbn; tauto|].
    intros b _; destruct (new_hexa_inv _ _ _ K) as (L & _). specialize (L b). assert (0 < tol4) by reflexivity. cbn [snd]; lra.
  - exact (hexa_size o d s Hs Sq).
  - intros [[o' d'] g] Hg _. pose proof (K _ Hg) as K'. cbn [fst snd] in K' |- *.
    exact (hexa_size o' d' g K' (Sqs _ (in_map fst _ _ Hg))).
  - exact Hap.
  - apply separate_map in Hsep. refine (separate_weak _ _ _ _ Hsep).
    intros [[o' d'] g] p Hg (I1 & I2). intros b. apply I2. destruct b; cbn; tauto.
Qed.

(** ** refutations *)
Lemma qabs_sum_nil : forall m, Qabs (m - qsum (map rc_area [])) == Qabs m.
Proof. intros m; cbn [map qsum fold_right]. setoid_replace (m - 0) with m by ring. reflexivity. Qed.

Theorem rect_union_small_refuted : forall a o d s, new_rect a o d = Some s -> rc_area s < tol7 -> rect_union s [] = true.
Proof.
  intros a o d s H L. unfold rect_union; cbn [filter]. rewrite qlt_true, qabs_sum_nil.
  destruct (new_rect_inv _ _ _ _ H) as (_ & _ & _ & _ & B0 & B1 & E). rewrite Qabs_pos; [exact L|].
  rewrite E, B0, B1. destruct a; cbn [fst snd]; rewrite !hi_lo; apply Qmult_le_0_compat; apply Qabs_nonneg.
Qed.

Theorem hexa_union_small_refuted : forall o d s, new_hexa o d = Some s -> hx_volume s < tol7 -> hexa_union s [] = true.
Proof.
  intros o d s H L. unfold hexa_union; cbn [filter]. rewrite qlt_true, qabs_sum_nil.
  destruct (new_hexa_inv _ _ _ H) as (_ & B0 & B1 & B2 & E & _). rewrite Qabs_pos; [exact L|].
  rewrite E, B0, B1, B2. cbn [fst snd]; rewrite sort2_width, !hi_lo.
  apply Qmult_le_0_compat; [apply Qmult_le_0_compat|]; apply Qabs_nonneg.
Qed.

(** The same segment given from its other end. *)
Definition shift (a : axis) (o : point3) (len : Q) : point3 :=
  mkpt (fun b => coo b o + coo b (along a len)).

Lemma seg_reversed : forall a o len s, new_seg a o len = Some s ->
  exists r, new_seg a (shift a o len) (- len) = Some r /\
  same_points (seg_points a o len) (seg_points a (shift a o len) (- len)).
Proof.
  intros a o len s H. destruct (new_seg_inv _ _ _ _ H) as (L & _).
  unfold new_seg. replace (qgt (Qabs (- len)) tol4) with true by (symmetry; apply qgt_true; rewrite Qabs_opp; exact L).
  eexists; split; [reflexivity|].
  intros p; unfold seg_points, shift, between. rewrite coo_mkpt, coo_along. destruct (axis_dec a a); [|congruence]. split.
  - intros (P1 & P2). split; [destruct P1; [right|left]; lra|].
    intros b D. rewrite coo_mkpt, coo_along. destruct (axis_dec b a); [congruence|]. rewrite (P2 b D). ring.
  - intros (P1 & P2). split; [destruct P1; [right|left]; lra|].
    intros b D. specialize (P2 b D). rewrite coo_mkpt, coo_along in P2. destruct (axis_dec b a); [congruence|]. rewrite P2. ring.
Qed.

Lemma same_within : forall t A B, 0 <= t -> same_points A B -> within t A B.
Proof.
  intros t A B T H p Hp. exists p. split; [apply H; exact Hp|].
  intros b. setoid_replace (coo b p - coo b p) with 0 by ring. exact T.
Qed.

Theorem seg_union_direction_refuted : forall a o len s, new_seg a o len = Some s ->
  exists r, new_seg a (shift a o len) (- len) = Some r /\
  same_points (seg_points a o len) (seg_points a (shift a o len) (- len)) /\
  seg_eq s r = true /\ seg_union s [s] = true /\ seg_union s [r] = false.
Proof.
  intros a o len s H. destruct (seg_reversed a o len s H) as (r & R & Same). exists r.
  split; [exact R|]. split; [exact Same|].
  assert (Same' : same_points (seg_points a (shift a o len) (- len)) (seg_points a o len)) by (intros p; symmetry; apply Same).
  assert (T : 0 <= tol8) by discriminate.
  destruct (new_seg_inv _ _ _ _ H) as (L & As & Ls & _). destruct (new_seg_inv _ _ _ _ R) as (_ & Ar & Lr & _).
  split; [|split].
  - apply (seg_eq_iff a o len s a _ _ r H R). split; apply same_within; assumption.
  - unfold seg_union; cbn [filter]. replace (axis_eqb (sg_axis s) (sg_axis s)) with true by (symmetry; apply axis_eqb_eq; reflexivity).
    cbn [filter].
    replace (seg_contain s s) with true.
    2:{ symmetry. apply (seg_contain_iff a o len s a o len s H H). apply same_within; [exact T|intros p; reflexivity]. }
    cbn [map qsum fold_right]. apply qlt_true. setoid_replace (sg_length s - (sg_length s + 0)) with 0 by ring. reflexivity.
  - unfold seg_union; cbn [filter]. replace (axis_eqb (sg_axis r) (sg_axis s)) with true by (symmetry; apply axis_eqb_eq; congruence).
    cbn [filter].
    replace (seg_contain s r) with true.
    2:{ symmetry. apply (seg_contain_iff a o len s a _ _ r H R). apply same_within; assumption. }
    cbn [map qsum fold_right]. apply qlt_false. rewrite Ls, Lr.
    setoid_replace (len - (- len + 0)) with (2 * len) by ring. rewrite Qabs_Qmult.
    change (Qabs 2) with 2. assert (tol8 < tol4) by reflexivity. lra.
Qed.

Theorem hexa_contain_refuted :
  (exists o d s o' d' g, new_hexa o d = Some s /\ new_hexa o' d' = Some g /\
     within 0 (box_points o' d') (box_points o d) /\ hexa_contain s g = false) /\
  (exists o d s o' d' g, new_hexa o d = Some s /\ new_hexa o' d' = Some g /\
     ~ within (1 # 2) (box_points o' d') (box_points o d) /\ hexa_contain s g = true).
Proof.
  split.
  - exists (mkP 0 0 0), (mkP 2 1 1). eexists. exists (mkP 1 0 0), (mkP 1 1 1). eexists.
    split; [reflexivity|]. split; [reflexivity|]. split; [|reflexivity].
    change (within 0 (pts (mkP 1 0 0, mkP 1 1 1)) (pts (mkP 0 0 0, mkP 2 1 1))).
    apply within_box; [discriminate|]. intros []; split; discriminate.
  - exists (mkP 0 0 0), (mkP 1 2 1). eexists. exists (mkP 0 0 0), (mkP 2 2 1). eexists.
    split; [reflexivity|]. split; [reflexivity|]. split; [|reflexivity].
    change (~ within (1 # 2) (pts (mkP 0 0 0, mkP 2 2 1)) (pts (mkP 0 0 0, mkP 1 2 1))).
    rewrite within_box by discriminate. intros H. destruct (H AX) as (_ & H2). apply H2; reflexivity.
Qed.

(** A box that is cut into two halves across y. *)
Theorem hexa_union_refuted : exists o d s o1 o2 h g1 g2,
  new_hexa o d = Some s /\ new_hexa o1 h = Some g1 /\ new_hexa o2 h = Some g2 /\
  separate (fun x => box_inner x h) [o1; o2] /\
  same_points (box_points o d) (fun p => box_points o1 h p \/ box_points o2 h p) /\
  hexa_union s [g1; g2] = false.
Proof.
  exists (mkP 0 0 0), (mkP 2 1 1). eexists. exists (mkP 0 0 0), (mkP 0 (1 # 2) 0), (mkP 2 (1 # 2) 1). eexists. eexists.
  split; [reflexivity|]. split; [reflexivity|]. split; [reflexivity|]. split; [|split; [|reflexivity]].
  - assert (D : forall p, ~ (box_inner (mkP 0 0 0) (mkP 2 (1 # 2) 1) p /\ box_inner (mkP 0 (1 # 2) 0) (mkP 2 (1 # 2) 1) p)).
    { intros p (H1 & H2). specialize (H1 AY); specialize (H2 AY). unfold strictly in *; cbn [coo py] in *. lra. }
    intros [|[|i]] [|[|j]] x y N Hx Hy p (H1 & H2); cbn in Hx, Hy;
      try congruence; try (destruct i; discriminate); try (destruct j; discriminate);
      injection Hx as <-; injection Hy as <-; exact (D p ltac:(tauto)).
  - intros p. unfold box_points, between. split.
    + intros H. destruct (Qlt_le_dec (py p) (1 # 2)) as [L|L]; [left|right]; intros b; specialize (H b);
        destruct b; cbn [coo px py pz] in *; (destruct H; [left|right]; lra).
    + intros [H|H] b; specialize (H b); destruct b; cbn [coo px py pz] in *; (destruct H; [left|right]; lra).
Qed.

(** ** keys *)
Lemma round_comp : forall x y, x == y -> round_half_even x = round_half_even y.
Proof.
  intros x y E. unfold round_half_even, qlt, qgt. rewrite (Qfloor_comp x y E).
  assert (D : forall a, (Qle_bool (1 # 2) (x - inject_Z a) = Qle_bool (1 # 2) (y - inject_Z a)) /\
                        (Qle_bool (x - inject_Z a) (1 # 2) = Qle_bool (y - inject_Z a) (1 # 2))).
  { intros a. split; apply eq_true_iff_eq; rewrite !Qle_bool_iff; rewrite E; reflexivity. }
  destruct (D (Qfloor y)) as (-> & ->). reflexivity.
Qed.

Lemma fmt_comp : forall n x y, x == y -> fmt n x = fmt n y.
Proof.
  intros n x y E. unfold fmt. apply f_equal2.
  - unfold qlt. f_equal. apply eq_true_iff_eq; rewrite !Qle_bool_iff; rewrite E; reflexivity.
  - apply round_comp. rewrite E. reflexivity.
Qed.

Theorem seg_key_same : forall a o len s a' o' len' g, new_seg a o len = Some s -> new_seg a' o' len' = Some g ->
  corners_apart tol8 [sa_box (a, o, len); sa_box (a', o', len')] ->
  seg_contain s g = true -> seg_key s = seg_key g.
Proof.
  intros a o len s a' o' len' g Hs Hg Hap C.
  pose proof C as C'. rewrite (seg_contain_box a o len s a' o' len' g Hs Hg) in C'.
  destruct (new_seg_inv _ _ _ _ Hs) as (_ & As & _ & _ & Ns). destruct (new_seg_inv _ _ _ _ Hg) as (_ & Ag & _ & _ & Ng).
  unfold seg_contain in C. destruct (axis_eqb (sg_axis s) (sg_axis g)) eqn:E; [|discriminate]. clear C.
  apply axis_eqb_eq in E. rewrite As, Ag in E. subst a'.
  assert (Q : forall b, b <> a -> coo b o == coo b o').
  { intros b D. specialize (C' b).
    destruct (lo_flat o (along a len) b) as (F1 & F2). { rewrite coo_along; destruct (axis_dec b a); [congruence|reflexivity]. }
    destruct (lo_flat o' (along a len') b) as (F3 & F4). { rewrite coo_along; destruct (axis_dec b a); [congruence|reflexivity]. }
    apply (Hap b).
    - cbn; tauto.
    - cbn; tauto.
    - apply Qabs_Qle_condition. lra. }
  unfold seg_key. rewrite As, Ag, Ns, Ng.
  destruct a; cbn [fst snd]; (apply f_equal2; [reflexivity|]); apply f_equal2; apply fmt_comp;
    first [exact (Q AX ltac:(discriminate))|exact (Q AY ltac:(discriminate))|exact (Q AZ ltac:(discriminate))].
Qed.

Theorem rect_key_same : forall a o d s a' o' d' g, new_rect a o d = Some s -> new_rect a' o' d' = Some g ->
  corners_apart tol8 [(o, d); (o', d')] ->
  rect_contain s g = true -> rect_key s = rect_key g.
Proof.
  intros a o d s a' o' d' g Hs Hg Hap C.
  destruct (new_rect_inv _ _ _ _ Hs) as (_ & _ & As & Fs & _). destruct (new_rect_inv _ _ _ _ Hg) as (_ & _ & Ag & Fg & _).
  unfold rect_contain in C.
  destruct (axis_eqb (rc_axis s) (rc_axis g)) eqn:E; [|discriminate].
  destruct (qgt (Qabs (rc_face s - rc_face g)) tol8) eqn:E'; [discriminate|].
  apply axis_eqb_eq in E. apply qgt_false in E'. clear C.
  unfold rect_key. rewrite As, Ag, Fs, Fg in *. subst a'. apply f_equal2; [reflexivity|]. apply fmt_comp.
  apply (Hap a); [cbn; tauto|cbn; tauto|exact E'].
Qed.

Theorem keys_refuted :
  (exists p q, point_contain p q = true /\ point_key p <> point_key q) /\
  (exists a o len s o' len' g, new_seg a o len = Some s /\ new_seg a o' len' = Some g /\
     seg_contain s g = true /\ seg_key s <> seg_key g) /\
  (exists a o d s o' d' g, new_rect a o d = Some s /\ new_rect a o' d' = Some g /\
     rect_contain s g = true /\ rect_key s <> rect_key g).
Proof.
  split; [|split].
  - exists (mkP 0 0 0), (mkP (- (1 # 1000000000)) 0 0). split; [reflexivity|discriminate].
  - exists AX, (mkP 0 0 0), 2. eexists. exists (mkP 0 (- (1 # 1000000000)) 0), 1. eexists.
    split; [reflexivity|]. split; [reflexivity|]. split; [reflexivity|discriminate].
  - exists AX, (mkP 0 0 0), (mkP 0 2 2). eexists. exists (mkP (- (1 # 1000000000)) 0 0), (mkP 0 1 1). eexists.
    split; [reflexivity|]. split; [reflexivity|]. split; [reflexivity|discriminate].
Qed.

(** ** points *)
Theorem point_eq_iff : forall p q, point_eq p q = true <-> forall b, Qabs (coo b p - coo b q) < tol8.
Proof.
  intros p q; unfold point_eq. rewrite !andb_true_iff, !qlt_true. split.
  - intros ((H1 & H2) & H3) []; assumption.
  - intros H. exact (conj (conj (H AX) (H AY)) (H AZ)).
Qed.

Theorem point_union_iff : forall s gs,
  (point_union s gs = None <-> exists i j p q, (i < j)%nat /\ nth_error gs i = Some p /\ nth_error gs j = Some q /\
      forall b, Qabs (coo b p - coo b q) < tol8) /\
  (point_union s gs = Some true -> exists g, In g gs /\ forall b, Qabs (coo b g - coo b s) < tol8) /\
  (point_union s gs = Some false -> forall g, In g gs -> ~ forall b, Qabs (coo b g - coo b s) < tol8).
Proof.
  intros s gs. assert (SEP : points_separate gs = false <-> exists i j p q, (i < j)%nat /\ nth_error gs i = Some p /\ nth_error gs j = Some q /\
      forall b, Qabs (coo b p - coo b q) < tol8).
  { induction gs as [|g gs IH].
    - split; [discriminate|]. intros (i & j & p & q & _ & H & _). destruct i; discriminate.
    - cbn [points_separate]. rewrite andb_false_iff, negb_false_iff, existsb_exists, IH. split.
      + intros [(x & Hx & E)|(i & j & p & q & L & Hp & Hq & E)].
        * apply In_nth_error in Hx. destruct Hx as (k & Hk). exists 0%nat, (S k), g, x.
          split; [lia|]. split; [reflexivity|]. split; [exact Hk|]. apply point_eq_iff; exact E.
        * exists (S i), (S j), p, q. split; [lia|]. auto.
      + intros ([|i] & [|j] & p & q & L & Hp & Hq & E); try lia.
        * left. cbn in Hp, Hq. injection Hp as <-. exists q. split; [exact (nth_error_In _ _ Hq)|apply point_eq_iff; exact E].
        * right. exists i, j, p, q. split; [lia|]. auto. }
  unfold point_union. destruct (points_separate gs) eqn:E.
  - split; [|split].
    + split; [discriminate|]. intros H. apply SEP in H. discriminate.
    + intros [= H]. apply existsb_exists in H. destruct H as (g & Hg & K). exists g. split; [exact Hg|apply point_eq_iff; exact K].
    + intros [= H] g Hg K. apply point_eq_iff in K.
      assert (F : existsb (fun g => point_eq g s) gs = true) by (apply existsb_exists; exists g; split; assumption). congruence.
  - split; [|split]; try discriminate. split; [intros _; apply SEP; reflexivity|reflexivity].
Qed.
