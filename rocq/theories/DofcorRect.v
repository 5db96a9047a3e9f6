(** Proofs about the correspondence of dofs whose places are axis-parallel rectangles. *)
From Coq Require Import QArith Qabs List Lqa Lia Bool Arith.
From Verif Require Import AxisModel AxisSpec AxisCells AxisThms AxisUnion AxisFinal DofcorModel DofcorSpec DofcorThms.
Import ListNotations.
Local Open Scope Q_scope.

Lemma rects_keyok : keyok rects.
Proof.
  intros [a [s z]] [a' [s' z']]. cbn [rects g_keyeq]. unfold rect_keyeq; cbn [fst snd].
  rewrite !andb_true_iff, axis_eqb_eq, eqb_true_iff, Z.eqb_eq. split.
  - intros ((-> & ->) & ->); reflexivity.
  - intros [= -> -> ->]; auto.
Qed.

Lemma rep_box : forall a o d a' o' d' g, new_rect a o d = Some g -> new_rect a' o' d' = Some g ->
  a = a' /\ forall b, lo (o, d) b == lo (o', d') b /\ hi (o, d) b == hi (o', d') b.
Proof.
  intros a o d a' o' d' g H H'.
  destruct (new_rect_inv _ _ _ _ H) as (Z & _ & A & F & B0 & B1 & _).
  destruct (new_rect_inv _ _ _ _ H') as (Z' & _ & A' & F' & B0' & B1' & _).
  assert (a = a') as <- by congruence. split; [reflexivity|].
  destruct (lo_flat o d a Z) as (L1 & L2). destruct (lo_flat o' d' a Z') as (L3 & L4).
  rewrite F in F'. rewrite B0 in B0'. rewrite B1 in B1'.
  destruct a; injection B0' as E1 E2; injection B1' as E3 E4; intros []; cbn [coo] in *;
    first [rewrite E1, E2; split; reflexivity | rewrite E3, E4; split; reflexivity | rewrite L1, L2, L3, L4, F'; split; reflexivity].
Qed.

Lemma points_of_box : forall a o d g p, new_rect a o d = Some g -> (points_of g p <-> pts (o, d) p).
Proof.
  intros a o d g p H. destruct (new_rect_inv _ _ _ _ H) as (Z & _). rewrite <- (rect_pts a o d Z p). split.
  - intros (a' & o' & d' & H' & P). destruct (new_rect_inv _ _ _ _ H') as (Z' & _).
    apply (rect_pts a' o' d' Z') in P. apply (rect_pts a o d Z). rewrite pts_iff in *.
    destruct (rep_box a o d a' o' d' g H H') as (_ & E). intros b. destruct (E b) as (E1 & E2). rewrite E1, E2. apply P.
  - intros P. exists a, o, d. split; assumption.
Qed.

Lemma inner_of_box : forall a o d g p, new_rect a o d = Some g ->
  (inner_of g p <-> coo a p == coo a o /\ forall b, b <> a -> lo (o, d) b < coo b p /\ coo b p < hi (o, d) b).
Proof.
  intros a o d g p H. destruct (new_rect_inv _ _ _ _ H) as (Z & _). split.
  - intros (a' & o' & d' & H' & (P1 & P2)). destruct (new_rect_inv _ _ _ _ H') as (Z' & _).
    destruct (rep_box a o d a' o' d' g H H') as (<- & E). split.
    + rewrite P1. destruct (E a) as (E1 & _). destruct (lo_flat o d a Z) as (L & _). destruct (lo_flat o' d' a Z') as (L' & _). lra.
    + intros b Hb. specialize (P2 b Hb). apply sort2_strictly in P2. destruct (E b) as (E1 & E2). unfold lo, hi in *. cbn [fst snd] in *.
      rewrite E1, E2. exact P2.
  - intros (P1 & P2). exists a, o, d. split; [exact H|]. split; [exact P1|]. intros b Hb. apply sort2_strictly. exact (P2 b Hb).
Qed.

Lemma corners_apart_incl : forall t C C', incl C C' -> corners_apart t C' -> corners_apart t C.
Proof.
  intros t C C' I H b x y Hx Hy. apply (H b).
  - apply in_flat_map in Hx. destruct Hx as (e & H1 & H2). apply in_flat_map. exists e. split; [apply I; exact H1|exact H2].
  - apply in_flat_map in Hy. destruct Hy as (e & H1 & H2). apply in_flat_map. exists e. split; [apply I; exact H1|exact H2].
Qed.

Lemma corners_apart_le : forall t t' C, t' <= t -> corners_apart t C -> corners_apart t' C.
Proof. intros t t' C L H b x y Hx Hy E. apply (H b x y Hx Hy). lra. Qed.

Section Exact.
  Variables (C : list (point3 * point3)) (AP : corners_apart tol8 C).

  Lemma snap : forall b od od' x y, In od C -> In od' C -> In x (ends b (fst od) (snd od)) -> In y (ends b (fst od') (snd od')) ->
    (x - y <= tol8 <-> x <= y).
  Proof.
    intros b od od' x y H H' Hx Hy. split; [|pose proof tol8_pos; intros; lra].
    intros D. destruct (Qlt_le_dec y x) as [L|L]; [|exact L]. assert (E : x == y); [|lra].
    apply (AP b); [apply in_flat_map; exists od; auto|apply in_flat_map; exists od'; auto|].
    apply Qabs_Qle_condition. pose proof tol8_pos. lra.
  Qed.

  Lemma contain_box : forall a o d s a' o' d' g, In (o, d) C -> In (o', d') C -> new_rect a o d = Some s -> new_rect a' o' d' = Some g ->
    (rect_contain s g = true <-> forall b, lo (o, d) b <= lo (o', d') b /\ hi (o', d') b <= hi (o, d) b).
  Proof.
    intros a o d s a' o' d' g I I' H H'. rewrite (rect_contain_box _ _ _ _ _ _ _ _ H H'). split; intros P b; specialize (P b).
    - destruct P as (P1 & P2). split.
      + apply (snap b (o, d) (o', d') _ _ I I' (lo_ends _ _) (lo_ends _ _)); exact P1.
      + apply (snap b (o', d') (o, d) _ _ I' I (hi_ends _ _) (hi_ends _ _)); exact P2.
    - pose proof tol8_pos. lra.
  Qed.

  Definition from (g : rect3) : Prop := exists a o d, In (o, d) C /\ new_rect a o d = Some g.

  Lemma contain_points : forall s g, from s -> from g -> (rect_contain s g = true <-> forall p, points_of g p -> points_of s p).
  Proof.
    intros s g (a & o & d & I & H) (a' & o' & d' & I' & H'). rewrite (contain_box a o d s a' o' d' g I I' H H'). split.
    - intros B p. rewrite (points_of_box a o d s p H), (points_of_box a' o' d' g p H'), !pts_iff.
      intros P b. specialize (B b); specialize (P b). lra.
    - intros P b.
      pose proof (lo_le_hi (o', d')) as L.
      assert (P1 : points_of g (mkpt (lo (o', d')))).
      { apply (points_of_box a' o' d' g _ H'), pts_iff. intros c; rewrite coo_mkpt; split; [lra|apply L]. }
      assert (P2 : points_of g (mkpt (hi (o', d')))).
      { apply (points_of_box a' o' d' g _ H'), pts_iff. intros c; rewrite coo_mkpt; split; [apply L|lra]. }
      apply P in P1. apply P in P2. rewrite (points_of_box a o d s _ H), pts_iff in P1. rewrite (points_of_box a o d s _ H), pts_iff in P2.
      specialize (P1 b); specialize (P2 b). rewrite coo_mkpt in P1, P2. split; lra.
  Qed.

  Lemma eq_contain : forall s g, from s -> from g -> (rect_eq s g = true <-> rect_contain s g = true /\ rect_contain g s = true).
  Proof.
    intros s g (a & o & d & I & H) (a' & o' & d' & I' & H').
    rewrite (rect_eq_iff a o d s a' o' d' g H H'), (rect_contain_iff a o d s a' o' d' g H H'), (rect_contain_iff a' o' d' g a o d s H' H).
    reflexivity.
  Qed.

  Lemma eq_points : forall s g, from s -> from g -> (rect_eq s g = true <-> same_points (points_of s) (points_of g)).
  Proof.
    intros s g F F'. rewrite (eq_contain s g F F'), (contain_points s g F F'), (contain_points g s F' F).
    unfold same_points. split; [intros (A & B) p; split; auto|intros A; split; intros p; apply A].
  Qed.

  Lemma key_points : forall s g, from s -> from g -> rect_contain s g = true -> rect_key s = rect_key g.
  Proof.
    intros s g (a & o & d & I & H) (a' & o' & d' & I' & H'). apply (rect_key_same a o d s a' o' d' g H H').
    apply (corners_apart_incl tol8 _ C); [|exact AP]. intros e [<-|[<-|[]]]; assumption.
  Qed.

  Lemma common_inner : forall s s' g, from s -> from s' -> from g -> rect_contain s g = true -> rect_contain s' g = true ->
    exists p, inner_of s p /\ inner_of s' p.
  Proof.
    intros s s' g (a & o & d & I & H) (a' & o' & d' & I' & H') (e & u & v & J & K) S S'.
    exists (mkpt (fun b => (lo (u, v) b + hi (u, v) b) * (1 # 2))).
    destruct (new_rect_inv _ _ _ _ K) as (Z & W & A & F & _).
    assert (ONE : forall a o d s, In (o, d) C -> new_rect a o d = Some s -> rect_contain s g = true ->
              inner_of s (mkpt (fun b => (lo (u, v) b + hi (u, v) b) * (1 # 2)))).
    { clear -AP J K Z W A F. intros a o d s I H S. apply (inner_of_box a o d s _ H).
      destruct (new_rect_inv _ _ _ _ H) as (Z0 & _ & A0 & F0 & _).
      assert (a = e) as ->.
      { unfold rect_contain in S. destruct (axis_eqb (rc_axis s) (rc_axis g)) eqn:E; [|discriminate].
        apply axis_eqb_eq in E. congruence. }
      pose proof (proj1 (contain_box e o d s e u v g I J H K) S) as B.
      split.
      - rewrite coo_mkpt. specialize (B e). destruct (lo_flat o d e Z0) as (L1 & L2). destruct (lo_flat u v e Z) as (L3 & L4). lra.
      - intros b Hb. rewrite coo_mkpt. specialize (B b). specialize (W b Hb). pose proof (hi_lo (u, v) b) as HL. cbn [snd] in HL.
        assert (0 < tol4) by reflexivity. lra. }
    split; [exact (ONE a o d s I H S)|exact (ONE a' o' d' s' I' H' S')].
  Qed.
End Exact.

Section Of.
  Variables (C : list (point3 * point3)) (ranks0 ranks1 : list (list (nat * rect3))).
  Hypothesis AP : corners_apart tol8 C.
  Hypothesis B0 : built C ranks0.
  Hypothesis B1 : built C ranks1.
  Hypothesis O0 : one_place ranks0.
  Hypothesis O1 : one_place ranks1.
  Hypothesis DJ0 : disjoint ranks0.

  Lemma from0 : forall d g, lies ranks0 d g -> from C g.  Proof. exact B0. Qed.
  Lemma from1 : forall d g, lies ranks1 d g -> from C g.  Proof. exact B1. Qed.

  Lemma part_points : forall d0 d1, part_of rects ranks0 ranks1 d0 d1 <->
    exists g0 g1, lies ranks0 d0 g0 /\ lies ranks1 d1 g1 /\ forall p, points_of g1 p -> points_of g0 p.
  Proof.
    intros d0 d1. split; intros (g0 & g1 & L0 & L1 & H); exists g0, g1; (split; [exact L0|split; [exact L1|]]);
      apply (contain_points C AP g0 g1 (from0 _ _ L0) (from1 _ _ L1)); exact H.
  Qed.

  Lemma rects_coherent : coherent rects ranks0 ranks1.
  Proof.
    split.
    - intros d g g' h e L L' Lh E. cbn [rects g_eq g_contain] in *.
      apply (eq_points C AP g g' (from0 _ _ L) (from0 _ _ L')) in E. apply eq_true_iff_eq.
      rewrite (contain_points C AP g h (from0 _ _ L) (from1 _ _ Lh)), (contain_points C AP g' h (from0 _ _ L') (from1 _ _ Lh)).
      split; intros H p Hp; apply E, H, Hp.
    - intros d g h h' e L Lh Lh' E. cbn [rects g_eq g_contain] in *.
      apply (eq_points C AP h h' (from1 _ _ Lh) (from1 _ _ Lh')) in E. apply eq_true_iff_eq.
      rewrite (contain_points C AP g h (from0 _ _ L) (from1 _ _ Lh)), (contain_points C AP g h' (from0 _ _ L) (from1 _ _ Lh')).
      split; intros H p Hp; apply H, E, Hp.
  Qed.

  Lemma place_key : forall ranks d g g', built C ranks -> one_place ranks -> lies ranks d g -> lies ranks d g' -> rect_key g = rect_key g'.
  Proof.
    intros ranks d g g' B O L L'. apply (key_points C AP g g' (B _ _ L) (B _ _ L')).
    apply (contain_points C AP g g' (B _ _ L) (B _ _ L')). intros p. apply (O d g g' L L').
  Qed.

  Lemma rects_keys : forall d0 d1, part_of rects ranks0 ranks1 d0 d1 -> keys_agree rects ranks0 ranks1 d0 d1.
  Proof.
    intros d0 d1 (g0 & g1 & L0 & L1 & H) f Hf. cbn [rects g_key] in Hf. injection Hf as <-. intros h0 h1 M0 M1.
    rewrite (place_key ranks0 d0 h0 g0 B0 O0 M0 L0), (place_key ranks1 d1 h1 g1 B1 O1 M1 L1).
    exact (key_points C AP g0 g1 (from0 _ _ L0) (from1 _ _ L1) H).
  Qed.

  Lemma rects_unique : forall d0 d0' d1, part_of rects ranks0 ranks1 d0 d1 -> part_of rects ranks0 ranks1 d0' d1 -> d0 = d0'.
  Proof.
    intros d0 d0' d1 (g0 & g1 & L0 & L1 & H) (h0 & h1 & M0 & M1 & H'). destruct (Nat.eq_dec d0 d0') as [E|N]; [exact E|exfalso].
    cbn [rects g_contain] in *.
    assert (H2 : rect_contain h0 g1 = true).
    { apply (contain_points C AP h0 g1 (from0 _ _ M0) (from1 _ _ L1)). intros p Hp.
      apply (proj1 (contain_points C AP h0 h1 (from0 _ _ M0) (from1 _ _ M1)) H'). apply (O1 d1 g1 h1 L1 M1). exact Hp. }
    destruct (common_inner C AP g0 h0 g1 (from0 _ _ L0) (from0 _ _ M0) (from1 _ _ L1) H H2) as (p & P).
    exact (DJ0 d0 d0' g0 h0 N L0 M0 p P).
  Qed.

  Theorem rect_listed : forall c cor, computer rects ranks0 ranks1 = Some (c, cor) -> forall d0 d1, listed cor d0 d1 <->
    exists g0 g1, lies ranks0 d0 g0 /\ lies ranks1 d1 g1 /\ forall p, points_of g1 p -> points_of g0 p.
  Proof.
    intros c cor H d0 d1. rewrite <- part_points.
    exact (cor_iff rects ranks0 ranks1 c cor rects_keyok rects_coherent rects_keys rects_unique H d0 d1).
  Qed.
End Of.

Lemma rect_check_some : forall D0 D1 cor, (forall d0 l, In (d0, l) cor -> exists g gs, dget D0 d0 = Some (g :: gs)) ->
  exists c, check_complete rects D0 D1 cor = Some c.
Proof.
  intros D0 D1 cor; induction cor as [|[d0 l] cor IH]; intros H; [exists true; reflexivity|].
  destruct (H d0 l (or_introl eq_refl)) as (g & gs & E). cbn [check_complete]. rewrite E. cbn [rects g_union].
  destruct (rect_union g (union_args rects D1 l)); [|exists false; reflexivity].
  apply IH. intros d l' Hl. exact (H d l' (or_intror Hl)).
Qed.

Theorem rect_no_exception : forall ranks0 ranks1, exists c cor, computer rects ranks0 ranks1 = Some (c, cor).
Proof.
  intros ranks0 ranks1. unfold computer.
  set (D0 := gather0 rects (map (rank_geos rects) ranks0)). set (D1 := gather1 rects (map (rank_geos rects) ranks1)).
  pose proof (sinv_all rects D0 D1 rects_keyok (D0_nodup rects ranks0) (D1_nodup rects ranks1) (D1_ne rects ranks1)) as I.
  destruct (find_all rects D0 D1) as [[cor rest] possible]. destruct possible; [|exists false, cor; reflexivity].
  destruct I as (_ & _ & I3 & _).
  destruct (rect_check_some D0 D1 cor) as (c & E); [|rewrite E; exists c, cor; reflexivity].
  intros d0 l Hl. destruct (I3 d0 l Hl) as (_ & gs0 & Hg & _).
  assert (E : dget D0 d0 = Some gs0) by (apply dget_some_in; [exact (D0_nodup rects ranks0)|exact Hg]).
  destruct gs0 as [|g gs]; [exfalso; exact (D0_nonempty rects ranks0 d0 [] E eq_refl)|]. exists g, gs; exact E.
Qed.

(** ** complete *)
Lemma choose_list : forall {S T} (P : S -> T -> Prop) (l : list T), (forall g, In g l -> exists i, P i g) -> exists m, Forall2 P m l.
Proof.
  intros S T P l; induction l as [|g l IH]; intros H; [exists []; constructor|].
  destruct (H g (or_introl eq_refl)) as (i & Hi). destruct (IH (fun x Hx => H x (or_intror Hx))) as (m & Hm).
  exists (i :: m). constructor; assumption.
Qed.

Lemma forall2_nth : forall {S T} (P : S -> T -> Prop) m l, Forall2 P m l -> forall k i, nth_error m k = Some i ->
  exists g, nth_error l k = Some g /\ P i g.
Proof.
  intros S T P m l F; induction F as [|x y m l H F IH]; intros [|k] i E; try discriminate.
  - injection E as <-. exists y; auto.
  - exact (IH k i E).
Qed.

Lemma forall2_in_l : forall {S T} (P : S -> T -> Prop) m l i, Forall2 P m l -> In i m -> exists g, In g l /\ P i g.
Proof.
  intros S T P m l i F; induction F as [|x y m l H F IH]; intros I; [destruct I|]. destruct I as [<-|I].
  - exists y; split; [left; reflexivity|exact H].
  - destruct (IH I) as (g & H1 & H2). exists g; split; [right; exact H1|exact H2].
Qed.

Lemma forall2_in_r : forall {S T} (P : S -> T -> Prop) m l g, Forall2 P m l -> In g l -> exists i, In i m /\ P i g.
Proof.
  intros S T P m l g F; induction F as [|x y m l H F IH]; intros I; [destruct I|]. destruct I as [<-|I].
  - exists x; split; [left; reflexivity|exact H].
  - destruct (IH I) as (i & H1 & H2). exists i; split; [right; exact H1|exact H2].
Qed.

Lemma fop_nth : forall {T} (R : T -> T -> Prop) l, ForallOrdPairs R l -> forall i j x y, (i < j)%nat ->
  nth_error l i = Some x -> nth_error l j = Some y -> R x y.
Proof.
  intros T R l F; induction F as [|z l H F IH]; intros i j x y L E1 E2; [destruct i; discriminate|].
  destruct j as [|j]; [lia|]. destruct i as [|i].
  - injection E1 as <-. cbn [nth_error] in E2. rewrite Forall_forall in H. apply H. exact (nth_error_In _ _ E2).
  - exact (IH i j x y ltac:(lia) E1 E2).
Qed.

Section Complete.
  Variables (C : list (point3 * point3)) (ranks0 ranks1 : list (list (nat * rect3))).
  Hypothesis AP3 : corners_apart (1 # 3000) C.
  Hypothesis B0 : built C ranks0.
  Hypothesis B1 : built C ranks1.
  Hypothesis O0 : one_place ranks0.
  Hypothesis O1 : one_place ranks1.
  Hypothesis DJ0 : disjoint ranks0.
  Hypothesis DJ1 : disjoint ranks1.

  Let AP : corners_apart tol8 C := corners_apart_le (1 # 3000) tol8 C ltac:(discriminate) AP3.
  Let D1 := gather1 rects (map (rank_geos rects) ranks1).
  Notation from := (from C).

  Lemma union_spec : forall d0 g0 l, lies ranks0 d0 g0 ->
    (rect_union g0 (union_args rects D1 l) = true <->
     exists part, (forall g, In g part -> In g (union_args rects D1 l)) /\
       same_points (points_of g0) (fun p => exists g', In g' part /\ points_of g' p)).
  Proof.
    intros d0 g0 l L0. destruct (B0 d0 g0 L0) as (a & o & d & I & H).
    set (gs := union_args rects D1 l).
    assert (LI : forall g, In g gs -> exists d1, lies ranks1 d1 g).
    { intros g Hg. destruct (union_args_in rects ranks1 l g Hg) as (d1 & _ & L). exists d1; exact L. }
    destruct (choose_list (fun (i : axis * point3 * point3) g => new_rect (fst (fst i)) (snd (fst i)) (snd i) = Some g /\ In (ra_box i) C) gs) as (ins & F).
    { intros g Hg. destruct (LI g Hg) as (d1 & L). destruct (B1 d1 g L) as (a' & o' & d' & I' & H'). exists (a', o', d'). split; assumption. }
    assert (F' : Forall2 (fun i g => new_rect (fst (fst i)) (snd (fst i)) (snd i) = Some g) ins gs).
    { clear -F. induction F; constructor; [tauto|assumption]. }
    rewrite (rect_union_iff a o d g0 ins gs H F').
    - split.
      + intros (part & P1 & P2).
        exists (flat_map (fun i => match new_rect (fst (fst i)) (snd (fst i)) (snd i) with Some g => [g] | None => [] end) part). split.
        * intros g Hg. apply in_flat_map in Hg. destruct Hg as (i & Hi & Hg).
          destruct (forall2_in_l _ _ _ i F' (P1 i Hi)) as (g' & G1 & G2). rewrite G2 in Hg. destruct Hg as [<-|[]]. exact G1.
        * intros p. split.
          -- intros (a' & o' & d' & H' & P).
             assert (Pp : rect_points a o d p).
             { assert (Q : points_of g0 p) by (exists a', o', d'; split; assumption).
               apply (points_of_box a o d g0 p H) in Q. destruct (new_rect_inv _ _ _ _ H) as (Z & _). apply (rect_pts a o d Z). exact Q. }
             apply P2 in Pp. destruct Pp as (i & Hi & Pi).
             destruct (forall2_in_l _ _ _ i F' (P1 i Hi)) as (g' & G1 & G2). exists g'. split.
             ++ apply in_flat_map. exists i. split; [exact Hi|]. rewrite G2; left; reflexivity.
             ++ exists (fst (fst i)), (snd (fst i)), (snd i). split; assumption.
          -- intros (g' & Hg & P). apply in_flat_map in Hg. destruct Hg as (i & Hi & Hg).
             destruct (new_rect (fst (fst i)) (snd (fst i)) (snd i)) as [g|] eqn:E; [|destruct Hg]. destruct Hg as [<-|[]].
             exists a, o, d. split; [exact H|]. apply P2. exists i. split; [exact Hi|].
             apply (points_of_box _ _ _ g p E) in P. destruct (new_rect_inv _ _ _ _ E) as (Z & _).
             apply (rect_pts _ _ _ Z). exact P.
      + intros (part & P1 & P2).
        exists (filter (fun i => match new_rect (fst (fst i)) (snd (fst i)) (snd i) with Some g => rect_contain g0 g | None => false end) ins). split.
        * intros i Hi. apply filter_In in Hi. exact (proj1 Hi).
        * destruct (new_rect_inv _ _ _ _ H) as (Z & _). intros p. split.
          -- intros Pp. assert (Q : points_of g0 p) by (exists a, o, d; split; assumption).
             apply P2 in Q. destruct Q as (g & Hg & Pg).
             destruct (forall2_in_r _ _ _ g F' (P1 g Hg)) as (i & Hi & E). exists i. split.
             ++ apply filter_In. split; [exact Hi|]. rewrite E.
                destruct (LI g (P1 g Hg)) as (d1 & L1).
                apply (contain_points C AP g0 g (B0 _ _ L0) (B1 _ _ L1)). intros q Hq. apply P2. exists g; split; assumption.
             ++ apply (points_of_box _ _ _ g p E) in Pg. destruct (new_rect_inv _ _ _ _ E) as (Z' & _). apply (rect_pts _ _ _ Z'). exact Pg.
          -- intros (i & Hi & Pi). apply filter_In in Hi. destruct Hi as (Hi & S).
             destruct (new_rect (fst (fst i)) (snd (fst i)) (snd i)) as [g|] eqn:E; [|discriminate].
             destruct (forall2_in_l _ _ _ i F' Hi) as (g' & G1 & G2). rewrite E in G2; injection G2 as <-.
             destruct (LI g G1) as (d1 & L1).
             assert (Q : points_of g0 p).
             { apply (proj1 (contain_points C AP g0 g (B0 _ _ L0) (B1 _ _ L1)) S).
               exists (fst (fst i)), (snd (fst i)), (snd i). split; assumption. }
             apply (points_of_box a o d g0 p H) in Q. apply (rect_pts a o d Z). exact Q.
    - apply (corners_apart_incl _ _ C); [|exact AP3]. intros e [<-|He]; [exact I|]. apply in_map_iff in He. destruct He as (i & <- & Hi).
      destruct (forall2_in_l _ _ _ i F Hi) as (g & _ & _ & Q). exact Q.
    - assert (ORD : forall i j x y, (i < j)%nat -> nth_error ins i = Some x -> nth_error ins j = Some y ->
                forall p, ~ ((fst (fst x) = a /\ rect_inner (fst (fst x)) (snd (fst x)) (snd x) p) /\
                             (fst (fst y) = a /\ rect_inner (fst (fst y)) (snd (fst y)) (snd y) p))).
      { intros i j x y Hij Ex Ey p ((_ & Px) & (_ & Py)).
        destruct (forall2_nth _ _ _ F' i x Ex) as (gx & Gx & Hx). destruct (forall2_nth _ _ _ F' j y Ey) as (gy & Gy & Hy).
        destruct (LI gx (nth_error_In _ _ Gx)) as (dx & Lx). destruct (LI gy (nth_error_In _ _ Gy)) as (dy & Ly).
        destruct (Nat.eq_dec dx dy) as [<-|N].
        - pose proof (fop_nth _ _ (union_args_apart rects ranks1 l) i j gx gy Hij Gx Gy) as Q. cbn [rects g_eq] in Q.
          assert (T : rect_eq gy gx = true); [|congruence].
          apply (eq_points C AP gy gx (B1 _ _ Ly) (B1 _ _ Lx)). exact (O1 dx gy gx Ly Lx).
        - apply (DJ1 dx dy gx gy N Lx Ly p). split; [exists (fst (fst x)), (snd (fst x)), (snd x)|exists (fst (fst y)), (snd (fst y)), (snd y)]; split; assumption. }
      intros i j x y N Ex Ey p (Px & Py). destruct (Nat.lt_trichotomy i j) as [L|[L|L]]; [|congruence|].
      + exact (ORD i j x y L Ex Ey p (conj Px Py)).
      + exact (ORD j i y x L Ey Ex p (conj Py Px)).
  Qed.

  Lemma chain_place : forall d1 g g', lies ranks1 d1 g -> chain rects (lies ranks1 d1) g g' -> same_points (points_of g) (points_of g') /\ lies ranks1 d1 g'.
  Proof.
    intros d1 g g' L H. pose proof (chain_lies rects ranks1 d1 g g' L H) as L'. split; [exact (O1 d1 g g' L L')|exact L'].
  Qed.

  Theorem rect_complete : forall c cor, computer rects ranks0 ranks1 = Some (c, cor) ->
    (c = true <-> forall d0 g0, lies ranks0 d0 g0 -> union_of_places ranks1 g0).
  Proof.
    intros c cor H.
    pose proof (rect_listed C ranks0 ranks1 AP B0 B1 O0 O1 DJ0 c cor H) as R. split.
    - intros -> d0 g0 L0. destruct (computer_true rects ranks0 ranks1 cor rects_keyok H) as (K1 & K2).
      specialize (K1 d0 g0 L0). apply in_map_iff in K1. destruct K1 as ([d l] & E & Hl). cbn [fst] in E; subst d.
      destruct (K2 d0 l Hl) as (h0 & gs0 & E0 & U). cbn [rects g_union] in U. injection U as U.
      pose proof (D0_lies rects ranks0 d0 _ h0 E0 (or_introl eq_refl)) as LH.
      apply (union_spec d0 h0 l LH) in U. destruct U as (part & P1 & P2). exists part. split.
      + intros g Hg. destruct (union_args_in rects ranks1 l g (P1 g Hg)) as (d1 & _ & L). exists d1; exact L.
      + intros p. rewrite (O0 d0 g0 h0 L0 LH p). apply P2.
    - intros U. destruct c; [reflexivity|exfalso].
      assert (FND : forall d0 g0 part g', lies ranks0 d0 g0 -> same_points (points_of g0) (fun p => exists g', In g' part /\ points_of g' p) ->
                In g' part -> forall d1, lies ranks1 d1 g' -> listed cor d0 d1).
      { intros d0 g0 part g' L0 S Hg d1 L1. apply R. exists g0, g'. split; [exact L0|]. split; [exact L1|].
        intros p Hp. apply S. exists g'; split; assumption. }
      destruct (computer_false rects ranks0 ranks1 cor rects_keyok H) as [(d0 & g0 & L0 & N)|(d0 & l & g0 & gs0 & Hl & E0 & UF)].
      + destruct (U d0 g0 L0) as (part & P1 & P2). destruct part as [|g part].
        * destruct (B0 d0 g0 L0) as (a & o & d & _ & Hr).
          assert (Q : points_of g0 (mkpt (lo (o, d)))).
          { apply (points_of_box a o d g0 _ Hr), pts_iff. intros b. rewrite coo_mkpt. split; [lra|apply lo_le_hi]. }
          apply P2 in Q. destruct Q as (g & [] & _).
        * destruct (P1 g (or_introl eq_refl)) as (d1 & L1).
          destruct (FND d0 g0 _ g L0 P2 (or_introl eq_refl) d1 L1) as (l & Hl & _). apply N. exact (in_map fst _ _ Hl).
      + pose proof (D0_lies rects ranks0 d0 _ g0 E0 (or_introl eq_refl)) as L0.
        cbn [rects g_union] in UF. injection UF as UF.
        assert (UT : rect_union g0 (union_args rects D1 l) = true); [|subst D1; congruence].
        apply (union_spec d0 g0 l L0). destruct (U d0 g0 L0) as (part & P1 & P2).
        exists (filter (fun g => rect_contain g0 g) (union_args rects D1 l)). split.
        * intros g Hg. apply filter_In in Hg. exact (proj1 Hg).
        * intros p. split.
          -- intros Pp. apply P2 in Pp. destruct Pp as (g & Hg & Pg). destruct (P1 g Hg) as (d1 & L1).
             destruct (FND d0 g0 part g L0 P2 Hg d1 L1) as (l' & Hl' & Hd).
             assert (l' = l) as ->.
             { destruct (cor_once rects ranks0 ranks1 _ cor rects_keyok H) as (ND & _).
               pose proof (dget_some_in cor d0 l ND Hl) as A1. pose proof (dget_some_in cor d0 l' ND Hl') as A2. congruence. }
             destruct (union_args_rep rects ranks1 l d1 g Hd L1) as (g' & g'' & C1 & I'' & Q).
             destruct (chain_place d1 g g' L1 C1) as (S1 & L').
             destruct (union_args_in rects ranks1 l g'' I'') as (d2 & _ & L'').
             assert (S2 : same_points (points_of g) (points_of g'')).
             { intros q. rewrite (S1 q). destruct Q as [<-|Q]; [reflexivity|].
               apply (eq_points C AP g' g'' (B1 _ _ L') (B1 _ _ L'')). exact Q. }
             exists g''. split; [|apply S2; exact Pg]. apply filter_In. split; [exact I''|].
             apply (contain_points C AP g0 g'' (B0 _ _ L0) (B1 _ _ L'')). intros q Hq. apply P2. exists g. split; [exact Hg|apply S2; exact Hq].
          -- intros (g & Hg & Pg). apply filter_In in Hg. destruct Hg as (Hg & S).
             destruct (union_args_in rects ranks1 l g Hg) as (d1 & _ & L1).
             apply (proj1 (contain_points C AP g0 g (B0 _ _ L0) (B1 _ _ L1)) S). exact Pg.
  Qed.
End Complete.

(** ** periodic dofs *)
Theorem rect_periodic_refuted : exists C g0 g1 h0 h1,
  corners_apart (1 # 3000) C /\
  built C [[(0%nat, g0); (0%nat, h0)]] /\ built C [[(0%nat, g1); (0%nat, h1)]] /\ built C [[(0%nat, h1); (0%nat, g1)]] /\
  same_points (points_of g0) (points_of g1) /\ same_points (points_of h0) (points_of h1) /\
  computer rects [[(0%nat, g0); (0%nat, h0)]] [[(0%nat, g1); (0%nat, h1)]] = Some (true, [(0%nat, [0%nat])]) /\
  computer rects [[(0%nat, g0); (0%nat, h0)]] [[(0%nat, h1); (0%nat, g1)]] = Some (false, []).
Proof.
  exists [(mkP 0 0 0, mkP 0 1 1); (mkP 1 0 0, mkP 0 1 1)].
  exists (rect_of AX 0 (sort2 0 (0 + 1)) (sort2 0 (0 + 1))), (rect_of AX 0 (sort2 0 (0 + 1)) (sort2 0 (0 + 1))),
         (rect_of AX 1 (sort2 0 (0 + 1)) (sort2 0 (0 + 1))), (rect_of AX 1 (sort2 0 (0 + 1)) (sort2 0 (0 + 1))).
  split.
  { intros b x y Hx Hy; destruct b; cbn in Hx, Hy; repeat match goal with H : _ \/ _ |- _ => destruct H as [H|H] end; try contradiction;
      subst x y; intros E; first [reflexivity | exfalso; apply E; reflexivity]. }
  assert (T : forall r, (forall e, In e r -> e = (0%nat, rect_of AX 0 (sort2 0 (0 + 1)) (sort2 0 (0 + 1))) \/ e = (0%nat, rect_of AX 1 (sort2 0 (0 + 1)) (sort2 0 (0 + 1)))) ->
              built [(mkP 0 0 0, mkP 0 1 1); (mkP 1 0 0, mkP 0 1 1)] [r]).
  { intros r Hr dof g (r' & [<-|[]] & Hg). destruct (Hr _ Hg) as [E|E]; injection E as -> ->.
    - exists AX, (mkP 0 0 0), (mkP 0 1 1). split; [left; reflexivity|reflexivity].
    - exists AX, (mkP 1 0 0), (mkP 0 1 1). split; [right; left; reflexivity|reflexivity]. }
  split; [apply T; cbn; intuition congruence|]. split; [apply T; cbn; intuition congruence|]. split; [apply T; cbn; intuition congruence|].
  split; [intros p; reflexivity|]. split; [intros p; reflexivity|].
  split; vm_compute; reflexivity.
Qed.

(** ** places that differ by rounding around zero *)
Theorem rect_rounding_refuted : exists g0 g1, (exists a o d, new_rect a o d = Some g0) /\ (exists a o d, new_rect a o d = Some g1) /\
  rect_contain g0 g1 = true /\ rect_eq g0 g1 = true /\
  computer rects [[(0%nat, g0)]] [[(0%nat, g1)]] = Some (false, []).
Proof.
  exists (rect_of AX 0 (sort2 0 (0 + 1)) (sort2 0 (0 + 1))), (rect_of AX (- (1 # 1000000000)) (sort2 0 (0 + 1)) (sort2 0 (0 + 1))).
  split; [exists AX, (mkP 0 0 0), (mkP 0 1 1); reflexivity|].
  split; [exists AX, (mkP (- (1 # 1000000000)) 0 0), (mkP 0 1 1); reflexivity|].
  split; [reflexivity|]. split; [reflexivity|]. vm_compute. reflexivity.
Qed.
