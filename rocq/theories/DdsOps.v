(** Proofs about operations on data sets. *)
From Coq Require Import List ZArith QArith Qcanon Bool Lia Permutation.
From Verif Require Import DdsModel DdsSpec.
Import ListNotations.
Local Open Scope Qc_scope.

Lemma qleb_iff a b : qleb a b = true <-> a <= b.
Proof. unfold qleb. destruct (Qclt_le_dec b a) as [H|H]; split; intro K; try discriminate; try assumption; [exfalso; exact (Qclt_not_le _ _ H K)|reflexivity]. Qed.
Lemma close_iff a b : close a b = true <-> near a b.
Proof.
  unfold close, near. rewrite qleb_iff. replace (absq b / qc_of 100000) with (rtol * absq b); [reflexivity|].
  unfold Qcdiv. replace (/ qc_of 100000) with rtol by (apply Qc_is_canon; reflexivity). ring.
Qed.
Lemma allb2_iff {A B} (f : A -> B -> bool) (P : A -> B -> Prop) (H : forall a b, f a b = true <-> P a b) : forall l m, allb2 f l m = true <-> Forall2 P l m.
Proof.
  induction l as [|a l IH]; intros [|b m]; cbn; split; intro K; try discriminate; try (inversion K; fail); try constructor; try reflexivity.
  - apply andb_true_iff in K. apply H. apply K.
  - apply andb_true_iff in K. apply IH. apply K.
  - inversion K; subst. apply andb_true_iff. split; [apply H|apply IH]; assumption.
Qed.
Lemma same_coo_iff x y : same_coo x y = true <-> Forall2 (Forall2 near) (coo x) (coo y).
Proof. unfold same_coo. apply allb2_iff. intros a b. unfold allclose. apply allb2_iff. exact close_iff. Qed.

Lemma traverse_some {A B} (f : A -> option B) : forall l r, traverse f l = Some r <-> Forall2 (fun a b => f a = Some b) l r.
Proof.
  induction l as [|a l IH]; intros r; cbn [traverse].
  - split; intro H; [injection H as <-; constructor|inversion H; reflexivity].
  - split.
    + destruct (f a) as [b|] eqn:E; [|discriminate]. destruct (traverse f l) as [m|]; [|discriminate]. intro H. injection H as <-.
      constructor; [exact E|apply IH; reflexivity].
    + intro H. inversion H as [|? b ? m Hb Hm]; subst. rewrite Hb. apply IH in Hm. rewrite Hm. reflexivity.
Qed.
Lemma traverse_def {A B} (f : A -> option B) l : (exists r, traverse f l = Some r) <-> forall a, In a l -> exists b, f a = Some b.
Proof.
  induction l as [|a l IH]; cbn [traverse].
  - split; [intros _ a []|eauto].
  - split.
    + intros (r & H) x [<- | I].
      * destruct (f a) as [b|]; [eauto|discriminate].
      * destruct (f a); [|discriminate]. destruct (traverse f l) as [m|]; [|discriminate]. apply IH; eauto.
    + intro H. destruct (H a (or_introl eq_refl)) as (b & ->). destruct (proj2 IH (fun x I => H x (or_intror I))) as (m & ->). eauto.
Qed.
Lemma F2_impl {A B} (P Q : A -> B -> Prop) : (forall a b, P a b -> Q a b) -> forall l m, Forall2 P l m -> Forall2 Q l m.
Proof. intros H l m F. induction F; constructor; auto. Qed.
Lemma F2_length {A B} (P : A -> B -> Prop) l m : Forall2 P l m -> length l = length m.
Proof. intro F. induction F; cbn; auto. Qed.
Lemma F2_in_l {A B} (P : A -> B -> Prop) l m x : Forall2 P l m -> In x l -> exists y, In y m /\ P x y.
Proof. intro F. induction F as [|a b l m H F IH]; intros I; [contradiction|]. destruct I as [<- | I]; [exists b; cbn; auto|]. destruct (IH I) as (y & J & K). exists y. cbn. auto. Qed.
Lemma F2_in_r {A B} (P : A -> B -> Prop) l m y : Forall2 P l m -> In y m -> exists x, In x l /\ P x y.
Proof. intro F. induction F as [|a b l m H F IH]; intros I; [contradiction|]. destruct I as [<- | I]; [exists a; cbn; auto|]. destruct (IH I) as (x & J & K). exists x. cbn. auto. Qed.

Lemma bnames_inj d x y : NoDup (map bname d) -> In x d -> In y d -> bname x = bname y -> x = y.
Proof.
  induction d as [|a l IH]; intros ND; [contradiction|]. cbn in ND. apply NoDup_cons_iff in ND. destruct ND as [N ND'].
  intros [<- | I] [<- | I'] E; [reflexivity| | |exact (IH ND' I I' E)]; exfalso; apply N; [rewrite E|rewrite <- E]; apply in_map; assumption.
Qed.
Lemma find_block_some d n b : find_block d n = Some b -> In b d /\ bname b = n.
Proof. intro H. apply find_some in H. destruct H as [I E]. apply Z.eqb_eq in E. auto. Qed.
Lemma find_block_in d b : NoDup (map bname d) -> In b d -> find_block d (bname b) = Some b.
Proof.
  intros ND I. destruct (find_block d (bname b)) as [x|] eqn:E.
  - apply find_block_some in E. destruct E as [I' E]. f_equal. exact (bnames_inj d x b ND I' I E).
  - pose proof (find_none _ _ E b I) as N. cbv beta in N. rewrite Z.eqb_refl in N. discriminate.
Qed.
Lemma same_regions_iff a b : same_regions a b = true <-> forall n, In n (map bname a) <-> In n (map bname b).
Proof.
  unfold same_regions. rewrite andb_true_iff, !forallb_forall. split.
  - intros [A B] n. rewrite !in_map_iff. split; intros (x & <- & I).
    + specialize (A x I). apply existsb_exists in A. destruct A as (y & J & E). apply Z.eqb_eq in E. exists y. auto.
    + specialize (B x I). apply existsb_exists in B. destruct B as (y & J & E). apply Z.eqb_eq in E. exists y. auto.
  - intro H. split; intros x I; apply existsb_exists.
    + destruct (proj1 (in_map_iff _ _ _) (proj1 (H (bname x)) (in_map _ _ _ I))) as (y & E & J). exists y. split; [exact J|]. apply Z.eqb_eq. congruence.
    + destruct (proj1 (in_map_iff _ _ _) (proj2 (H (bname x)) (in_map _ _ _ I))) as (y & E & J). exists y. split; [exact J|]. apply Z.eqb_eq. congruence.
Qed.

(** what a binary operation gives *)
Lemma binary_some op a b c : NoDup (map bname b) -> binary op a b = Some c -> matching a b /\
  Forall2 (fun x z => exists y v, In y b /\ bname y = bname x /\ op (val x) (val y) = Some v /\ z = mkb (bname x) (shape x) (coo x) v) a c.
Proof.
  intros ND H. unfold binary in H. destruct (same_regions a b) eqn:R; [|discriminate]. rewrite same_regions_iff in R. apply traverse_some in H.
  assert (G : Forall2 (fun x z => (exists y v, In y b /\ bname y = bname x /\ op (val x) (val y) = Some v /\ z = mkb (bname x) (shape x) (coo x) v) /\
    forall y, In y b -> bname x = bname y -> Forall2 (Forall2 near) (coo x) (coo y) /\ length (val x) = length (val y)) a c).
  { eapply F2_impl; [|exact H]. intros x z E. cbv beta in E. destruct (find_block b (bname x)) as [y|] eqn:Fy; [|discriminate].
    apply find_block_some in Fy. destruct Fy as [Iy Ey].
    destruct (same_coo x y && Nat.eqb (length (val x)) (length (val y))) eqn:Q; [|discriminate]. apply andb_true_iff in Q. destruct Q as [Q1 Q2].
    apply same_coo_iff in Q1. apply Nat.eqb_eq in Q2. destruct (op (val x) (val y)) as [v|] eqn:Eo; [|discriminate]. injection E as <-.
    split; [exists y, v; auto|]. intros y' Iy' E. assert (y' = y) as -> by (apply (bnames_inj b); auto; congruence). auto. }
  split.
  - split; [exact R|]. intros x y Ix Iy E. destruct (F2_in_l _ _ _ x G Ix) as (z & _ & _ & K). exact (K y Iy E).
  - eapply F2_impl; [|exact G]. intros x z [K _]. exact K.
Qed.
Lemma binary_def op a b : NoDup (map bname b) -> (forall v w, length v = length w -> exists r, op v w = Some r) ->
  (exists c, binary op a b = Some c) <-> matching a b.
Proof.
  intros ND Hop. split.
  - intros (c & H). exact (proj1 (binary_some op a b c ND H)).
  - intros [R M]. unfold binary. rewrite (proj2 (same_regions_iff a b) R). apply traverse_def. intros x I.
    destruct (proj1 (in_map_iff _ _ _) (proj1 (R (bname x)) (in_map _ _ _ I))) as (y & E & J).
    rewrite <- E, (find_block_in b y ND J). destruct (M x y I J (eq_sym E)) as [C L]. rewrite (proj2 (same_coo_iff x y) C), L, Nat.eqb_refl. cbn [andb].
    destruct (Hop (val x) (val y) L) as (r & ->). eauto.
Qed.
Lemma binary_nodes op a b c : NoDup (map bname b) -> binary op a b = Some c -> same_nodes a c.
Proof.
  intros ND H. apply binary_some in H; [|exact ND]. destruct H as [_ F]. induction F as [|x z a c (y & v & _ & _ & _ & ->) F IH]; [repeat split|].
  destruct IH as (A & B & C). repeat split; cbn [map bname coo shape]; congruence.
Qed.
Lemma map2_nth {A B C} (f : A -> B -> C) : forall l m k z, nth_error (map2 f l m) k = Some z <->
  exists a b, nth_error l k = Some a /\ nth_error m k = Some b /\ z = f a b.
Proof.
  induction l as [|a l IH]; intros [|b m] [|k] z; cbn; try (split; [discriminate|intros (x & y & H & H' & _); discriminate]).
  - split; [intro H; injection H as <-; eauto|]. intros (x & y & H & H' & ->). injection H as ->. injection H' as ->. reflexivity.
  - apply IH.
Qed.
(** component-wise operations *)
Lemma binary_values g a b c : NoDup (map bname a) -> NoDup (map bname b) -> binary (fun v w => Some (map2 (map2 g) v w)) a b = Some c ->
  forall n i k z, value_at c n i k z <-> exists p q, value_at a n i k p /\ value_at b n i k q /\ z = g p q.
Proof.
  intros NA NB H n i k z. apply binary_some in H; [|exact NB]. destruct H as [_ F]. split.
  - intros (w & v & I & <- & Hv & Hk). destruct (F2_in_r _ _ _ w F I) as (x & Ix & y & u & Iy & Ey & Eo & ->). injection Eo as <-.
    cbn [val bname] in *. apply map2_nth in Hv. destruct Hv as (va & vb & Ha & Hb & ->). apply map2_nth in Hk. destruct Hk as (p & q & Hp & Hq & ->).
    exists p, q. split; [exists x, va; auto|]. split; [exists y, vb; auto|reflexivity].
  - intros (p & q & (x & va & Ix & <- & Ha & Hp) & (y & vb & Iy & Ey & Hb & Hq) & ->).
    destruct (F2_in_l _ _ _ x F Ix) as (w & Iw & y' & u & Iy' & Ey' & Eo & ->). injection Eo as <-.
    assert (y' = y) as -> by (apply (bnames_inj b); auto; congruence).
    eexists. exists (map2 g va vb). split; [exact Iw|]. split; [reflexivity|]. cbn [val]. split; apply map2_nth; eauto.
Qed.
Lemma unary_values f a n i k z : value_at (unary f a) n i k z <-> exists p, value_at a n i k p /\ z = f p.
Proof.
  unfold unary. split.
  - intros (w & v & I & <- & Hv & Hk). apply in_map_iff in I. destruct I as (x & <- & I). cbn [val bname] in *.
    rewrite nth_error_map in Hv. destruct (nth_error (val x) i) as [u|] eqn:E; [|discriminate]. injection Hv as <-.
    rewrite nth_error_map in Hk. destruct (nth_error u k) as [p|] eqn:E'; [|discriminate]. injection Hk as <-.
    exists p. split; [|reflexivity]. exists x, u. auto.
  - intros (p & (x & v & I & <- & Hv & Hk) & ->). eexists. exists (map f v). split; [apply in_map_iff; exists x; split; [reflexivity|exact I]|].
    split; [reflexivity|]. cbn [val]. rewrite !nth_error_map, Hv, Hk. auto.
Qed.
Lemma unary_nodes f a : same_nodes a (unary f a).
Proof. unfold same_nodes, unary. rewrite !map_map. repeat split; apply map_ext; reflexivity. Qed.

(** dot and cross *)
Lemma map2_nth0 {A B C} (f : A -> B -> C) a0 b0 c0 : forall l m k, (k < length l)%nat -> length l = length m -> nth k (map2 f l m) c0 = f (nth k l a0) (nth k m b0).
Proof. induction l as [|a l IH]; intros [|b m] [|k] H E; cbn in *; try lia; try reflexivity. apply IH; lia. Qed.
Lemma map2_length {A B C} (f : A -> B -> C) : forall l m, length l = length m -> length (map2 f l m) = length l.
Proof. induction l as [|a l IH]; intros [|b m] E; cbn in *; try lia. rewrite IH; lia. Qed.
Lemma dot_values_ok n : forall v w s, (forall x, In x v -> length x = n) -> (forall x, In x w -> length x = n) -> dot_values v w = Some s ->
  length s = n /\ forall k, (k < n)%nat -> nth k s 0 = total (map2 Qcmult (map (fun x => nth k x 0) v) (map (fun x => nth k x 0) w)).
Proof.
  induction v as [|a v IH]; intros w s Hv Hw H; [discriminate|]. destruct w as [|b w]; [destruct v; discriminate|].
  assert (La : length a = n) by (apply Hv; left; reflexivity). assert (Lb : length b = n) by (apply Hw; left; reflexivity).
  assert (Step : (v = [] /\ w = [] /\ s = map2 Qcmult a b) \/ exists t, dot_values v w = Some t /\ s = map2 Qcplus (map2 Qcmult a b) t).
  { destruct v as [|a' v]; destruct w as [|b' w]; cbn in H.
    - left. injection H as <-. auto.
    - discriminate.
    - destruct v; discriminate.
    - right. fold dot_values in H. change (match dot_values (a' :: v) (b' :: w) with Some s => Some (map2 Qcplus (map2 Qcmult a b) s) | None => None end = Some s) in H.
      destruct (dot_values (a' :: v) (b' :: w)) as [t|] eqn:E; [|discriminate]. injection H as <-. eauto. }
  destruct Step as [(-> & -> & ->) | (t & Et & ->)].
  - split; [rewrite map2_length; congruence|]. intros k Hk. cbn [map map2 total]. rewrite (map2_nth0 Qcmult 0 0 0) by lia. ring.
  - destruct (IH w t (fun x I => Hv x (or_intror I)) (fun x I => Hw x (or_intror I)) Et) as [Lt Ht].
    assert (Lm : length (map2 Qcmult a b) = n) by (rewrite map2_length; congruence).
    split; [rewrite map2_length; congruence|]. intros k Hk. cbn [map map2 total]. rewrite (map2_nth0 Qcplus 0 0 0) by lia.
    rewrite (map2_nth0 Qcmult 0 0 0) by lia. rewrite Ht by exact Hk. reflexivity.
Qed.
Lemma near_lengths x y n m v w : Forall2 (Forall2 near) (coo x) (coo y) -> coo x <> [] -> (forall v, In v (coo x) -> length v = n) -> (forall v, In v (coo y) -> length v = m) ->
  In v (val x) -> In w (val y) -> n = m.
Proof.
  intros F NE Hx Hy _ _. inversion F as [E|a b l l' H F' E E']; [congruence|].
  rewrite <- (Hx a), <- (Hy b); [exact (F2_length _ _ _ H)|rewrite <- E'; left; reflexivity|rewrite <- E; left; reflexivity].
Qed.
Lemma dot_ok a b c : dds_ok a -> dds_ok b -> (forall x, In x a -> coo x <> []) -> dot a b = Some c ->
  same_nodes a c /\ forall x y, In x a -> In y b -> bname x = bname y -> exists z s, In z c /\ bname z = bname x /\ val z = [s] /\
    (forall v, In v (val x) -> length s = length v) /\ forall k, (k < length s)%nat -> nth k s 0 = total (map2 Qcmult (column x k) (column y k)).
Proof.
  intros [NA LA] [NB LB] NE H. split; [exact (binary_nodes _ a b c NB H)|]. intros x y Ix Iy E.
  apply binary_some in H; [|exact NB]. destruct H as [[_ M] F]. destruct (F2_in_l _ _ _ x F Ix) as (z & Iz & y' & u & Iy' & Ey' & Eo & ->).
  assert (y' = y) as -> by (apply (bnames_inj b); auto; congruence). destruct (dot_values (val x) (val y)) as [s|] eqn:D; [|discriminate]. injection Eo as <-.
  destruct (LA x Ix) as (n & Cx & Vx), (LB y Iy) as (m & Cy & Vy). destruct (M x y Ix Iy E) as [Nr Ln].
  assert (n = m) as <-.
  { destruct (val x) as [|v lv] eqn:Ev; [discriminate|]. destruct (val y) as [|w lw] eqn:Ew; [destruct lv; discriminate|].
    apply (near_lengths x y n m v w Nr (NE x Ix) Cx Cy); [rewrite Ev; left; reflexivity|rewrite Ew; left; reflexivity]. }
  destruct (dot_values_ok n _ _ _ Vx Vy D) as [Ls Hs]. eexists. exists s. split; [exact Iz|]. split; [reflexivity|]. split; [reflexivity|].
  split; [intros v I; rewrite (Vx v I); exact Ls|]. intros k Hk. rewrite Ls in Hk. exact (Hs k Hk).
Qed.
Lemma cross_ok a b c : NoDup (map bname a) -> NoDup (map bname b) -> cross a b = Some c ->
  same_nodes a c /\ forall n i k z, value_at c n i k z <-> i = 0%nat /\ exists p0 p1 q0 q1,
    value_at a n 0 k p0 /\ value_at a n 1 k p1 /\ value_at b n 0 k q0 /\ value_at b n 1 k q1 /\ z = p0 * q1 - p1 * q0.
Proof.
  intros NA NB H. unfold cross in H. destruct (forallb _ a); [|discriminate]. split; [exact (binary_nodes _ a b c NB H)|].
  intros n i k z. apply binary_some in H; [|exact NB]. destruct H as [_ F]. split.
  - intros (w & v & I & <- & Hv & Hk). destruct (F2_in_r _ _ _ w F I) as (x & Ix & y & u & Iy & Ey & Eo & ->). cbn [val bname] in *.
    destruct (val x) as [|a0 [|a1 [|? ?]]] eqn:Ex; try discriminate. destruct (val y) as [|b0 [|b1 [|? ?]]] eqn:Eyv; try discriminate. injection Eo as <-.
    destruct i as [|i]; cbn in Hv; [|destruct i; discriminate]. injection Hv as <-. split; [reflexivity|].
    apply map2_nth in Hk. destruct Hk as (s & t & Hs & Ht & ->). apply map2_nth in Hs. destruct Hs as (p0 & q1 & A & B & ->). apply map2_nth in Ht. destruct Ht as (p1 & q0 & C & D & ->).
    exists p0, p1, q0, q1. repeat split; [exists x, a0|exists x, a1|exists y, b0|exists y, b1]; rewrite ?Ex, ?Eyv; auto.
  - intros (-> & p0 & p1 & q0 & q1 & (x & va & Ix & <- & Ha & Hp) & (x1 & va1 & Ix1 & E1 & Ha1 & Hp1) & (y & vb & Iy & Ey & Hb & Hq) & (y1 & vb1 & Iy1 & Ey1 & Hb1 & Hq1) & ->).
    assert (x1 = x) as -> by (apply (bnames_inj a); auto). assert (y1 = y) as -> by (apply (bnames_inj b); auto; congruence).
    destruct (F2_in_l _ _ _ x F Ix) as (w & Iw & y' & u & Iy' & Ey' & Eo & ->). assert (y' = y) as -> by (apply (bnames_inj b); auto; congruence).
    destruct (val x) as [|a0 [|a1 [|? ?]]] eqn:Ex; try discriminate. destruct (val y) as [|b0 [|b1 [|? ?]]] eqn:Eyv; try discriminate. injection Eo as <-.
    cbn in Ha, Ha1, Hb, Hb1. injection Ha as <-. injection Ha1 as <-. injection Hb as <-. injection Hb1 as <-.
    eexists. eexists. split; [exact Iw|]. split; [reflexivity|]. cbn [val nth_error]. split; [reflexivity|]. apply map2_nth. exists (p0 * q1), (p1 * q0).
    repeat split; apply map2_nth; eauto.
Qed.

(** maxima *)
Lemma maxq_is a b : (maxq a b = a \/ maxq a b = b) /\ a <= maxq a b /\ b <= maxq a b.
Proof.
  unfold maxq. destruct (qleb a b) eqn:E.
  - apply qleb_iff in E. repeat split; auto using Qcle_refl.
  - repeat split; auto using Qcle_refl. destruct (Qclt_le_dec b a) as [H|H]; [apply Qclt_le_weak; exact H|]. apply qleb_iff in H. congruence.
Qed.
Lemma minq_is a b : (minq a b = a \/ minq a b = b) /\ minq a b <= a /\ minq a b <= b.
Proof.
  unfold minq. destruct (qleb a b) eqn:E.
  - apply qleb_iff in E. repeat split; auto using Qcle_refl.
  - repeat split; auto using Qcle_refl. destruct (Qclt_le_dec b a) as [H|H]; [apply Qclt_le_weak; exact H|]. apply qleb_iff in H. congruence.
Qed.
Lemma fold_max : forall l a, is_max (a :: l) (fold_left maxq l a).
Proof.
  induction l as [|b l IH]; intros a; cbn [fold_left].
  - split; [left; reflexivity|]. intros x [<- | []]. apply Qcle_refl.
  - destruct (IH (maxq a b)) as [I U]. destruct (maxq_is a b) as (C & A & B). split.
    + destruct I as [I|I]; [|right; right; exact I]. rewrite <- I. destruct C as [-> | ->]; cbn; auto.
    + intros x [<- | [<- | J]]; [eapply Qcle_trans; [exact A|apply U; left; reflexivity]|eapply Qcle_trans; [exact B|apply U; left; reflexivity]|apply U; right; exact J].
Qed.
Lemma fold_min : forall l a, is_min (a :: l) (fold_left minq l a).
Proof.
  induction l as [|b l IH]; intros a; cbn [fold_left].
  - split; [left; reflexivity|]. intros x [<- | []]. apply Qcle_refl.
  - destruct (IH (minq a b)) as [I U]. destruct (minq_is a b) as (C & A & B). split.
    + destruct I as [I|I]; [|right; right; exact I]. rewrite <- I. destruct C as [-> | ->]; cbn; auto.
    + intros x [<- | [<- | J]]; [eapply Qcle_trans; [apply U; left; reflexivity|exact A]|eapply Qcle_trans; [apply U; left; reflexivity|exact B]|apply U; right; exact J].
Qed.
Lemma fold1_max l m : fold1 maxq l = Some m <-> is_max l m.
Proof.
  destruct l as [|a l]; cbn.
  - split; [discriminate|intros [[] _]].
  - pose proof (fold_max l a) as [I U]. split; [intro H; injection H as <-; split; assumption|]. intros [I' U']. f_equal. apply Qcle_antisym; auto.
Qed.
Lemma fold1_min l m : fold1 minq l = Some m <-> is_min l m.
Proof.
  destruct l as [|a l]; cbn.
  - split; [discriminate|intros [[] _]].
  - pose proof (fold_min l a) as [I U]. split; [intro H; injection H as <-; split; assumption|]. intros [I' U']. f_equal. apply Qcle_antisym; auto.
Qed.
Lemma component_value a b i v : In b a -> In v (component i b) -> exists k, value_at a (bname b) i k v.
Proof.
  intros I J. unfold component in J. destruct (nth_error (val b) i) as [u|] eqn:E.
  - rewrite (nth_error_nth _ _ _ E) in J. apply In_nth_error in J. destruct J as (k & J). exists k, b, u. auto.
  - apply nth_error_None in E. rewrite nth_overflow in J by exact E. contradiction.
Qed.
Lemma maximum_ok a i m : maximum a i = Some m -> (forall n k v, value_at a n i k v -> absq v <= m) /\ exists n k v, value_at a n i k v /\ absq v = m.
Proof.
  intro H. unfold maximum in H. destruct (traverse _ a) as [l|] eqn:E; [|discriminate]. apply traverse_some in E. apply fold1_max in H. destruct H as [I U]. split.
  - intros n k v (b & u & Ib & <- & Hu & Hk). destruct (F2_in_l _ _ _ b E Ib) as (x & Ix & Hx). apply fold1_max in Hx. destruct Hx as [_ Ux].
    eapply Qcle_trans; [apply Ux|exact (U x Ix)]. apply in_map. unfold component. rewrite (nth_error_nth _ _ _ Hu). exact (nth_error_In _ _ Hk).
  - destruct (F2_in_r _ _ _ m E I) as (b & Ib & Hb). apply fold1_max in Hb. destruct Hb as [J _]. apply in_map_iff in J. destruct J as (v & Hv & J).
    destruct (component_value a b i v Ib J) as (k & K). exists (bname b), k, v. auto.
Qed.

(** L2 norms *)
Lemma fold_sum : forall l a, fold_left Qcplus l a = a + total l.
Proof. induction l as [|b l IH]; intros a; cbn [fold_left total]; [ring|]. rewrite IH. ring. Qed.
Lemma sumq_total l : sumq l = total l. Proof. unfold sumq. rewrite fold_sum. ring. Qed.
Lemma total_const c : forall l, total (map (fun _ : Qc => c) l) = qc_of (Z.of_nat (length l)) * c.
Proof.
  induction l as [|a l IH]; cbn [map total length].
  - change (qc_of (Z.of_nat 0)) with 0. ring.
  - rewrite IH, Nat2Z.inj_succ. replace (qc_of (Z.succ (Z.of_nat (length l)))) with (qc_of (Z.of_nat (length l)) + 1); [ring|].
    unfold qc_of. apply Qc_is_canon. cbn [this Qcplus Q2Qc]. rewrite !Qred_correct. unfold Z.succ. rewrite inject_Z_plus. reflexivity.
Qed.
Lemma qc_mult a b : qc_of (a * b) = qc_of a * qc_of b.
Proof. unfold qc_of. apply Qc_is_canon. cbn [this Qcmult Q2Qc]. rewrite !Qred_correct, inject_Z_mult. reflexivity. Qed.
Lemma qc_nonzero m : (0 < m)%nat -> qc_of (Z.of_nat m) <> 0.
Proof.
  intros H E. unfold qc_of in E. apply (f_equal this) in E. cbn [this Q2Qc] in E. change (this 0) with 0%Q in E.
  assert (K : (inject_Z (Z.of_nat m) == 0)%Q) by (rewrite <- (Qred_correct (inject_Z (Z.of_nat m))), E; reflexivity).
  unfold Qeq in K. cbn in K. lia.
Qed.
Lemma cell_ok b s m : box_area b s -> hd O (shape b) = m -> (0 < m)%nat -> cell b = Some (s / (qc_of (Z.of_nat m) * qc_of (Z.of_nat m))).
Proof.
  intros (cx & cy & x0 & x1 & y0 & y1 & E & A & B & C & D & ->) Hm Pm. unfold cell. rewrite E, Hm. cbn [traverse]. unfold extent.
  rewrite (proj2 (fold1_max _ _) B), (proj2 (fold1_min _ _) A), (proj2 (fold1_max _ _) D), (proj2 (fold1_min _ _) C). cbn [fold_left]. f_equal.
  field. apply qc_nonzero. exact Pm.
Qed.
Lemma l2_ok i c : forall a areas, Forall2 box_area a areas ->
  (forall b, In b a -> exists m, (0 < m)%nat /\ shape b = [m; m] /\ length (component i b) = (m * m)%nat /\ forall v, In v (component i b) -> v = c) ->
  l2_square a i = Some (c * c * total areas).
Proof.
  intros a areas F H. unfold l2_square.
  assert (T : traverse (fun b => match cell b with Some vol => Some (sumq (map (fun v => v ^ 2 * vol) (component i b))) | None => None end) a =
    Some (map (fun s => c * c * s) areas)).
  { induction F as [|b s a areas Hb F IH]; [reflexivity|]. cbn [traverse map].
    rewrite IH by (intros b' I; apply H; right; exact I). destruct (H b (or_introl eq_refl)) as (m & Pm & Sh & Ln & Cv).
    rewrite (cell_ok b s m Hb) by (rewrite ?Sh; auto). f_equal. f_equal. rewrite sumq_total.
    rewrite (map_ext_in _ (fun _ => c ^ 2 * (s / (qc_of (Z.of_nat m) * qc_of (Z.of_nat m))))) by (intros v I; rewrite (Cv v I); reflexivity).
    rewrite total_const, Ln, Nat2Z.inj_mul, qc_mult. cbn [Qcpower]. field. apply qc_nonzero. exact Pm. }
  rewrite T. f_equal. rewrite sumq_total. clear. induction areas as [|s l IH]; cbn [map total]; [ring|]. rewrite IH. ring.
Qed.
