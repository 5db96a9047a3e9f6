(** Proofs about numerical derivatives and operators of analytic fields. *)
From Coq Require Import Reals Lra Lia List.
From Coquelicot Require Import Coquelicot.
From Verif Require Import FieldModel FieldSpec.
Import ListNotations.
Local Open Scope R_scope.

(** * central differences *)

(** a function with a non-negative derivative grows *)
Lemma grows : forall (g g' : R -> R) a, 0 <= a ->
  (forall s, 0 <= s <= a -> is_derive g s (g' s)) -> (forall s, 0 <= s <= a -> 0 <= g' s) -> g 0 <= g a.
Proof.
  intros g g' a H D P. destruct (Req_dec a 0) as [->|N]; [lra|].
  destruct (MVT_gen g 0 a g') as [c [Hc E]].
  - intros s Hs. rewrite Rmin_left, Rmax_right in Hs by lra. apply D. lra.
  - intros s Hs. rewrite Rmin_left, Rmax_right in Hs by lra.
    apply derivable_continuous_pt. exists (g' s). apply is_derive_Reals, D. lra.
  - rewrite Rmin_left, Rmax_right in Hc by lra. specialize (P c Hc). nra.
Qed.

(** a function bounded by the integral of a bound of its derivative *)
Lemma bounded_by : forall (g g' B B' : R -> R) a, 0 <= a ->
  (forall s, 0 <= s <= a -> is_derive g s (g' s)) -> (forall s, 0 <= s <= a -> is_derive B s (B' s)) ->
  g 0 = 0 -> B 0 = 0 -> (forall s, 0 <= s <= a -> Rabs (g' s) <= B' s) -> Rabs (g a) <= B a.
Proof.
  intros g g' B B' a H D DB G0 B0 L. apply Rabs_le. split.
  - assert (X : (fun s => B s + g s) 0 <= (fun s => B s + g s) a).
    { apply (grows (fun s => B s + g s) (fun s => B' s + g' s)); [lra| |].
      - intros s Hs. apply (@is_derive_plus _ R_NormedModule); [apply DB | apply D]; lra.
      - intros s Hs. specialize (L s Hs). apply Rabs_le_between in L. lra. }
    cbn beta in X. lra.
  - assert (X : (fun s => B s - g s) 0 <= (fun s => B s - g s) a).
    { apply (grows (fun s => B s - g s) (fun s => B' s - g' s)); [lra| |].
      - intros s Hs. apply (@is_derive_minus _ R_NormedModule); [apply DB | apply D]; lra.
      - intros s Hs. specialize (L s Hs). apply Rabs_le_between in L. lra. }
    cbn beta in X. lra.
Qed.

Lemma derive_plus_arg : forall (f : R -> R) (d x s : R), is_derive f (x + s) d -> is_derive (fun s => f (x + s)) s d.
Proof.
  intros f d x s H. evar_last. apply (is_derive_comp f (fun s => x + s) s d 1).
  - exact H.
  - auto_derive; [trivial|ring].
  - cbn. ring_simplify. unfold scal. cbn. unfold mult. cbn. ring.
Qed.
Lemma derive_minus_arg : forall (f : R -> R) (d x s : R), is_derive f (x - s) d -> is_derive (fun s => f (x - s)) s (- d).
Proof.
  intros f d x s H. evar_last. apply (is_derive_comp f (fun s => x - s) s d (-1)).
  - exact H.
  - auto_derive; [trivial|ring].
  - unfold scal. cbn. unfold mult. cbn. ring.
Qed.

Section Central.
  Variables (M h x : R) (f f1 f2 f3 : R -> R).
  Hypothesis h0 : 0 <= h.
  Hypothesis ok : forall s, x - h <= s <= x + h ->
    is_derive f s (f1 s) /\ is_derive f1 s (f2 s) /\ is_derive f2 s (f3 s) /\ Rabs (f3 s) <= M.

  Lemma odd2 : forall a, 0 <= a <= h -> Rabs (f2 (x + a) - f2 (x - a)) <= 2 * M * a.
  Proof.
    intros a Ha.
    apply (bounded_by (fun s => f2 (x + s) - f2 (x - s)) (fun s => f3 (x + s) - - f3 (x - s)) (fun s => 2 * M * s) (fun _ => 2 * M)); try lra.
    - intros s Hs. apply (@is_derive_minus _ R_NormedModule).
      + apply derive_plus_arg. apply ok. lra.
      + apply derive_minus_arg. apply ok. lra.
    - intros s Hs. auto_derive; [trivial|ring].
    - rewrite Rplus_0_r, Rminus_0_r. ring.
    - intros s Hs. destruct (ok (x + s)) as [_ [_ [_ A]]]; [lra|]. destruct (ok (x - s)) as [_ [_ [_ B]]]; [lra|].
      apply Rabs_le_between in A. apply Rabs_le_between in B. apply Rabs_le. lra.
  Qed.
  Lemma even1 : forall a, 0 <= a <= h -> Rabs (f1 (x + a) + f1 (x - a) - 2 * f1 x) <= M * a ^ 2.
  Proof.
    intros a Ha.
    apply (bounded_by (fun s => f1 (x + s) + f1 (x - s) - 2 * f1 x) (fun s => f2 (x + s) + - f2 (x - s) - 0) (fun s => M * s ^ 2) (fun s => 2 * M * s)); try lra.
    - intros s Hs. apply (@is_derive_minus _ R_NormedModule); [|apply @is_derive_const].
      apply (@is_derive_plus _ R_NormedModule).
      + apply derive_plus_arg. apply ok. lra.
      + apply derive_minus_arg. apply ok. lra.
    - intros s Hs. auto_derive; [trivial|ring].
    - rewrite Rplus_0_r, Rminus_0_r. ring.
    - intros s Hs. replace (f2 (x + s) + - f2 (x - s) - 0) with (f2 (x + s) - f2 (x - s)) by ring. apply odd2. lra.
  Qed.
  Lemma odd0 : forall a, 0 <= a <= h -> Rabs (f (x + a) - f (x - a) - 2 * f1 x * a) <= M * a ^ 3 / 3.
  Proof.
    intros a Ha.
    apply (bounded_by (fun s => f (x + s) - f (x - s) - 2 * f1 x * s) (fun s => f1 (x + s) - - f1 (x - s) - 2 * f1 x) (fun s => M * s ^ 3 / 3) (fun s => M * s ^ 2)); try lra.
    - intros s Hs. apply (@is_derive_minus _ R_NormedModule); [|auto_derive; [trivial|ring]].
      apply (@is_derive_minus _ R_NormedModule).
      + apply derive_plus_arg. apply ok. lra.
      + apply derive_minus_arg. apply ok. lra.
    - intros s Hs. auto_derive; [trivial|field].
    - rewrite Rplus_0_r, Rminus_0_r. ring.
    - intros s Hs. replace (f1 (x + s) - - f1 (x - s) - 2 * f1 x) with (f1 (x + s) + f1 (x - s) - 2 * f1 x) by ring. apply even1. lra.
  Qed.
End Central.

Lemma central_error : forall M h x f d, 0 < h -> smooth M h x f d -> Rabs (central h f x - d) <= M * h ^ 2 / 6.
Proof.
  intros M h x f d H (f1 & f2 & f3 & E & ok). unfold central.
  assert (L := odd0 M h x f f1 f2 f3 (Rlt_le _ _ H) ok h (conj (Rlt_le _ _ H) (Rle_refl h))).
  rewrite E in L.
  replace ((f (x + h) - f (x - h)) / (2 * h) - d) with ((f (x + h) - f (x - h) - 2 * d * h) / (2 * h)) by (field; lra).
  unfold Rdiv at 1. rewrite Rabs_mult, (Rabs_right (/ (2 * h))).
  2: { apply Rle_ge, Rlt_le, Rinv_0_lt_compat. lra. }
  apply Rmult_le_reg_r with (2 * h); [lra|]. rewrite Rmult_assoc, Rinv_l by lra. rewrite Rmult_1_r.
  eapply Rle_trans; [exact L|]. right. field.
Qed.

(** ** the second difference *)
Lemma central_twice : forall h f x, h <> 0 ->
  central h (central h f) x = (f (x + 2 * h) - 2 * f x + f (x - 2 * h)) / (4 * h ^ 2).
Proof.
  intros h f x H. unfold central.
  replace (x + h + h) with (x + 2 * h) by ring. replace (x + h - h) with x by ring.
  replace (x - h + h) with x by ring. replace (x - h - h) with (x - 2 * h) by ring. field. exact H.
Qed.

Lemma second_error : forall M h x f d, 0 < h -> smooth4 M (2 * h) x f d ->
  Rabs (central h (central h f) x - d) <= M * h ^ 2 / 3.
Proof.
  intros M h x f d H (f1 & f2 & f3 & f4 & E & ok). rewrite central_twice by lra.
  set (k := 2 * h) in *. assert (K : 0 < k) by (unfold k; lra).
  assert (ok' : forall s, x - k <= s <= x + k -> is_derive f1 s (f2 s) /\ is_derive f2 s (f3 s) /\ is_derive f3 s (f4 s) /\ Rabs (f4 s) <= M).
  { intros s Hs. destruct (ok s Hs) as (A & B & C & D & F). auto. }
  assert (L : Rabs (f (x + k) + f (x - k) - 2 * f x - d * k ^ 2) <= M * k ^ 4 / 12).
  { apply (bounded_by (fun s => f (x + s) + f (x - s) - 2 * f x - d * s ^ 2)
                      (fun s => f1 (x + s) + - f1 (x - s) - 0 - 2 * d * s) (fun s => M * s ^ 4 / 12) (fun s => M * s ^ 3 / 3)); try lra.
    - intros s Hs. apply (@is_derive_minus _ R_NormedModule); [|auto_derive; [trivial|ring]].
      apply (@is_derive_minus _ R_NormedModule); [|apply @is_derive_const].
      apply (@is_derive_plus _ R_NormedModule).
      + apply derive_plus_arg. apply ok. lra.
      + apply derive_minus_arg. apply ok. lra.
    - intros s Hs. auto_derive; [trivial|field].
    - rewrite Rplus_0_r, Rminus_0_r. ring.
    - intros s Hs. rewrite <- E.
      replace (f1 (x + s) + - f1 (x - s) - 0 - 2 * f2 x * s) with (f1 (x + s) - f1 (x - s) - 2 * f2 x * s) by ring.
      apply (odd0 M k x f1 f2 f3 f4 (Rlt_le _ _ K) ok'). lra. }
  replace ((f (x + k) - 2 * f x + f (x - k)) / (4 * h ^ 2) - d) with ((f (x + k) + f (x - k) - 2 * f x - d * k ^ 2) / (k ^ 2)) by (unfold k; field; lra).
  unfold Rdiv at 1. assert (P : 0 < k ^ 2) by (apply pow_lt; exact K). rewrite Rabs_mult, (Rabs_right (/ (k ^ 2))).
  2: { apply Rle_ge, Rlt_le, Rinv_0_lt_compat. exact P. }
  apply Rmult_le_reg_r with (k ^ 2); [exact P|]. rewrite Rmult_assoc, Rinv_l by lra. rewrite Rmult_1_r.
  eapply Rle_trans; [exact L|]. right. unfold k. field.
Qed.

(** * operators against true derivatives *)

Lemma step2_eq : step2 = 1 / 10000. Proof. unfold step2. field. Qed.
Lemma step3_eq : step3 = 1 / 1000000. Proof. unfold step3. field. Qed.
Lemma step2_pos : 0 < 1 / 10000. Proof. lra. Qed.
Lemma step3_pos : 0 < 1 / 1000000. Proof. lra. Qed.

Lemma smooth_M : forall M h x f d, 0 <= h -> smooth M h x f d -> 0 <= M.
Proof.
  intros M h x f d H (f1 & f2 & f3 & _ & ok). destruct (ok x) as (_ & _ & _ & L); [lra|].
  eapply Rle_trans; [apply Rabs_pos|exact L].
Qed.

Lemma given2 : forall M h x f d (g : option (R -> R -> R -> R)) (n : R -> R -> R -> R) t a b,
  0 < h -> smooth M h x f d -> n t a b = central h f x -> right2 g t a b d ->
  Rabs (given g n t a b - d) <= M * h ^ 2 / 6.
Proof.
  intros M h x f d g n t a b H S E r. destruct g as [k|]; cbn [given].
  - rewrite (r k eq_refl), Rminus_diag_eq, Rabs_R0 by reflexivity.
    assert (0 <= M) by (eapply smooth_M; [|exact S]; lra). assert (0 <= h ^ 2) by (apply pow_le; lra). nra.
  - rewrite E. apply central_error; assumption.
Qed.
Lemma given3 : forall M h x f d (g : option (R -> R -> R -> R -> R)) (n : R -> R -> R -> R -> R) t a b c,
  0 < h -> smooth M h x f d -> n t a b c = central h f x -> right3 g t a b c d ->
  Rabs (given g n t a b c - d) <= M * h ^ 2 / 6.
Proof.
  intros M h x f d g n t a b c H S E r. destruct g as [k|]; cbn [given].
  - rewrite (r k eq_refl), Rminus_diag_eq, Rabs_R0 by reflexivity.
    assert (0 <= M) by (eapply smooth_M; [|exact S]; lra). assert (0 <= h ^ 2) by (apply pow_le; lra). nra.
  - rewrite E. apply central_error; assumption.
Qed.

Ltac use2 S := destruct S as (? & ? & ?).
Ltac use3 S := destruct S as (? & ? & ? & ?).
Ltac by_given2 := eapply given2; [apply step2_pos | eassumption | rewrite <- step2_eq; reflexivity | assumption].
Ltac by_given3 := eapply given3; [apply step3_pos | eassumption | rewrite <- step3_eq; reflexivity | assumption].

Lemma close_given2 : forall M f t x y ft fx fy dt dx dy, smooth2 M f t x y ft fx fy ->
  right2 dt t x y ft -> right2 dx t x y fx -> right2 dy t x y fy ->
  Rabs (given dt (n2t f) t x y - ft) <= err2 M /\ Rabs (given dx (n2x f) t x y - fx) <= err2 M /\
  Rabs (given dy (n2y f) t x y - fy) <= err2 M.
Proof. intros M f t x y ft fx fy dt dx dy S A B C. use2 S. repeat split; by_given2. Qed.
Lemma close_given3 : forall M f t x y z ft fx fy fz dt dx dy dz, smooth3 M f t x y z ft fx fy fz ->
  right3 dt t x y z ft -> right3 dx t x y z fx -> right3 dy t x y z fy -> right3 dz t x y z fz ->
  Rabs (given dt (n3t f) t x y z - ft) <= err3 M /\ Rabs (given dx (n3x f) t x y z - fx) <= err3 M /\
  Rabs (given dy (n3y f) t x y z - fy) <= err3 M /\ Rabs (given dz (n3z f) t x y z - fz) <= err3 M.
Proof. intros M f t x y z ft fx fy fz dt dx dy dz S A B C D. use3 S. repeat split; by_given3. Qed.

Lemma rabs_neg : forall a b e, Rabs (a - b) <= e -> Rabs (- a - - b) <= e.
Proof. intros a b e H. replace (- a - - b) with (- (a - b)) by ring. rewrite Rabs_Ropp. exact H. Qed.
Lemma rabs_add : forall a b c d e e', Rabs (a - b) <= e -> Rabs (c - d) <= e' -> Rabs (a + c - (b + d)) <= e + e'.
Proof. intros a b c d e e' H K. apply Rabs_le_between in H. apply Rabs_le_between in K. apply Rabs_le. lra. Qed.
Lemma rabs_sub : forall a b c d e e', Rabs (a - b) <= e -> Rabs (c - d) <= e' -> Rabs (a - c - (b - d)) <= e + e'.
Proof. intros a b c d e e' H K. apply Rabs_le_between in H. apply Rabs_le_between in K. apply Rabs_le. lra. Qed.
Lemma rabs_mul : forall u a b e, Rabs (a - b) <= e -> Rabs (u * a - u * b) <= Rabs u * e.
Proof. intros u a b e H. rewrite <- Rmult_minus_distr_l, Rabs_mult. apply Rmult_le_compat_l; [apply Rabs_pos|exact H]. Qed.

(** scalars in the plane *)
Lemma s2_close : forall M s t x y ft fx fy, smooth2 M (s2 s) t x y ft fx fy ->
  right2 (s2t s) t x y ft -> right2 (s2x s) t x y fx -> right2 (s2y s) t x y fy ->
  Rabs (s2 (s2_time s) t x y - ft) <= err2 M /\
  Rabs (v2u (s2_gradient s) t x y - fx) <= err2 M /\ Rabs (v2v (s2_gradient s) t x y - fy) <= err2 M /\
  Rabs (v2u (s2_curl s) t x y - fy) <= err2 M /\ Rabs (v2v (s2_curl s) t x y - - fx) <= err2 M.
Proof.
  intros M s t x y ft fx fy S A B C. destruct (close_given2 _ _ _ _ _ _ _ _ _ _ _ S A B C) as (P & Q & T).
  cbn [s2_time s2_gradient s2_curl mk_sc2 mk_ve2 s2 v2u v2v]. repeat split; try assumption.
  apply rabs_neg. exact Q.
Qed.

(** vectors in the plane *)
Section Close2.
  Variables (M : R) (v : ve2) (t x y ut ux uy vt vx vy : R).
  Hypothesis U : smooth2 M (v2u v) t x y ut ux uy.
  Hypothesis V : smooth2 M (v2v v) t x y vt vx vy.
  Hypotheses (rut : right2 (v2ut v) t x y ut) (rvt : right2 (v2vt v) t x y vt)
             (rux : right2 (v2ux v) t x y ux) (ruy : right2 (v2uy v) t x y uy)
             (rvx : right2 (v2vx v) t x y vx) (rvy : right2 (v2vy v) t x y vy).
  Lemma v2_close :
    (Rabs (v2u (v2_time v) t x y - ut) <= err2 M /\ Rabs (v2v (v2_time v) t x y - vt) <= err2 M) /\
    (Rabs (t00 (v2_gradient v) t x y - ux) <= err2 M /\ Rabs (t01 (v2_gradient v) t x y - uy) <= err2 M /\
     Rabs (t10 (v2_gradient v) t x y - vx) <= err2 M /\ Rabs (t11 (v2_gradient v) t x y - vy) <= err2 M) /\
    (Rabs (t00 (v2_curl v) t x y - uy) <= err2 M /\ Rabs (t01 (v2_curl v) t x y - - ux) <= err2 M /\
     Rabs (t10 (v2_curl v) t x y - vy) <= err2 M /\ Rabs (t11 (v2_curl v) t x y - - vx) <= err2 M) /\
    Rabs (s2 (v2_divergence v) t x y - (ux + vy)) <= 2 * err2 M /\
    Rabs (s2 (v2_rot v) t x y - (vx - uy)) <= 2 * err2 M.
  Proof.
    destruct (close_given2 _ _ _ _ _ _ _ _ _ _ _ U rut rux ruy) as (P & Q & T).
    destruct (close_given2 _ _ _ _ _ _ _ _ _ _ _ V rvt rvx rvy) as (P' & Q' & T').
    cbn [v2_time v2_gradient v2_curl v2_divergence v2_rot mk_sc2 mk_ve2 s2 v2u v2v t00 t01 t10 t11 s2_add s2_sub].
    unfold add2, sub2, neg2.
    split; [split; assumption|]. split; [repeat split; assumption|].
    split; [repeat split; try assumption; apply rabs_neg; assumption|]. split.
    - eapply Rle_trans; [apply rabs_add; [exact Q|exact T']|]. lra.
    - eapply Rle_trans; [apply rabs_sub; [exact Q'|exact T]|]. lra.
  Qed.
  Lemma convection_close : forall u,
    Rabs (v2u (v2_convection v u) t x y - (v2u u t x y * ux + v2v u t x y * uy)) <= (Rabs (v2u u t x y) + Rabs (v2v u t x y)) * err2 M /\
    Rabs (v2v (v2_convection v u) t x y - (v2u u t x y * vx + v2v u t x y * vy)) <= (Rabs (v2u u t x y) + Rabs (v2v u t x y)) * err2 M.
  Proof.
    intro u.
    destruct (close_given2 _ _ _ _ _ _ _ _ _ _ _ U rut rux ruy) as (P & Q & T).
    destruct (close_given2 _ _ _ _ _ _ _ _ _ _ _ V rvt rvx rvy) as (P' & Q' & T').
    cbn [v2_convection mk_ve2 v2u v2v]. unfold add2, mul2. rewrite Rmult_plus_distr_r.
    split; apply rabs_add; apply rabs_mul; assumption.
  Qed.
End Close2.

(** in space *)
Lemma s3_close : forall M s t x y z ft fx fy fz, s3zero s = false -> smooth3 M (s3 s) t x y z ft fx fy fz ->
  right3 (s3t s) t x y z ft -> right3 (s3x s) t x y z fx -> right3 (s3y s) t x y z fy -> right3 (s3z s) t x y z fz ->
  Rabs (s3 (s3_time s) t x y z - ft) <= err3 M /\
  Rabs (v3u (s3_gradient s) t x y z - fx) <= err3 M /\ Rabs (v3v (s3_gradient s) t x y z - fy) <= err3 M /\
  Rabs (v3w (s3_gradient s) t x y z - fz) <= err3 M.
Proof.
  intros M s t x y z ft fx fy fz Z S A B C D. destruct (close_given3 _ _ _ _ _ _ _ _ _ _ _ _ _ _ S A B C D) as (P & Q & T & W).
  unfold s3_gradient. rewrite Z. cbn [s3_time mk_sc3 mk_ve3 s3 v3u v3v v3w]. repeat split; assumption.
Qed.
Section Close3.
  Variables (M : R) (v : ve3) (t x y z ut ux uy uz vt vx vy vz wt wx wy wz : R).
  Hypothesis U : smooth3 M (v3u v) t x y z ut ux uy uz.
  Hypothesis V : smooth3 M (v3v v) t x y z vt vx vy vz.
  Hypothesis W : smooth3 M (v3w v) t x y z wt wx wy wz.
  Hypotheses (rut : right3 (v3ut v) t x y z ut) (rvt : right3 (v3vt v) t x y z vt) (rwt : right3 (v3wt v) t x y z wt)
             (rux : right3 (v3ux v) t x y z ux) (ruy : right3 (v3uy v) t x y z uy) (ruz : right3 (v3uz v) t x y z uz)
             (rvx : right3 (v3vx v) t x y z vx) (rvy : right3 (v3vy v) t x y z vy) (rvz : right3 (v3vz v) t x y z vz)
             (rwx : right3 (v3wx v) t x y z wx) (rwy : right3 (v3wy v) t x y z wy) (rwz : right3 (v3wz v) t x y z wz).
  Lemma v3_close :
    (Rabs (v3u (v3_time v) t x y z - ut) <= err3 M /\ Rabs (v3v (v3_time v) t x y z - vt) <= err3 M /\
     Rabs (v3w (v3_time v) t x y z - wt) <= err3 M) /\
    Rabs (s3 (v3_divergence v) t x y z - (ux + vy + wz)) <= 3 * err3 M /\
    (Rabs (v3u (v3_curl v) t x y z - (wy - vz)) <= 2 * err3 M /\ Rabs (v3v (v3_curl v) t x y z - (uz - wx)) <= 2 * err3 M /\
     Rabs (v3w (v3_curl v) t x y z - (vx - uy)) <= 2 * err3 M).
  Proof.
    destruct (close_given3 _ _ _ _ _ _ _ _ _ _ _ _ _ _ U rut rux ruy ruz) as (A1 & A2 & A3 & A4).
    destruct (close_given3 _ _ _ _ _ _ _ _ _ _ _ _ _ _ V rvt rvx rvy rvz) as (B1 & B2 & B3 & B4).
    destruct (close_given3 _ _ _ _ _ _ _ _ _ _ _ _ _ _ W rwt rwx rwy rwz) as (C1 & C2 & C3 & C4).
    cbn [v3_time v3_divergence v3_curl mk_sc3 mk_ve3 s3 v3u v3v v3w]. unfold sum3, sub3.
    split; [repeat split; assumption|]. split.
    - eapply Rle_trans; [apply rabs_add; [apply rabs_add; [exact A2|exact B3]|exact C4]|]. lra.
    - split; [|split]; (eapply Rle_trans; [apply rabs_sub; eassumption|]); lra.
  Qed.
End Close3.

(** * Laplacians *)
Ltac undo2 := repeat match goal with H : _ = None |- _ => rewrite H; clear H end.

Lemma n2xx : forall f t x y, n2x (n2x f) t x y = central step2 (central step2 (fun s => f t s y)) x.
Proof. reflexivity. Qed.
Lemma n2yy : forall f t x y, n2y (n2y f) t x y = central step2 (central step2 (fun s => f t x s)) y.
Proof. reflexivity. Qed.

Lemma s2_Laplacian_plain : forall s t x y, plain_s2 s ->
  s2 (s2_Laplacian s) t x y = n2x (n2x (s2 s)) t x y + n2y (n2y (s2 s)) t x y.
Proof.
  intros s t x y (A & B & C). unfold s2_Laplacian, s2_gradient. rewrite A, B.
  destruct C as [C|C]; rewrite C; [|destruct (s2xx s)]; reflexivity.
Qed.
Lemma s2_Laplacian_close : forall M s t x y fxx fyy, plain_s2 s ->
  smooth4 M (2 * (1 / 10000)) x (fun r => s2 s t r y) fxx -> smooth4 M (2 * (1 / 10000)) y (fun r => s2 s t x r) fyy ->
  Rabs (s2 (s2_Laplacian s) t x y - (fxx + fyy)) <= 4 * err2 M.
Proof.
  intros M s t x y fxx fyy P A B. rewrite s2_Laplacian_plain by exact P. rewrite n2xx, n2yy, step2_eq.
  eapply Rle_trans; [apply rabs_add; (apply second_error; [apply step2_pos|eassumption])|]. lra.
Qed.
Lemma v2_Laplacian_plain : forall v t x y, plain_v2 v ->
  v2u (v2_Laplacian v) t x y = n2x (n2x (v2u v)) t x y + n2y (n2y (v2u v)) t x y /\
  v2v (v2_Laplacian v) t x y = n2x (n2x (v2v v)) t x y + n2y (n2y (v2v v)) t x y.
Proof.
  intros v t x y (A & B & C & D). unfold v2_Laplacian, v2_divergence, v2_rot. rewrite A, B, C, D.
  cbn [given s2_gradient s2_curl v2_sub s2_add s2_sub mk_sc2 mk_ve2 s2 s2x s2y v2u v2v]. unfold sub2, add2, neg2, n2x, n2y, central.
  assert (H : step2 <> 0) by (rewrite step2_eq; lra). split; field; exact H.
Qed.
Lemma v2_Laplacian_close : forall M v t x y uxx uyy vxx vyy, plain_v2 v ->
  smooth4 M (2 * (1 / 10000)) x (fun r => v2u v t r y) uxx -> smooth4 M (2 * (1 / 10000)) y (fun r => v2u v t x r) uyy ->
  smooth4 M (2 * (1 / 10000)) x (fun r => v2v v t r y) vxx -> smooth4 M (2 * (1 / 10000)) y (fun r => v2v v t x r) vyy ->
  Rabs (v2u (v2_Laplacian v) t x y - (uxx + uyy)) <= 4 * err2 M /\ Rabs (v2v (v2_Laplacian v) t x y - (vxx + vyy)) <= 4 * err2 M.
Proof.
  intros M v t x y uxx uyy vxx vyy P A B C D. destruct (v2_Laplacian_plain v t x y P) as [E F]. rewrite E, F.
  rewrite !n2xx, !n2yy, step2_eq.
  split; (eapply Rle_trans; [apply rabs_add; (apply second_error; [apply step2_pos|eassumption])|]; lra).
Qed.
Lemma s2_Laplacian_given : forall s xx yy t x y, s2xx s = Some xx -> s2yy s = Some yy ->
  s2 (s2_Laplacian s) t x y = xx t x y + yy t x y.
Proof. intros s xx yy t x y A B. unfold s2_Laplacian. rewrite A, B. reflexivity. Qed.
Lemma s2_Laplacian_gradient : forall s t x y, s2xx s = None \/ s2yy s = None ->
  s2 (s2_Laplacian s) t x y = s2 (v2_divergence (s2_gradient s)) t x y.
Proof. intros s t x y [H|H]; unfold s2_Laplacian; rewrite H; [|destruct (s2xx s)]; reflexivity. Qed.

(** * sequences *)
Lemma rot_gradient : forall s t x y, s2x s = None -> s2y s = None -> s2 (v2_rot (s2_gradient s)) t x y = 0.
Proof.
  intros s t x y A B. unfold v2_rot, s2_gradient. rewrite A, B.
  cbn [given s2_sub mk_sc2 mk_ve2 s2 v2u v2v v2vx v2uy]. unfold sub2, n2x, n2y, central.
  assert (H : step2 <> 0) by (rewrite step2_eq; lra). field. exact H.
Qed.
Lemma divergence_curl : forall s t x y, s2x s = None -> s2y s = None -> s2 (v2_divergence (s2_curl s)) t x y = 0.
Proof.
  intros s t x y A B. unfold v2_divergence, s2_curl. rewrite A, B.
  cbn [given s2_add mk_sc2 mk_ve2 s2 v2u v2v v2ux v2vy]. unfold add2, neg2, n2x, n2y, central.
  assert (H : step2 <> 0) by (rewrite step2_eq; lra). field. exact H.
Qed.
Lemma tensor_rot_gradient : forall v t x y, plain_v2 v ->
  v2u (t2_rot (v2_gradient v)) t x y = 0 /\ v2v (t2_rot (v2_gradient v)) t x y = 0.
Proof.
  intros v t x y (A & B & C & D). unfold v2_gradient. rewrite A, B, C, D.
  cbn [given t2_rot mk_ve2 t00 t01 t10 t11 v2u v2v]. unfold sub2, n2x, n2y, central.
  assert (H : step2 <> 0) by (rewrite step2_eq; lra). split; field; exact H.
Qed.
Lemma tensor_divergence_curl : forall v t x y, plain_v2 v ->
  v2u (t2_divergence (v2_curl v)) t x y = 0 /\ v2v (t2_divergence (v2_curl v)) t x y = 0.
Proof.
  intros v t x y (A & B & C & D). unfold v2_curl. rewrite A, B, C, D.
  cbn [given t2_divergence mk_ve2 t00 t01 t10 t11 v2u v2v]. unfold add2, neg2, n2x, n2y, central.
  assert (H : step2 <> 0) by (rewrite step2_eq; lra). split; field; exact H.
Qed.
Lemma tensor_divergence_gradient : forall v t x y, plain_v2 v ->
  v2u (t2_divergence (v2_gradient v)) t x y = v2u (v2_Laplacian v) t x y /\
  v2v (t2_divergence (v2_gradient v)) t x y = v2v (v2_Laplacian v) t x y.
Proof.
  intros v t x y P. destruct (v2_Laplacian_plain v t x y P) as [E F]. rewrite E, F.
  destruct P as (A & B & C & D). unfold v2_gradient. rewrite A, B, C, D. split; reflexivity.
Qed.
Lemma curl_gradient3 : forall s t x y z, plain_s3 s ->
  v3u (v3_curl (s3_gradient s)) t x y z = 0 /\ v3v (v3_curl (s3_gradient s)) t x y z = 0 /\
  v3w (v3_curl (s3_gradient s)) t x y z = 0.
Proof.
  intros s t x y z (A & B & C). unfold s3_gradient. rewrite A, B, C.
  assert (H : step3 <> 0) by (rewrite step3_eq; lra).
  destruct (s3zero s); cbn [given v3_curl mk_ve3 v3u v3v v3w v3ux v3uy v3uz v3vx v3vy v3vz v3wx v3wy v3wz];
    unfold sub3, n3x, n3y, n3z, zero3, central; repeat split; field; exact H.
Qed.
Lemma divergence_curl3 : forall v t x y z, plain_v3 v -> s3 (v3_divergence (v3_curl v)) t x y z = 0.
Proof.
  intros v t x y z (A & B & C & D & E & F & G & I & J). unfold v3_curl. rewrite B, C, D, F, G, I.
  assert (H : step3 <> 0) by (rewrite step3_eq; lra).
  cbn [given v3_divergence mk_ve3 mk_sc3 s3 v3u v3v v3w v3ux v3vy v3wz]; unfold sum3, sub3, n3x, n3y, n3z, central. field. exact H.
Qed.

(** one supplied and one numerical derivative *)
Definition bent : sc2 := {| s2 := fun _ x y => x ^ 3 * y; s2t := None; s2x := Some (fun _ x y => 3 * x ^ 2 * y); s2y := None;
                            s2tt := None; s2xx := None; s2xy := None; s2yx := None; s2yy := None |}.
Lemma bent_rot : forall t x y, s2 (v2_rot (s2_gradient bent)) t x y = (1 / 10000) ^ 2.
Proof.
  intros t x y. cbn [v2_rot s2_gradient bent given s2_sub mk_sc2 mk_ve2 s2 s2x s2y v2u v2v v2vx v2uy].
  unfold sub2, n2x, n2y, central. rewrite step2_eq. field.
Qed.

(** * in time *)
Lemma trapezoid_end : forall f n h a,
  trapezoid f (S n) h a = trapezoid f n h a + (f (a + INR n * h) + f (a + INR (S n) * h)) / 2 * h.
Proof.
  intros f n h. induction n as [|n IH]; intro a.
  - cbn. replace (a + 0 * h) with a by ring. replace (a + 1 * h) with (a + h) by ring. ring.
  - change (trapezoid f (S (S n)) h a) with ((f a + f (a + h)) / 2 * h + trapezoid f (S n) h (a + h)).
    rewrite IH. change (trapezoid f (S n) h a) with ((f a + f (a + h)) / 2 * h + trapezoid f n h (a + h)).
    rewrite (S_INR (S n)), (S_INR n).
    replace (a + h + INR n * h) with (a + (INR n + 1) * h) by ring.
    replace (a + h + (INR n + 1) * h) with (a + (INR n + 1 + 1) * h) by ring. ring.
Qed.
Lemma trapezoid_back : forall f n h a, trapezoid f n (- h) (a + INR n * h) = - trapezoid f n h a.
Proof.
  intros f n h a. induction n as [|n IH].
  - cbn. ring.
  - rewrite (trapezoid_end f n h a). cbn [trapezoid]. rewrite S_INR.
    replace (a + (INR n + 1) * h + - h) with (a + INR n * h) by ring. rewrite IH. field.
Qed.
Lemma trapezoid_affine : forall n h a p q,
  trapezoid (fun s => p + q * s) n h a = p * (INR n * h) + q * ((a + INR n * h) ^ 2 - a ^ 2) / 2.
Proof.
  intros n h a p q. induction n as [|n IH].
  - cbn. field.
  - rewrite trapezoid_end, IH, S_INR. field.
Qed.
Lemma trapezoid_between : forall f n h a lo hi, 0 <= h -> (forall s, a <= s <= a + INR n * h -> lo <= f s <= hi) ->
  lo * (INR n * h) <= trapezoid f n h a <= hi * (INR n * h).
Proof.
  intros f n h a lo hi H. induction n as [|n IH]; intro B.
  - cbn. lra.
  - rewrite trapezoid_end. rewrite S_INR in *. assert (N := pos_INR n).
    assert (I : lo * (INR n * h) <= trapezoid f n h a <= hi * (INR n * h)) by (apply IH; intros s Hs; apply B; nra).
    assert (P := B (a + INR n * h)). assert (Q := B (a + (INR n + 1) * h)).
    assert (P' : lo <= f (a + INR n * h) <= hi) by (apply P; nra).
    assert (Q' : lo <= f (a + (INR n + 1) * h) <= hi) by (apply Q; nra).
    set (m := (f (a + INR n * h) + f (a + (INR n + 1) * h)) / 2). assert (Hm : lo <= m <= hi) by (unfold m; lra).
    fold m. nra.
Qed.
Lemma segment : forall (f F : R -> R) L a h, 0 <= h -> (forall s, a <= s <= a + h -> is_derive F s (f s)) ->
  (forall s r, a <= s <= a + h -> a <= r <= a + h -> Rabs (f s - f r) <= L * Rabs (s - r)) -> 0 <= L ->
  Rabs ((f a + f (a + h)) / 2 * h - (F (a + h) - F a)) <= L * h ^ 2 / 2.
Proof.
  intros f F L a h H D Lip L0. destruct (Req_dec h 0) as [->|N].
  { rewrite Rplus_0_r. replace ((f a + f a) / 2 * 0 - (F a - F a)) with 0 by ring. rewrite Rabs_R0. lra. }
  destruct (MVT_gen F a (a + h) f) as [c [Hc E]].
  - intros s Hs. rewrite Rmin_left, Rmax_right in Hs by lra. apply D. lra.
  - intros s Hs. rewrite Rmin_left, Rmax_right in Hs by lra.
    apply derivable_continuous_pt. exists (f s). apply is_derive_Reals, D. lra.
  - rewrite Rmin_left, Rmax_right in Hc by lra. rewrite E.
    replace ((f a + f (a + h)) / 2 * h - f c * (a + h - a)) with (((f a - f c) + (f (a + h) - f c)) / 2 * h) by field.
    rewrite Rabs_mult, (Rabs_right h) by lra.
    assert (A := Lip a c). assert (B := Lip (a + h) c).
    assert (A' : Rabs (f a - f c) <= L * Rabs (a - c)) by (apply A; lra).
    assert (B' : Rabs (f (a + h) - f c) <= L * Rabs (a + h - c)) by (apply B; lra).
    rewrite (Rabs_left1 (a - c)) in A' by lra. rewrite (Rabs_right (a + h - c)) in B' by lra.
    apply Rabs_le_between in A'. apply Rabs_le_between in B'.
    assert (C : Rabs ((f a - f c + (f (a + h) - f c)) / 2) <= L * h / 2) by (apply Rabs_le; nra).
    apply (Rmult_le_compat_r h) in C; [|lra]. eapply Rle_trans; [exact C|]. right. field.
Qed.
Lemma trapezoid_error : forall (f F : R -> R) L n h a, 0 <= h -> 0 <= L ->
  (forall s, a <= s <= a + INR n * h -> is_derive F s (f s)) ->
  (forall s r, a <= s <= a + INR n * h -> a <= r <= a + INR n * h -> Rabs (f s - f r) <= L * Rabs (s - r)) ->
  Rabs (trapezoid f n h a - (F (a + INR n * h) - F a)) <= INR n * (L * h ^ 2 / 2).
Proof.
  intros f F L n h a H L0. induction n as [|n IH]; intros D Lip.
  - cbn. replace (a + 0 * h) with a by ring. replace (0 - (F a - F a)) with 0 by ring. rewrite Rabs_R0. lra.
  - rewrite trapezoid_end. rewrite S_INR in *. assert (N := pos_INR n).
    assert (I : Rabs (trapezoid f n h a - (F (a + INR n * h) - F a)) <= INR n * (L * h ^ 2 / 2)).
    { apply IH; intros; [apply D|apply Lip]; nra. }
    assert (G := segment f F L (a + INR n * h) h H).
    assert (G' : Rabs ((f (a + INR n * h) + f (a + INR n * h + h)) / 2 * h - (F (a + INR n * h + h) - F (a + INR n * h))) <= L * h ^ 2 / 2).
    { apply G; [intros; apply D; nra | intros; apply Lip; nra | exact L0]. }
    replace (a + INR n * h + h) with (a + (INR n + 1) * h) in G' by ring.
    apply Rabs_le_between in I. apply Rabs_le_between in G'. apply Rabs_le. lra.
Qed.

(** the number of segments *)
Lemma int_part_bound : forall q, 0 <= q -> q < INR (S (int_part q)).
Proof.
  intros q H. rewrite S_INR. unfold int_part. destruct (base_Int_part q) as [A B].
  assert (Z : (0 <= Int_part q)%Z).
  { assert (IZR (-1) < IZR (Int_part q)) by (cbn; lra). apply lt_IZR in H0. lia. }
  rewrite INR_IZR_INZ, Z2Nat.id by exact Z. lra.
Qed.

Lemma integral_forward : forall f t0 t1 h, tiny <= t1 - t0 -> exists n, (0 < n)%nat /\
  time_integral f t0 t1 h = trapezoid f n ((t1 - t0) / INR n) t0 /\ (0 < h -> (t1 - t0) / INR n < h).
Proof.
  intros f t0 t1 h H. assert (T : 0 < tiny) by (unfold tiny; lra). unfold time_integral.
  replace (Rabs (t0 - t1)) with (t1 - t0) by (rewrite Rabs_left1 by lra; ring).
  replace (Rabs (t1 - t0)) with (t1 - t0) by (rewrite Rabs_right by lra; ring).
  destruct (Rlt_dec (t1 - t0) tiny) as [?|_]; [lra|]. destruct (Rlt_dec t1 t0) as [?|_]; [lra|].
  exists (S (int_part ((t1 - t0) / h))). split; [lia|]. split; [reflexivity|]. intro Hh.
  assert (Q : 0 <= (t1 - t0) / h) by (apply Rmult_le_pos; [lra|]; left; apply Rinv_0_lt_compat; exact Hh).
  assert (B := int_part_bound _ Q). set (m := INR (S (int_part ((t1 - t0) / h)))) in *.
  assert (0 < m) by lra. apply (Rmult_lt_reg_r m); [assumption|]. unfold Rdiv at 1. rewrite Rmult_assoc, Rinv_l by lra.
  rewrite Rmult_1_r. apply (Rmult_lt_compat_l h) in B; [|exact Hh]. replace (h * ((t1 - t0) / h)) with (t1 - t0) in B by (field; lra).
  lra.
Qed.
Lemma integral_swap : forall f t0 t1 h, time_integral f t1 t0 h = - time_integral f t0 t1 h.
Proof.
  assert (G : forall f t0 t1 h, t0 < t1 -> time_integral f t1 t0 h = - time_integral f t0 t1 h).
  { intros f t0 t1 h H. unfold time_integral. rewrite (Rabs_minus_sym t1 t0).
    destruct (Rlt_dec (Rabs (t0 - t1)) tiny) as [_|_]; [ring|].
    destruct (Rlt_dec t0 t1) as [_|?]; [|lra]. destruct (Rlt_dec t1 t0) as [?|_]; [lra|].
    rewrite Rabs_left1 by lra. set (n := S (int_part (- (t0 - t1) / h))).
    assert (N : INR n <> 0) by (apply not_0_INR; unfold n; lia).
    rewrite <- (trapezoid_back f n (- (t0 - t1) / INR n) t0). f_equal. field. exact N. }
  intros f t0 t1 h. destruct (Rtotal_order t0 t1) as [L|[->|L]].
  - apply G, L.
  - unfold time_integral. rewrite Rminus_diag_eq, Rabs_R0 by reflexivity.
    destruct (Rlt_dec 0 tiny) as [_|N]; [ring|]. exfalso. apply N. unfold tiny. lra.
  - rewrite <- (Ropp_involutive (time_integral f t1 t0 h)), <- G by exact L. reflexivity.
Qed.
Lemma integral_affine_forward : forall p q t0 t1 h, tiny <= t1 - t0 ->
  time_integral (fun s => p + q * s) t0 t1 h = p * (t1 - t0) + q * (t1 ^ 2 - t0 ^ 2) / 2.
Proof.
  intros p q t0 t1 h H. destruct (integral_forward (fun s => p + q * s) t0 t1 h H) as (n & N & E & _). rewrite E, trapezoid_affine.
  assert (INR n <> 0) by (apply not_0_INR; lia). replace (INR n * ((t1 - t0) / INR n)) with (t1 - t0) by (field; assumption).
  field.
Qed.
Lemma integral_affine : forall p q t0 t1 h, / 100000000 <= Rabs (t1 - t0) ->
  time_integral (fun s => p + q * s) t0 t1 h = p * (t1 - t0) + q * (t1 ^ 2 - t0 ^ 2) / 2.
Proof.
  intros p q t0 t1 h H. fold tiny in H. destruct (Rle_dec t0 t1) as [L|L].
  - rewrite Rabs_right in H by lra. apply integral_affine_forward. exact H.
  - rewrite Rabs_left in H by lra. rewrite integral_swap, integral_affine_forward by lra. field.
Qed.
Lemma integral_between : forall f t0 t1 h lo hi, / 100000000 <= t1 - t0 -> (forall s, t0 <= s <= t1 -> lo <= f s <= hi) ->
  lo * (t1 - t0) <= time_integral f t0 t1 h <= hi * (t1 - t0).
Proof.
  intros f t0 t1 h lo hi H B. destruct (integral_forward f t0 t1 h H) as (n & N & E & _). rewrite E.
  assert (P : INR n <> 0) by (apply not_0_INR; lia). assert (P' : 0 < INR n) by (apply lt_0_INR; lia).
  assert (Q : INR n * ((t1 - t0) / INR n) = t1 - t0) by (field; assumption).
  assert (X := trapezoid_between f n ((t1 - t0) / INR n) t0 lo hi). rewrite Q in X. apply X.
  - apply Rmult_le_pos; [lra|]. left. apply Rinv_0_lt_compat. exact P'.
  - intros s Hs. apply B. lra.
Qed.
Lemma integral_error : forall (f F : R -> R) L t0 t1 h, 0 < h -> / 100000000 <= t1 - t0 -> 0 <= L ->
  (forall s, t0 <= s <= t1 -> is_derive F s (f s)) ->
  (forall s r, t0 <= s <= t1 -> t0 <= r <= t1 -> Rabs (f s - f r) <= L * Rabs (s - r)) ->
  Rabs (time_integral f t0 t1 h - (F t1 - F t0)) <= L * (t1 - t0) * h / 2.
Proof.
  intros f F L t0 t1 h Hh H L0 D Lip. destruct (integral_forward f t0 t1 h H) as (n & N & E & B). rewrite E. specialize (B Hh).
  assert (P : INR n <> 0) by (apply not_0_INR; lia). assert (P' : 0 < INR n) by (apply lt_0_INR; lia).
  assert (Q : INR n * ((t1 - t0) / INR n) = t1 - t0) by (field; assumption).
  assert (W : 0 <= (t1 - t0) / INR n) by (apply Rmult_le_pos; [lra|]; left; apply Rinv_0_lt_compat; exact P').
  assert (X := trapezoid_error f F L n ((t1 - t0) / INR n) t0 W L0). rewrite Q in X.
  replace (t0 + (t1 - t0)) with t1 in X by ring. specialize (X D Lip).
  eapply Rle_trans; [exact X|].
  replace (INR n * (L * ((t1 - t0) / INR n) ^ 2 / 2)) with (L * (t1 - t0) / 2 * ((t1 - t0) / INR n)) by (field; assumption).
  replace (L * (t1 - t0) * h / 2) with (L * (t1 - t0) / 2 * h) by field.
  apply Rmult_le_compat_l; [|lra]. unfold tiny in *. assert (0 <= t1 - t0) by lra. nra.
Qed.
Lemma integral_tiny : forall f t0 t1 h, Rabs (t1 - t0) < / 100000000 -> time_integral f t0 t1 h = 0.
Proof.
  intros f t0 t1 h H. unfold time_integral. rewrite Rabs_minus_sym. destruct (Rlt_dec (Rabs (t1 - t0)) tiny) as [_|N]; [reflexivity|].
  exfalso. apply N. exact H.
Qed.
