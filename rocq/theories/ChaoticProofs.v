From Coq Require Import List Arith Bool Reals Lra Lia.
From Verif Require Import MappingModel RegionModel RegionSpec RegionProofs CrazySpec CrazyProofs.
Import ListNotations.
Local Open Scope R_scope.

(** the whole mapping, from the unit square *)
Definition chaotic_square (a b c d k r s : R) : pt2 := chaotic_total a b c d k ((b - a) * r + a) ((d - c) * s + c).
Lemma chaotic_is_crazy a b c d k r s : a < b -> c < d -> k <> 0 -> chaotic_square a b c d k r s = crazy2 a (a + 1) 0 1 k r s.
Proof.
  intros Hab Hcd Hk. unfold chaotic_square, chaotic_total, crazy2. destruct (Req_EM_T k 0) as [| _]; [contradiction |].
  replace (((b - a) * r + a - a) / (b - a)) with r by (field; lra). replace (((d - c) * s + c - c) / (d - c)) with s by (field; lra).
  f_equal; ring.
Qed.
Lemma bijection2_ext f g a b c d : (forall r s, f r s = g r s) -> bijection2 g a b c d -> bijection2 f a b c d.
Proof.
  intros E (H1 & H2 & H3). refine (conj _ (conj _ _)).
  - intros r s. rewrite E. apply H1.
  - intros r s r' s'. rewrite !E. apply H2.
  - intros X Y HX HY. destruct (H3 X Y HX HY) as (r & s & ?). exists r, s. now rewrite E.
Qed.
(** with a deformation the image is [a, a + 1] x [0, 1], whatever the bounds *)
Lemma chaotic_image a b c d k : a < b -> c < d -> k <> 0 -> Rabs k * PI < 1 -> bijection2 (chaotic_square a b c d k) a (a + 1) 0 1.
Proof.
  intros Hab Hcd Hk Hp. apply (bijection2_ext _ (crazy2 a (a + 1) 0 1 k)); [intros; now apply chaotic_is_crazy |].
  apply crazy2_bijection; [lra | lra | exact Hp].
Qed.
Lemma chaotic_flat a b c d : a < b -> c < d -> bijection2 (chaotic_square a b c d 0) a b c d.
Proof.
  intros Hab Hcd. apply (bijection2_ext _ (crazy2 a b c d 0)); [| apply crazy2_bijection; auto; rewrite Rabs_R0; lra].
  intros r s. unfold chaotic_square, chaotic_total, crazy2. destruct (Req_EM_T 0 0) as [_ | N]; [reflexivity | now destruct N].
Qed.
Lemma chaotic_off : exists a b c d k r s, a < b /\ c < d /\ 0 < k <= 3/10 /\ unit r /\ unit s /\
  ~ (c <= snd (chaotic_square a b c d k r s) <= d).
Proof.
  exists 0, 1, 2, 3, (1/10), 0, 0. unfold unit. refine (conj _ (conj _ (conj _ (conj _ (conj _ _))))); try lra.
  rewrite chaotic_is_crazy by lra. unfold crazy2. destruct (Req_EM_T (1/10) 0); cbn [snd]; rewrite ?sin_tau_0; lra.
Qed.

(** rotating the corners turns the reference square *)
Lemma chaotic_turn P0 P1 P2 P3 tm r s :
  chaotic_region (rotate_left 1 [P0; P1; P2; P3]) tm r s = chaotic_region [P0; P1; P2; P3] tm (1 - s) r /\
  chaotic_region (rotate_left 2 [P0; P1; P2; P3]) tm r s = chaotic_region [P0; P1; P2; P3] tm (1 - r) (1 - s) /\
  chaotic_region (rotate_left 3 [P0; P1; P2; P3]) tm r s = chaotic_region [P0; P1; P2; P3] tm s (1 - r).
Proof.
  unfold chaotic_region, bilinear, quad_coef, dot4, quad_invA, xs_of, ys_of, rotate_left. cbn. refine (conj _ (conj _ _)); f_equal; ring.
Qed.
Definition whole (a b c d : R) (m : nat) (r s : R) : R * R :=
  ((b - a) * ((INR (m mod 3) + r) / 3) + a, (d - c) * ((INR (m / 3) + s) / 3) + c).
(** the nine regions are the nine parts of the square *)
Lemma chaotic_parts a b c d tm m r s :
  chaotic_region (chaotic_corners a b c d m 0) tm r s = tm (fst (whole a b c d m r s)) (snd (whole a b c d m r s)).
Proof.
  unfold chaotic_region, chaotic_corners, rotate_left, linspace4, whole. cbn [skipn firstn app fst snd].
  unfold bilinear, quad_coef, dot4, quad_invA, xs_of, ys_of. cbn [map nth combine fold_right fst snd].
  generalize (m mod 3)%nat (m / 3)%nat. intros i j. rewrite !S_INR. f_equal; field.
Qed.
Lemma chaotic_square_part a b c d k m r s :
  chaotic_region (chaotic_corners a b c d m 0) (chaotic_total a b c d k) r s =
  chaotic_square a b c d k ((INR (m mod 3) + r) / 3) ((INR (m / 3) + s) / 3).
Proof. rewrite chaotic_parts. reflexivity. Qed.
(** periodic_setting, 85-93: y- of regions 0, 1, 2 with y+ of 6, 7, 8; x- of 0, 3, 6 with x+ of 2, 5, 8 *)
Definition chaotic_map (a b c d k : R) (m : nat) (r s : R) : R * R :=
  chaotic_region (chaotic_corners a b c d m 0) (chaotic_total a b c d k) r s.
Lemma chaotic_edge_y a b c d k : a < b -> c < d -> exists h, 0 < h /\ forall x,
  fst (chaotic_square a b c d k x 1) = fst (chaotic_square a b c d k x 0) /\
  snd (chaotic_square a b c d k x 1) = snd (chaotic_square a b c d k x 0) + h.
Proof.
  intros Hab Hcd. destruct (Req_EM_T k 0) as [-> | Hk].
  - exists (d - c). split; [lra |]. intros x. unfold chaotic_square, chaotic_total. destruct (Req_EM_T 0 0) as [_ | N]; [| now destruct N].
    cbn. split; ring.
  - exists 1. split; [lra |]. intros x. rewrite !chaotic_is_crazy by assumption. unfold crazy2. destruct (Req_EM_T k 0); [contradiction |].
    cbn [fst snd]. rewrite sin_tau_0, sin_tau_1. split; ring.
Qed.
Lemma chaotic_edge_x a b c d k : a < b -> c < d -> exists w, 0 < w /\ forall y,
  fst (chaotic_square a b c d k 1 y) = fst (chaotic_square a b c d k 0 y) + w /\
  snd (chaotic_square a b c d k 1 y) = snd (chaotic_square a b c d k 0 y).
Proof.
  intros Hab Hcd. destruct (Req_EM_T k 0) as [-> | Hk].
  - exists (b - a). split; [lra |]. intros y. unfold chaotic_square, chaotic_total. destruct (Req_EM_T 0 0) as [_ | N]; [| now destruct N].
    cbn. split; ring.
  - exists 1. split; [lra |]. intros y. rewrite !chaotic_is_crazy by assumption. unfold crazy2. destruct (Req_EM_T k 0); [contradiction |].
    cbn [fst snd]. rewrite sin_tau_0, sin_tau_1. split; ring.
Qed.
Lemma chaotic_glued a b c d k : a < b -> c < d -> exists w h, 0 < w /\ 0 < h /\
  forall m p q m' p' q', In ((m, (p, q)), (m', (p', q'))) chaotic_periodic ->
    (forall t, at2 (chaotic_map a b c d k m') (edge2 p' q' t) =
       (fst (at2 (chaotic_map a b c d k m) (edge2 p q t)), snd (at2 (chaotic_map a b c d k m) (edge2 p q t)) + h)) \/
    (forall t, at2 (chaotic_map a b c d k m') (edge2 p' q' t) =
       (fst (at2 (chaotic_map a b c d k m) (edge2 p q t)) + w, snd (at2 (chaotic_map a b c d k m) (edge2 p q t)))).
Proof.
  intros Hab Hcd. destruct (chaotic_edge_x a b c d k Hab Hcd) as [w [Pw Hw]]. destruct (chaotic_edge_y a b c d k Hab Hcd) as [h [Ph Hh]].
  exists w, h. split; [exact Pw |]. split; [exact Ph |].
  assert (Y : forall i t, (i < 3)%nat -> at2 (chaotic_map a b c d k (i + 6)) (edge2 3 2 t) =
       (fst (at2 (chaotic_map a b c d k i) (edge2 0 1 t)), snd (at2 (chaotic_map a b c d k i) (edge2 0 1 t)) + h)).
  { intros i t Hi. unfold at2, chaotic_map. rewrite !chaotic_square_part. unfold edge2, corner2. cbn [fst snd].
    replace ((i + 6) mod 3)%nat with (i mod 3)%nat by (destruct i as [| [| [|]]]; [reflexivity .. | lia]).
    replace ((i + 6) / 3)%nat with 2%nat by (destruct i as [| [| [|]]]; [reflexivity .. | lia]).
    replace (i / 3)%nat with 0%nat by (destruct i as [| [| [|]]]; [reflexivity .. | lia]).
    set (x := ((INR (i mod 3) + ((1 - t) * 0 + t * 1)) / 3)).
    replace ((INR 2 + ((1 - t) * 1 + t * 1)) / 3) with 1 by (cbn; field). replace ((INR 0 + ((1 - t) * 0 + t * 0)) / 3) with 0 by (cbn; field).
    destruct (Hh x) as [<- <-]. destruct (chaotic_square a b c d k x 1). reflexivity. }
  assert (X : forall j t, (j < 3)%nat -> at2 (chaotic_map a b c d k (3 * j + 2)) (edge2 1 2 t) =
       (fst (at2 (chaotic_map a b c d k (3 * j)) (edge2 0 3 t)) + w, snd (at2 (chaotic_map a b c d k (3 * j)) (edge2 0 3 t)))).
  { intros j t Hj. unfold at2, chaotic_map. rewrite !chaotic_square_part. unfold edge2, corner2. cbn [fst snd].
    replace ((3 * j) mod 3)%nat with 0%nat by (destruct j as [| [| [|]]]; [reflexivity .. | lia]).
    replace ((3 * j + 2) mod 3)%nat with 2%nat by (destruct j as [| [| [|]]]; [reflexivity .. | lia]).
    replace ((3 * j + 2) / 3)%nat with (3 * j / 3)%nat by (destruct j as [| [| [|]]]; [reflexivity .. | lia]).
    set (y := ((INR (3 * j / 3) + ((1 - t) * 0 + t * 1)) / 3)).
    replace ((INR 2 + ((1 - t) * 1 + t * 1)) / 3) with 1 by (cbn; field). replace ((INR 0 + ((1 - t) * 0 + t * 0)) / 3) with 0 by (cbn; field).
    destruct (Hw y) as [<- <-]. destruct (chaotic_square a b c d k 1 y). reflexivity. }
  intros m p q m' p' q' H. cbn in H.
  destruct H as [[= <- <- <- <- <- <-] | [[= <- <- <- <- <- <-] | [[= <- <- <- <- <- <-] | [[= <- <- <- <- <- <-] | [[= <- <- <- <- <- <-] | [[= <- <- <- <- <- <-] | []]]]]]].
  - left. intros t. apply (Y 0%nat t). lia.
  - left. intros t. apply (Y 1%nat t). lia.
  - left. intros t. apply (Y 2%nat t). lia.
  - right. intros t. apply (X 0%nat t). lia.
  - right. intros t. apply (X 1%nat t). lia.
  - right. intros t. apply (X 2%nat t). lia.
Qed.
