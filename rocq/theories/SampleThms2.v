(** * The manufactured solutions of MHD *)
From Coq Require Import Reals List Lra FunctionalExtensionality.
From Coquelicot Require Import Coquelicot.
From Verif Require Import FieldModel SampleModel SampleSpec SampleThms.
Import ListNotations.
Local Open Scope R_scope.

Ltac open3 := cbv beta iota zeta delta [from_E curl_of_parts sub3 c1 c2 c3 zero3 u_a P_a P_b E_0 curlE_0 E_1 curlE_1 E_h1 curlE_h1 u_4 P_4 E_4 curlE_4
  u_cons B_cons u_ns3 B_hu u_ot3 B_ot3 phi_3d A_3d Rdiv].
Ltac der3 := let t := fresh "t" in let x := fresh "x" in let y := fresh "y" in let z := fresh "z" in
  intros t x y z; open3; auto_derive; [repeat split; trivial | first [ring | field | unfold Rminus; ring | lra]].

(** separated variables *)
Lemma dext (f g : R -> R) x l : (forall s, f s = g s) -> is_derive f x l -> is_derive g x l.
Proof. exact (is_derive_ext f g x l). Qed.
Lemma separated a a' a'' b b' b'' c c' c'' (d d' : R -> R) (f : field3) :
  (forall r, is_derive a r (a' r)) -> (forall r, is_derive a' r (a'' r)) -> (forall r, is_derive b r (b' r)) -> (forall r, is_derive b' r (b'' r)) ->
  (forall r, is_derive c r (c' r)) -> (forall r, is_derive c' r (c'' r)) -> (forall r, is_derive d r (d' r)) ->
  (forall t x y z, f t x y z = a x * b y * c z * d t) -> smooth2nd f.
Proof.
  intros A A' B B' C C' D F.
  assert (sx : forall g g' p x, is_derive g x (g' x) -> is_derive (fun s => p * g s) x (p * g' x)) by (intros g g' p x H; exact (is_derive_scal g x p _ H)).
  exists (fun t x y z => (a x * b y * c z) * d' t), (fun t x y z => (b y * c z * d t) * a' x), (fun t x y z => (a x * c z * d t) * b' y),
    (fun t x y z => (a x * b y * d t) * c' z), (fun t x y z => (b y * c z * d t) * a'' x), (fun t x y z => (a' x * c z * d t) * b' y),
    (fun t x y z => (a' x * b y * d t) * c' z), (fun t x y z => (a x * c z * d t) * b'' y), (fun t x y z => (a x * b' y * d t) * c' z),
    (fun t x y z => (a x * b y * d t) * c'' z).
  conj; intros t x y z.
  - apply (dext (fun s => (a x * b y * c z) * d s)); [intros s; rewrite F; ring|]. now apply sx.
  - apply (dext (fun s => (b y * c z * d t) * a s)); [intros s; rewrite F; ring|]. now apply sx.
  - apply (dext (fun s => (a x * c z * d t) * b s)); [intros s; rewrite F; ring|]. now apply sx.
  - apply (dext (fun s => (a x * b y * d t) * c s)); [intros s; rewrite F; ring|]. now apply sx.
  - now apply sx.
  - apply (dext (fun s => (a' x * c z * d t) * b s)); [intros s; ring|]. now apply sx.
  - apply (dext (fun s => (a' x * b y * d t) * c s)); [intros s; ring|]. now apply sx.
  - replace ((a' x * c z * d t) * b' y) with ((c z * d t * b' y) * a' x) by ring.
    apply (dext (fun s => (c z * d t * b' y) * a s)); [intros s; ring|]. now apply sx.
  - now apply sx.
  - apply (dext (fun s => (a x * b' y * d t) * c s)); [intros s; ring|]. now apply sx.
  - replace ((a' x * b y * d t) * c' z) with ((b y * d t * c' z) * a' x) by ring.
    apply (dext (fun s => (b y * d t * c' z) * a s)); [intros s; ring|]. now apply sx.
  - replace ((a x * b' y * d t) * c' z) with ((a x * d t * c' z) * b' y) by ring.
    apply (dext (fun s => (a x * d t * c' z) * b s)); [intros s; ring|]. now apply sx.
  - now apply sx.
Qed.
Ltac der1 := intros; auto_derive; [repeat split; trivial | first [ring | field | unfold Rminus; ring | lra]].

Lemma u_a_smooth : vsmooth u_a.
Proof.
  unfold vsmooth. conj.
  - apply (separated cos (fun r => - sin r) (fun r => - cos r) sin cos (fun r => - sin r) sin cos (fun r => - sin r) exp exp); try der1; reflexivity.
  - apply (separated sin cos (fun r => - sin r) cos (fun r => - sin r) (fun r => - cos r) sin cos (fun r => - sin r) exp exp); try der1; reflexivity.
  - apply (separated (fun r => -2 * sin r) (fun r => -2 * cos r) (fun r => 2 * sin r) sin cos (fun r => - sin r) cos (fun r => - sin r) (fun r => - cos r) exp exp);
      try der1; reflexivity.
Qed.
Lemma u_4_smooth : vsmooth u_4.
Proof.
  unfold vsmooth. conj.
  - apply (separated (fun r => 2 / 3 * r ^ 3 - r ^ 2) (fun r => 2 * r ^ 2 - 2 * r) (fun r => 4 * r - 2) (fun r => r - r ^ 2) (fun r => 1 - 2 * r) (fun _ => -2)
      (fun r => r * (r - 1)) (fun r => 2 * r - 1) (fun _ => 2) exp exp); try der1. intros; open3; ring.
  - apply (separated (fun r => - r ^ 2 + r) (fun r => 1 - 2 * r) (fun _ => -2) (fun r => 5 / 10 * r ^ 2 - 1 / 3 * r ^ 3) (fun r => r - r ^ 2) (fun r => 1 - 2 * r)
      (fun r => r ^ 2 - r) (fun r => 2 * r - 1) (fun _ => 2) exp exp); try der1. intros; open3; ring.
  - apply (separated (fun r => - r ^ 2 + r) (fun r => 1 - 2 * r) (fun _ => -2) (fun r => r - r ^ 2) (fun r => 1 - 2 * r) (fun _ => -2)
      (fun r => 1 / 3 * r ^ 3 - 5 / 10 * r ^ 2) (fun r => r ^ 2 - r) (fun r => 2 * r - 1) exp exp); try der1. intros; open3; ring.
Qed.

(** one derivative *)
Lemma once (f : field3) :
  (forall t x y z, ex_derive (fun s => f s x y z) t /\ ex_derive (fun s => f t s y z) x /\ ex_derive (fun s => f t x s z) y /\ ex_derive (fun s => f t x y s) z) ->
  smooth1st f.
Proof.
  intros H. exists (D3t exact3 f), (D3x exact3 f), (D3y exact3 f), (D3z exact3 f).
  conj; intros t x y z; destruct (H t x y z) as (A & B & C & D);
    [exact (Derive_correct _ _ A)|exact (Derive_correct _ _ B)|exact (Derive_correct _ _ C)|exact (Derive_correct _ _ D)].
Qed.
Ltac once3 := apply once; intros t x y z; open3; conj; auto_derive; repeat split; trivial.

Lemma P_a_smooth : smooth1st P_a. Proof. once3. Qed.
Lemma P_b_smooth : smooth1st P_b. Proof. once3. Qed.
Lemma P_4_smooth : smooth1st P_4. Proof. once3. Qed.
Lemma B_0_smooth : vsmooth1 (from_E curlE_0). Proof. unfold vsmooth1. conj; once3. Qed.
Lemma B_1_smooth : vsmooth1 (from_E curlE_1). Proof. unfold vsmooth1. conj; once3. Qed.
Lemma B_h1_smooth : vsmooth1 (from_E curlE_h1). Proof. unfold vsmooth1. conj; once3. Qed.
Lemma B_4_smooth : vsmooth1 (from_E curlE_4). Proof. unfold vsmooth1. conj; once3. Qed.

(** Faraday's law: the hand-written derivatives are right, all terms grow with exp t *)
Lemma faraday_parts E p q r a b c : d_y (c1 E) p -> d_z (c1 E) q -> d_x (c2 E) r -> d_z (c2 E) a -> d_x (c3 E) b -> d_y (c3 E) c ->
  is_time (curl_of_parts p q r a b c) (curl_of_parts p q r a b c) -> faraday E (from_E (curl_of_parts p q r a b c)).
Proof.
  intros H1 H2 H3 H4 H5 H6 (T1 & T2 & T3).
  exists (curl_of_parts p q r a b c), (V3 (neg3 (sub3 c a)) (neg3 (sub3 q b)) (neg3 (sub3 r p))).
  split; [exists p, q, r, a, b, c; conj; try assumption; intros; reflexivity|].
  split; [|intros; repeat split; reflexivity].
  assert (K : forall (f : R -> R) x l k, is_derive f x l -> is_derive (fun s => - f s + k) x (- l)).
  { intros f x l k H. replace (- l) with (- l + 0) by ring. apply derive_plus; [exact (is_derive_opp f x l H)|apply (is_derive_const k x)]. }
  unfold is_time, d_t. conj; intros t x y z; [exact (K _ _ _ _ (T1 t x y z))|exact (K _ _ _ _ (T2 t x y z))|exact (K _ _ _ _ (T3 t x y z))].
Qed.
Lemma faraday_0 : faraday E_0 (from_E curlE_0).
Proof. apply faraday_parts; try der3. unfold is_time. conj; der3. Qed.
Lemma faraday_1 : faraday E_1 (from_E curlE_1).
Proof. apply faraday_parts; try der3. unfold is_time. conj; der3. Qed.
Lemma faraday_h1 : faraday E_h1 (from_E curlE_h1).
Proof. apply faraday_parts; try der3. unfold is_time. conj; der3. Qed.
Lemma faraday_4 : faraday E_4 (from_E curlE_4).
Proof. apply faraday_parts; try der3. unfold is_time. conj; der3. Qed.

(** divergences *)
Ltac sol a b c := exists a, b, c; conj; [der3|der3|der3|intros; open3; try ring; try field].
Lemma u_a_solenoidal : solenoidal u_a.
Proof.
  sol (fun t x y z => - sin x * sin y * sin z * exp t) (fun t x y z => - sin x * sin y * sin z * exp t) (fun t x y z => 2 * sin x * sin y * sin z * exp t).
Qed.
Lemma u_4_solenoidal : solenoidal u_4.
Proof.
  sol (fun t x y z => (2 * x ^ 2 - 2 * x) * (y - y ^ 2) * z * (z - 1) * exp t) (fun t x y z => (- x ^ 2 + x) * (y - y ^ 2) * (z ^ 2 - z) * exp t)
    (fun t x y z => (- x ^ 2 + x) * (y - y ^ 2) * (z ^ 2 - z) * exp t).
Qed.
Lemma B_0_solenoidal : solenoidal (from_E curlE_0).
Proof.
  sol (fun t x y z => (cos x * cos y * cos z + / 2 * cos (x * / 2) * cos y * cos z) * (exp t - exp 0))
    (fun t x y z : R => - (/ 2 * cos x * cos y * cos (z * / 2) + cos x * cos y * cos z) * (exp t - exp 0))
    (fun t x y z : R => (/ 2 * cos x * cos y * cos (z * / 2) - / 2 * cos (x * / 2) * cos y * cos z) * (exp t - exp 0)).
Qed.
Lemma B_1_solenoidal : solenoidal (from_E curlE_1).
Proof.
  sol (fun t x y z : R => 2 * cos x * cos y * cos z * (exp t - exp 0)) (fun t x y z : R => - 2 * cos x * cos y * cos z * (exp t - exp 0))
    (fun t x y z : R => 0).
Qed.
Lemma B_h1_solenoidal : solenoidal (from_E curlE_h1).
Proof. sol (fun t x y z : R => 0) (fun t x y z : R => 0) (fun t x y z : R => 0). Qed.
Lemma B_4_solenoidal : solenoidal (from_E curlE_4).
Proof. sol (fun t x y z : R => 0) (fun t x y z : R => 0) (fun t x y z : R => 0). Qed.
Lemma u_cons_solenoidal : solenoidal u_cons.
Proof.
  sol (fun t x y z : R => - PI * cos (PI * (x - 1 * / 2)) * cos (PI * (y - 1 * / 2)) * z * (z - 1))
      (fun t x y z : R => PI * cos (PI * (x - 1 * / 2)) * cos (PI * (y - 1 * / 2)) * z * (z - 1)) (fun t x y z : R => 0).
Qed.
Lemma B_cons_solenoidal : solenoidal B_cons.
Proof.
  sol (fun t x y z : R => - PI * sin (PI * x) * sin (PI * y) * z * (z - 1)) (fun t x y z : R => PI * sin (PI * x) * sin (PI * y) * z * (z - 1)) (fun t x y z : R => 0).
Qed.
Lemma u_ns3_solenoidal : solenoidal u_ns3.
Proof. sol (fun t x y z : R => 0) (fun t x y z : R => 0) (fun t x y z : R => 0). Qed.
Lemma B_hu_solenoidal : solenoidal B_hu.
Proof. sol (fun t x y z : R => - PI * cos (PI * x) * cos (PI * y)) (fun t x y z : R => PI * cos (PI * x) * cos (PI * y)) (fun t x y z : R => 0). Qed.
Lemma u_ot3_solenoidal : solenoidal u_ot3.
Proof. sol (fun t x y z : R => 0) (fun t x y z : R => 0) (fun t x y z : R => 0). Qed.
Lemma B_ot3_solenoidal : solenoidal B_ot3.
Proof. sol (fun t x y z : R => 0) (fun t x y z : R => 0) (fun t x y z : R => 0). Qed.
(** the supplied derivatives of the potentials *)
Lemma ot3_curl : is_curl (V3 zero3 zero3 phi_3d) u_ot3 /\ is_curl (V3 zero3 zero3 A_3d) B_ot3.
Proof.
  split.
  - exists zero3, zero3, zero3, zero3, (fun t x y z : R => 2 * sin x), (fun t x y z : R => 2 * cos y). conj; try der3.
    intros; reflexivity.
  - exists zero3, zero3, zero3, zero3, (fun t x y z : R => 2 * sin x), (fun t x y z : R => - 2 * sin (2 * y)). conj; try der3.
    intros; reflexivity.
Qed.
(** the velocity of the third Hall solution *)
Lemma Hall_3_vorticity : is_curl E_h1 curlE_h1.
Proof.
  eexists _, _, _, _, _, _. conj; cycle 6. { intros t x y z. unfold curlE_h1, curl_of_parts, at3, sub3. cbn [c1 c2 c3]. reflexivity. }
  all: der3.
Qed.
Lemma Hall_3_divergence : is_div E_h1 (fun t x y z : R => (cos x * cos y - cos y * cos z - cos x * cos z) * exp t).
Proof.
  exists (fun t x y z : R => cos x * cos y * exp t), (fun t x y z : R => - cos y * cos z * exp t), (fun t x y z : R => - cos x * cos z * exp t).
  conj; try der3. intros; ring.
Qed.
