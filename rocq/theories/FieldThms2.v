(** Proofs about products of analytic fields, their construction and the check of supplied derivatives. *)
From Coq Require Import Reals Lra Lia List.
From Coquelicot Require Import Coquelicot.
From Verif Require Import FieldModel FieldSpec FieldThms.
Import ListNotations.
Local Open Scope R_scope.

(** * arithmetic *)
Ltac comps := split; [reflexivity|split; [reflexivity|]];
  intros [|[|[|[|i]]]] p1 p2 p3 P Q W; cbn in P, Q, W; repeat match goal with H : nth_error [] ?i = _ |- _ => destruct i; discriminate H end;
  try discriminate; injection P as <-; injection Q as <-; injection W as <-; reflexivity.

Lemma add_sound : forall a b c t x y z, py_add a b = Some c ->
  pointwise Rplus (components a t x y z) (components b t x y z) (components c t x y z) /\ kind_of c = kind_of a.
Proof. intros [] [] c t x y z E; try discriminate E; injection E as <-; (split; [comps|reflexivity]). Qed.
Lemma sub_sound : forall a b c t x y z, py_sub a b = Some c ->
  pointwise Rminus (components a t x y z) (components b t x y z) (components c t x y z) /\ kind_of c = kind_of a.
Proof. intros [] [] c t x y z E; try discriminate E; injection E as <-; (split; [comps|reflexivity]). Qed.
Lemma add_runs : forall a b, (exists c, py_add a b = Some c) <-> kind_of a = kind_of b /\ kind_of a <> KT2.
Proof.
  intros [] []; cbn; split; intro H; try (destruct H as [c H]; discriminate H); try (destruct H as [H K]; discriminate H);
    try (split; [reflexivity|discriminate]); try (eexists; reflexivity).
  destruct H as [_ H]. contradiction.
Qed.
Lemma sub_runs : forall a b, (exists c, py_sub a b = Some c) <-> kind_of a = kind_of b /\ kind_of a <> KT2.
Proof.
  intros [] []; cbn; split; intro H; try (destruct H as [c H]; discriminate H); try (destruct H as [H K]; discriminate H);
    try (split; [reflexivity|discriminate]); try (eexists; reflexivity).
  destruct H as [_ H]. contradiction.
Qed.
Lemma neg_sound : forall a c t x y z, (forall s, a = OS3 s -> s3zero s = true -> forall t x y z, s3 s t x y z = 0) ->
  py_neg a = Some c -> multiple (-1) (components a t x y z) (components c t x y z) /\ kind_of c = kind_of a.
Proof.
  intros [] c t x y z Z E; cbn in E; try discriminate E; injection E as <-; (split; [|reflexivity]); unfold multiple; cbn;
    unfold neg2, neg3; try (repeat f_equal; ring).
  unfold s3_neg. destruct (s3zero s) eqn:B; cbn; f_equal.
  - rewrite (Z s eq_refl B). ring.
  - unfold neg3. ring.
Qed.
Lemma mul_sound : forall a b c t x y z, py_mul a b = Some c ->
  (exists r, components a t x y z = [r] /\ multiple r (components b t x y z) (components c t x y z) /\ kind_of c = kind_of b \/
             components b t x y z = [r] /\ multiple r (components a t x y z) (components c t x y z) /\ kind_of c = kind_of a).
Proof.
  intros [] [] c t x y z E; try discriminate E; injection E as <-; unfold multiple; cbn; unfold mul2, mul3, scale2, scale3.
  all: try (eexists; left; split; [reflexivity|split; [reflexivity|reflexivity]]).
  all: try (eexists; right; split; [reflexivity|split; [reflexivity|reflexivity]]).
Qed.
Lemma mul_runs : forall a b, (exists c, py_mul a b = Some c) <->
  In (kind_of a, kind_of b) [(KNum, KNum); (KNum, KS2); (KNum, KV2); (KNum, KV3); (KS2, KNum); (KV2, KNum); (KV3, KNum);
                             (KS2, KS2); (KS2, KV2); (KS3, KS3)].
Proof.
  intros [] []; cbn; split; intro H; try (destruct H as [c H]; discriminate H); try (eexists; reflexivity);
    try tauto; repeat (destruct H as [H|H]; [discriminate H|]); destruct H.
Qed.

(** ** cross products, dot products, norm, tensors *)
Lemma triple : forall a b c a' b' c' : R, a = a' -> b = b' -> c = c' -> Some (a, b, c) = Some (a', b', c').
Proof. intros. subst. reflexivity. Qed.
Lemma cross_sound : forall a b c t x y z, py_cross a b = Some c ->
  exists p q, in_space a t x y z = Some p /\ in_space b t x y z = Some q /\ in_space c t x y z = Some (cross p q).
Proof.
  intros [] [] c t x y z E; try discriminate E; injection E as <-; cbn; do 2 eexists; (split; [reflexivity|split; [reflexivity|]]);
    cbn; unfold neg2, mul2, sub2, sub3, mul3; apply triple; ring.
Qed.
Lemma cross_runs : forall a b, (exists c, py_cross a b = Some c) <->
  In (kind_of a, kind_of b) [(KS2, KV2); (KV2, KV2); (KV2, KS2); (KV3, KV3)].
Proof.
  intros [] []; cbn; split; intro H; try (destruct H as [c H]; discriminate H); try (eexists; reflexivity);
    try tauto; repeat (destruct H as [H|H]; [discriminate H|]); destruct H.
Qed.
Lemma dot2 : forall a b t x y, s2 (v2_dot a b) t x y = dot (v2u a t x y, v2v a t x y, 0) (v2u b t x y, v2v b t x y, 0).
Proof. intros. cbn. unfold add2, mul2. ring. Qed.
Lemma dot3 : forall a b t x y z, s3 (v3_dot a b) t x y z =
  dot (v3u a t x y z, v3v a t x y z, v3w a t x y z) (v3u b t x y z, v3v b t x y z, v3w b t x y z).
Proof. intros. cbn. unfold sum3, mul3. ring. Qed.
Lemma norm2 : forall a t x y, 0 <= s2 (v2_norm a) t x y /\ s2 (v2_norm a) t x y ^ 2 = s2 (v2_dot a a) t x y.
Proof.
  intros a t x y. cbn [v2_norm v2_dot mk_sc2 s2]. split; [apply sqrt_pos|]. rewrite pow2_sqrt.
  - unfold add2, mul2. ring.
  - pose proof (pow2_ge_0 (v2u a t x y)). pose proof (pow2_ge_0 (v2v a t x y)). lra.
Qed.
Lemma tensor_apply : forall a b c t x y,
  t00 (v2_tensor a b) t x y * v2u c t x y + t01 (v2_tensor a b) t x y * v2v c t x y = v2u a t x y * s2 (v2_dot b c) t x y /\
  t10 (v2_tensor a b) t x y * v2u c t x y + t11 (v2_tensor a b) t x y * v2v c t x y = v2v a t x y * s2 (v2_dot b c) t x y.
Proof. intros. cbn. unfold add2, mul2. split; ring. Qed.

(** ** convection *)
Lemma convection_gradient : forall v u t x y, exists c, convection_by (OV2 v) (OV2 u) = Some (OV2 c) /\
  v2u c t x y = t00 (v2_gradient v) t x y * v2u u t x y + t01 (v2_gradient v) t x y * v2v u t x y /\
  v2v c t x y = t10 (v2_gradient v) t x y * v2u u t x y + t11 (v2_gradient v) t x y * v2v u t x y.
Proof.
  intros v u t x y. eexists. split; [reflexivity|]. cbn [v2_convection v2_gradient mk_ve2 v2u v2v t00 t01 t10 t11].
  unfold add2, mul2. split; ring.
Qed.
Lemma convection_only : forall s u c, convection_by s u = Some c -> kind_of s = KV2 /\ kind_of u = KV2.
Proof. intros [] [] c E; cbn in E; try discriminate E; split; reflexivity. Qed.

(** * construction *)
Lemma fill_means : forall {F} (zero : F) e d, fill zero e = Some d <->
  match e with ENone => d = None | ENum r => r = 0 /\ d = Some zero | EFun f => d = Some f end.
Proof.
  intros F zero [|r|f] d; cbn.
  - split; intro E; [injection E as <-; reflexivity | rewrite E; reflexivity].
  - destruct (Req_EM_T r 0) as [Z|Z]; split; intro E.
    + injection E as <-. split; [exact Z|reflexivity].
    + destruct E as [_ E]. rewrite E. reflexivity.
    + discriminate E.
    + destruct E as [E _]. contradiction.
  - split; intro E; [injection E as <-; reflexivity | rewrite E; reflexivity].
Qed.
Lemma fill2 : forall e d, fill zero2 e = Some d -> means2 e d.
Proof.
  intros e d E. apply fill_means in E. destruct e; cbn; try exact E. destruct E as [Z E]. split; [exact Z|].
  exists zero2. split; [exact E|]. reflexivity.
Qed.
Lemma fill3 : forall e d, fill zero3 e = Some d -> means3 e d.
Proof.
  intros e d E. apply fill_means in E. destruct e; cbn; try exact E. destruct E as [Z E]. split; [exact Z|].
  exists zero3. split; [exact E|]. reflexivity.
Qed.
Lemma fills_length : forall {F} (zero : F) l r, fills zero l = Some r -> length r = length l.
Proof.
  intros F zero l. induction l as [|e l IH]; intros r E; cbn in E.
  - injection E as <-. reflexivity.
  - destruct (fill zero e); [|discriminate]. destruct (fills zero l); [|discriminate]. injection E as <-. cbn. f_equal. apply IH. reflexivity.
Qed.
Lemma fills_nth : forall {F} (zero : F) l r i e, fills zero l = Some r -> nth_error l i = Some e ->
  exists d, nth_error r i = Some d /\ fill zero e = Some d.
Proof.
  intros F zero l. induction l as [|a l IH]; intros r i e E N; cbn in E.
  - destruct i; discriminate N.
  - destruct (fill zero a) eqn:A; [|discriminate]. destruct (fills zero l) eqn:B; [|discriminate]. injection E as <-.
    destruct i as [|i]; cbn in N.
    + injection N as <-. exists o. split; [reflexivity|exact A].
    + apply (IH l0 i e eq_refl N).
Qed.
Lemma fills_runs : forall {F} (zero : F) l, (exists r, fills zero l = Some r) <-> List.Forall acceptable l.
Proof.
  intros F zero l. induction l as [|e l IH]; cbn.
  - split; [constructor|]. intros _. eexists. reflexivity.
  - split.
    + intros [r E]. destruct (fill zero e) eqn:A; [|discriminate]. destruct (fills zero l) eqn:B; [|discriminate]. constructor.
      * intros q Q. rewrite Q in A. apply fill_means in A. apply A.
      * apply IH. eexists. reflexivity.
    + intro H. inversion_clear H as [|? ? A B]. apply IH in B. destruct B as [r B]. rewrite B.
      assert (X : exists d, fill zero e = Some d).
      { destruct e as [|q|f]; [eexists; reflexivity| |eexists; reflexivity]. exists (Some zero). apply fill_means.
        split; [apply A; reflexivity|reflexivity]. }
      destruct X as [d X]. rewrite X. eexists. reflexivity.
Qed.

Lemma new_sc2_means : forall s steady l ll r, new_sc2 s steady (Some l) (Some ll) = Some r ->
  exists dt dx dy tt' xx xy yx yy, l = [dt; dx; dy] /\ ll = [tt'; xx; xy; yx; yy] /\ s2 r = s /\
    (steady = false -> means2 dt (s2t r)) /\ (steady = true -> forall t x y, s2 (s2_time r) t x y = 0) /\
    means2 dx (s2x r) /\ means2 dy (s2y r) /\
    means2 tt' (s2tt r) /\ means2 xx (s2xx r) /\ means2 xy (s2xy r) /\ means2 yx (s2yx r) /\ means2 yy (s2yy r).
Proof.
  intros s steady l ll r E. unfold new_sc2 in E.
  destruct l as [|a [|b [|c [|]]]]; try discriminate E. destruct ll as [|e1 [|e2 [|e3 [|e4 [|e5 [|]]]]]]; cbn [length Nat.eqb] in E;
    try (destruct (fills zero2 [a; b; c]) as [[|? [|? [|? [|]]]]|]; discriminate E).
  cbn [fills] in E.
  destruct (fill zero2 a) eqn:Fa; [|discriminate E]. destruct (fill zero2 b) eqn:Fb; [|discriminate E].
  destruct (fill zero2 c) eqn:Fc; [|discriminate E].
  destruct (fill zero2 e1) eqn:F1; [|discriminate E]. destruct (fill zero2 e2) eqn:F2; [|discriminate E].
  destruct (fill zero2 e3) eqn:F3; [|discriminate E]. destruct (fill zero2 e4) eqn:F4; [|discriminate E].
  destruct (fill zero2 e5) eqn:F5; [|discriminate E].
  injection E as <-. cbn [s2 s2t s2x s2y s2tt s2xx s2xy s2yx s2yy].
  exists a, b, c, e1, e2, e3, e4, e5.
  split; [reflexivity|]. split; [reflexivity|]. split; [reflexivity|].
  split; [intros ->; apply fill2, Fa|]. split; [intros ->; reflexivity|].
  repeat split; apply fill2; assumption.
Qed.
Lemma new_sc2_runs : forall s steady l ll, (exists r, new_sc2 s steady (Some l) (Some ll) = Some r) <->
  length l = 3%nat /\ length ll = 5%nat /\ List.Forall acceptable l /\ List.Forall acceptable ll.
Proof.
  intros s steady l ll. split.
  - intros [r E]. unfold new_sc2 in E.
    destruct (Nat.eqb (length l) 3) eqn:A; [|discriminate]. destruct (Nat.eqb (length ll) 5) eqn:B.
    2: { destruct (fills zero2 l) as [[|? [|? [|? [|]]]]|]; discriminate E. }
    apply Nat.eqb_eq in A. apply Nat.eqb_eq in B. split; [exact A|]. split; [exact B|].
    destruct (fills zero2 l) eqn:C; [|discriminate]. destruct (fills zero2 ll) eqn:D.
    2: { destruct l0 as [|? [|? [|? [|]]]]; discriminate E. }
    split; apply (fills_runs zero2); eexists; eassumption.
  - intros (A & B & C & D). apply (fills_runs zero2) in C. apply (fills_runs zero2) in D. destruct C as [p C]. destruct D as [q D].
    unfold new_sc2. rewrite A, B, C, D. cbn [Nat.eqb].
    assert (P := fills_length _ _ _ C). assert (Q := fills_length _ _ _ D). rewrite A in P. rewrite B in Q.
    destruct p as [|? [|? [|? [|]]]]; try discriminate P. destruct q as [|? [|? [|? [|? [|? [|]]]]]]; try discriminate Q.
    eexists. reflexivity.
Qed.
Lemma new_sc3_means : forall s steady l r, new_sc3 s steady (Some l) = Some r ->
  exists dt dx dy dz, l = [dt; dx; dy; dz] /\
    (s3zero r = true <-> s = None) /\ (forall f, s = Some f -> s3 r = f) /\ (s = None -> forall t x y z, s3 r t x y z = 0) /\
    (steady = false -> means3 dt (s3t r)) /\ (steady = true -> forall t x y z, s3 (s3_time r) t x y z = 0) /\
    means3 dx (s3x r) /\ means3 dy (s3y r) /\ means3 dz (s3z r).
Proof.
  intros s steady l r E. unfold new_sc3 in E.
  destruct l as [|a [|b [|c [|d [|]]]]]; try discriminate E. cbn [length Nat.eqb fills] in E.
  destruct (fill zero3 a) eqn:Fa; [|discriminate E]. destruct (fill zero3 b) eqn:Fb; [|discriminate E].
  destruct (fill zero3 c) eqn:Fc; [|discriminate E]. destruct (fill zero3 d) eqn:Fd; [|discriminate E].
  injection E as <-. cbn [s3 s3zero s3t s3x s3y s3z]. exists a, b, c, d. split; [reflexivity|].
  split; [destruct s; split; intro H; congruence|].
  split; [intros f ->; reflexivity|]. split; [intros -> ?; reflexivity|].
  split; [intros ->; apply fill3, Fa|]. split; [intros ->; reflexivity|].
  repeat split; apply fill3; assumption.
Qed.
Lemma new_ve2_means : forall u v steady J td r, new_ve2 u v steady (Some J) td = Some r ->
  exists ux uy vx vy, J = [[ux; uy]; [vx; vy]] /\ v2u r = u /\ v2v r = v /\
    means2 ux (v2ux r) /\ means2 uy (v2uy r) /\ means2 vx (v2vx r) /\ means2 vy (v2vy r) /\
    (steady = true -> forall t x y, v2u (v2_time r) t x y = 0 /\ v2v (v2_time r) t x y = 0) /\
    (steady = false -> td = None -> v2ut r = None /\ v2vt r = None) /\
    (steady = false -> forall l, td = Some l -> l = [v2ut r; v2vt r]).
Proof.
  intros u v steady J td r E. unfold new_ve2 in E.
  destruct J as [|j0 [|j1 [|]]]; try discriminate E. cbn [length Nat.eqb jacobian] in E.
  destruct j0 as [|a [|b [|]]]; try discriminate E. cbn [length Nat.eqb fills] in E.
  destruct (fill zero2 a) eqn:Fa; [|discriminate E]. destruct (fill zero2 b) eqn:Fb; [|discriminate E].
  destruct j1 as [|c [|d [|]]]; try discriminate E. cbn [length Nat.eqb fills] in E.
  destruct (fill zero2 c) eqn:Fc; [|discriminate E]. destruct (fill zero2 d) eqn:Fd; [|discriminate E].
  exists a, b, c, d. split; [reflexivity|].
  destruct steady; [|destruct td as [[|p [|q [|]]]|]; try discriminate E]; injection E as <-;
    cbn [v2u v2v v2ux v2uy v2vx v2vy v2ut v2vt]; (split; [reflexivity|]); (split; [reflexivity|]);
    (split; [apply fill2, Fa|]); (split; [apply fill2, Fb|]); (split; [apply fill2, Fc|]); (split; [apply fill2, Fd|]);
    (split; [intro H; try discriminate H; intros; split; reflexivity|]); (split; [intros H K; try discriminate H; try discriminate K; split; reflexivity|]);
    intros H l K; try discriminate H; try discriminate K; injection K as <-; reflexivity.
Qed.
Lemma new_ve3_means : forall u v w steady J td r, new_ve3 u v w steady (Some J) td = Some r ->
  exists ux uy uz vx vy vz wx wy wz, J = [[ux; uy; uz]; [vx; vy; vz]; [wx; wy; wz]] /\ v3u r = u /\ v3v r = v /\ v3w r = w /\
    means3 ux (v3ux r) /\ means3 uy (v3uy r) /\ means3 uz (v3uz r) /\ means3 vx (v3vx r) /\ means3 vy (v3vy r) /\ means3 vz (v3vz r) /\
    means3 wx (v3wx r) /\ means3 wy (v3wy r) /\ means3 wz (v3wz r) /\
    (steady = true -> forall t x y z, v3u (v3_time r) t x y z = 0 /\ v3v (v3_time r) t x y z = 0 /\ v3w (v3_time r) t x y z = 0) /\
    (steady = false -> td = None -> v3ut r = None /\ v3vt r = None /\ v3wt r = None) /\
    (steady = false -> forall l, td = Some l -> l = [v3ut r; v3vt r; v3wt r]).
Proof.
  intros u v w steady J td r E. unfold new_ve3 in E.
  destruct J as [|j0 [|j1 [|j2 [|]]]]; try discriminate E. cbn [length Nat.eqb jacobian] in E.
  destruct j0 as [|a [|b [|c [|]]]]; try discriminate E. cbn [length Nat.eqb fills] in E.
  destruct (fill zero3 a) eqn:Fa; [|discriminate E]. destruct (fill zero3 b) eqn:Fb; [|discriminate E]. destruct (fill zero3 c) eqn:Fc; [|discriminate E].
  destruct j1 as [|d [|e [|f [|]]]]; try discriminate E. cbn [length Nat.eqb fills] in E.
  destruct (fill zero3 d) eqn:Fd; [|discriminate E]. destruct (fill zero3 e) eqn:Fe; [|discriminate E]. destruct (fill zero3 f) eqn:Ff; [|discriminate E].
  destruct j2 as [|g [|h [|i [|]]]]; try discriminate E. cbn [length Nat.eqb fills] in E.
  destruct (fill zero3 g) eqn:Fg; [|discriminate E]. destruct (fill zero3 h) eqn:Fh; [|discriminate E]. destruct (fill zero3 i) eqn:Fi; [|discriminate E].
  exists a, b, c, d, e, f, g, h, i. split; [reflexivity|].
  destruct steady; [|destruct td as [[|p [|q [|s [|]]]]|]; try discriminate E]; injection E as <-;
    cbn [v3u v3v v3w v3ux v3uy v3uz v3vx v3vy v3vz v3wx v3wy v3wz v3ut v3vt v3wt]; (split; [reflexivity|]); (split; [reflexivity|]); (split; [reflexivity|]);
    (split; [apply fill3, Fa|]); (split; [apply fill3, Fb|]); (split; [apply fill3, Fc|]); (split; [apply fill3, Fd|]);
    (split; [apply fill3, Fe|]); (split; [apply fill3, Ff|]); (split; [apply fill3, Fg|]); (split; [apply fill3, Fh|]); (split; [apply fill3, Fi|]);
    (split; [intro H; try discriminate H; intros; repeat split; reflexivity|]); (split; [intros H K; try discriminate H; try discriminate K; repeat split; reflexivity|]);
    intros H l K; try discriminate H; try discriminate K; injection K as <-; reflexivity.
Qed.

(** * the check of supplied derivatives *)
Lemma check_values : forall {P} (n g : P -> R) pts, check_partial (map n pts) (map g pts) ->
  forall p, In p pts -> Rabs (g p - n p) < / 100000 * Rmax 1 (Rabs (n p)).
Proof.
  intros P n g pts [C|C] p I.
  - assert (X : Rabs (g p - n p) < tol).
    { unfold close_abs in C. induction pts as [|a pts IH]; [destruct I|]. cbn in C. inversion_clear C as [|? ? ? ? A B].
      destruct I as [->|I]; [exact A|apply IH; assumption]. }
    unfold tol in X. assert (1 <= Rmax 1 (Rabs (n p))) by apply Rmax_l. nra.
  - assert (X : n p <> 0 /\ Rabs ((g p - n p) / n p) < tol).
    { unfold close_rel in C. induction pts as [|a pts IH]; [destruct I|]. cbn in C. inversion_clear C as [|? ? ? ? A B].
      destruct I as [->|I]; [exact A|apply IH; assumption]. }
    destruct X as [N X]. unfold tol in X. unfold Rdiv in X. rewrite Rabs_mult, Rabs_inv in X.
    assert (0 < Rabs (n p)) by (apply Rabs_pos_lt; exact N).
    apply (Rmult_lt_compat_r (Rabs (n p))) in X; [|assumption]. rewrite Rmult_assoc, Rinv_l, Rmult_1_r in X by lra.
    assert (Rabs (n p) <= Rmax 1 (Rabs (n p))) by apply Rmax_r. nra.
Qed.
Lemma check_abs : forall {P} (n g : P -> R) pts, (forall p, In p pts -> Rabs (g p - n p) < / 100000) ->
  check_partial (map n pts) (map g pts).
Proof.
  intros P n g pts H. left. unfold close_abs. induction pts as [|a pts IH]; [constructor|]. cbn. constructor.
  - apply H. left. reflexivity.
  - apply IH. intros p I. apply H. right. exact I.
Qed.

Section Planar.
  Variables (s : sc2) (els : list (R * list (R * R))).
  Lemma s2_mesh_sound : s2_mesh s els -> forall t pts x y, In (t, pts) els -> In (x, y) pts ->
    (forall g, s2t s = Some g -> Rabs (g t x y - n2t (s2 s) t x y) < / 100000 * Rmax 1 (Rabs (n2t (s2 s) t x y))) /\
    (forall g, s2x s = Some g -> Rabs (g t x y - n2x (s2 s) t x y) < / 100000 * Rmax 1 (Rabs (n2x (s2 s) t x y))) /\
    (forall g, s2y s = Some g -> Rabs (g t x y - n2y (s2 s) t x y) < / 100000 * Rmax 1 (Rabs (n2y (s2 s) t x y))).
  Proof.
    intros H t pts x y I J. unfold s2_mesh in H. rewrite Forall_forall in H. specialize (H _ I). cbn [fst snd] in H.
    destruct H as (A & B & C). repeat split; intros g G.
    - rewrite G in A. apply (check_values (fun p => n2t (s2 s) t (fst p) (snd p)) (fun p => g t (fst p) (snd p)) pts A (x, y) J).
    - rewrite G in B. apply (check_values (fun p => n2x (s2 s) t (fst p) (snd p)) (fun p => g t (fst p) (snd p)) pts B (x, y) J).
    - rewrite G in C. apply (check_values (fun p => n2y (s2 s) t (fst p) (snd p)) (fun p => g t (fst p) (snd p)) pts C (x, y) J).
  Qed.
End Planar.

Lemma max_shift : forall g n d e, Rabs (g - n) < / 100000 * Rmax 1 (Rabs n) -> Rabs (n - d) <= e ->
  Rabs (g - d) < / 100000 * Rmax 1 (Rabs d + e) + e.
Proof.
  intros g n d e H K. assert (A : Rabs n <= Rabs d + e).
  { replace n with (d + (n - d)) by ring. eapply Rle_trans; [apply Rabs_triang|]. lra. }
  assert (B : Rmax 1 (Rabs n) <= Rmax 1 (Rabs d + e)) by (apply Rle_max_compat_l; exact A).
  replace (g - d) with ((g - n) + (n - d)) by ring. eapply Rle_lt_trans; [apply Rabs_triang|]. lra.
Qed.

Lemma num2 : forall M f t x y ft fx fy, smooth2 M f t x y ft fx fy ->
  Rabs (n2t f t x y - ft) <= err2 M /\ Rabs (n2x f t x y - fx) <= err2 M /\ Rabs (n2y f t x y - fy) <= err2 M.
Proof.
  intros M f t x y ft fx fy H.
  assert (X := close_given2 M f t x y ft fx fy None None None H).
  cbn [given] in X. apply X; intros k E; discriminate E.
Qed.
Lemma num3 : forall M f t x y z ft fx fy fz, smooth3 M f t x y z ft fx fy fz ->
  Rabs (n3t f t x y z - ft) <= err3 M /\ Rabs (n3x f t x y z - fx) <= err3 M /\
  Rabs (n3y f t x y z - fy) <= err3 M /\ Rabs (n3z f t x y z - fz) <= err3 M.
Proof.
  intros M f t x y z ft fx fy fz H.
  assert (X := close_given3 M f t x y z ft fx fy fz None None None None H).
  cbn [given] in X. apply X; intros k E; discriminate E.
Qed.

Lemma s2_mesh_close : forall s els, s2_mesh s els -> forall M t pts x y ft fx fy, In (t, pts) els -> In (x, y) pts ->
  smooth2 M (s2 s) t x y ft fx fy ->
  (forall g, s2t s = Some g -> Rabs (g t x y - ft) < / 100000 * Rmax 1 (Rabs ft + err2 M) + err2 M) /\
  (forall g, s2x s = Some g -> Rabs (g t x y - fx) < / 100000 * Rmax 1 (Rabs fx + err2 M) + err2 M) /\
  (forall g, s2y s = Some g -> Rabs (g t x y - fy) < / 100000 * Rmax 1 (Rabs fy + err2 M) + err2 M).
Proof.
  intros s els H M t pts x y ft fx fy I J Q. destruct (s2_mesh_sound s els H t pts x y I J) as (A & B & C).
  destruct (num2 _ _ _ _ _ _ _ _ Q) as (A' & B' & C').
  repeat split; intros g G; (eapply max_shift; [|eassumption]); [apply A|apply B|apply C]; exact G.
Qed.
Lemma check2_exact : forall (num : fld2) d t pts, (forall g, d = Some g -> forall p, In p pts -> Rabs (g t (fst p) (snd p) - num t (fst p) (snd p)) < / 100000) ->
  check2 num d t pts.
Proof.
  intros num [g|] t pts H; [|exact I]. cbn.
  apply (check_abs (fun p => num t (fst p) (snd p)) (fun p => g t (fst p) (snd p))). apply H. reflexivity.
Qed.
Lemma check3_exact : forall (num : fld3) d t pts, (forall g, d = Some g -> forall p, In p pts -> Rabs (g t (fst (fst p)) (snd (fst p)) (snd p) - num t (fst (fst p)) (snd (fst p)) (snd p)) < / 100000) ->
  check3 num d t pts.
Proof.
  intros num [g|] t pts H; [|exact I]. cbn.
  apply (check_abs (fun p => num t (fst (fst p)) (snd (fst p)) (snd p)) (fun p => g t (fst (fst p)) (snd (fst p)) (snd p))). apply H. reflexivity.
Qed.
Lemma exact_small : forall g n d e, g = d -> Rabs (n - d) <= e -> e < / 100000 -> Rabs (g - n) < / 100000.
Proof. intros g n d e -> H K. rewrite Rabs_minus_sym. lra. Qed.

Lemma s2_mesh_accepts : forall s els M, M < 6000 ->
  (forall t pts x y, In (t, pts) els -> In (x, y) pts -> exists ft fx fy, smooth2 M (s2 s) t x y ft fx fy /\
    right2 (s2t s) t x y ft /\ right2 (s2x s) t x y fx /\ right2 (s2y s) t x y fy) ->
  s2_mesh s els.
Proof.
  intros s els M L H. unfold s2_mesh. rewrite Forall_forall. intros [t pts] I. cbn [fst snd].
  assert (E : err2 M < / 100000) by lra.
  repeat split; apply check2_exact; intros g G [x y] J; destruct (H t pts x y I J) as (ft & fx & fy & Q & A & B & C);
    destruct (num2 _ _ _ _ _ _ _ _ Q) as (A' & B' & C'); cbn [fst snd];
    [eapply exact_small; [apply A; exact G|exact A'|exact E] | eapply exact_small; [apply B; exact G|exact B'|exact E]
    |eapply exact_small; [apply C; exact G|exact C'|exact E]].
Qed.
Lemma v2_mesh_close : forall v els, v2_mesh v els -> forall M t pts x y ut ux uy vt vx vy, In (t, pts) els -> In (x, y) pts ->
  smooth2 M (v2u v) t x y ut ux uy -> smooth2 M (v2v v) t x y vt vx vy ->
  forall g d, In (Some g, d) [(v2ut v, ut); (v2ux v, ux); (v2uy v, uy); (v2vt v, vt); (v2vx v, vx); (v2vy v, vy)] ->
  Rabs (g t x y - d) < / 100000 * Rmax 1 (Rabs d + err2 M) + err2 M.
Proof.
  intros v els H M t pts x y ut ux uy vt vx vy I J Q Q' g d K.
  unfold v2_mesh in H. rewrite Forall_forall in H. specialize (H _ I). cbn [fst snd] in H.
  destruct H as (A & B & C & D & E & F).
  destruct (num2 _ _ _ _ _ _ _ _ Q) as (a & b & c). destruct (num2 _ _ _ _ _ _ _ _ Q') as (a' & b' & c').
  repeat (destruct K as [K|K]; [injection K as G <-|]); try destruct K;
    (eapply max_shift; [|eassumption]).
  - rewrite G in A. exact (check_values (fun p => n2t (v2u v) t (fst p) (snd p)) (fun p => g t (fst p) (snd p)) pts A (x, y) J).
  - rewrite G in C. exact (check_values (fun p => n2x (v2u v) t (fst p) (snd p)) (fun p => g t (fst p) (snd p)) pts C (x, y) J).
  - rewrite G in D. exact (check_values (fun p => n2y (v2u v) t (fst p) (snd p)) (fun p => g t (fst p) (snd p)) pts D (x, y) J).
  - rewrite G in B. exact (check_values (fun p => n2t (v2v v) t (fst p) (snd p)) (fun p => g t (fst p) (snd p)) pts B (x, y) J).
  - rewrite G in E. exact (check_values (fun p => n2x (v2v v) t (fst p) (snd p)) (fun p => g t (fst p) (snd p)) pts E (x, y) J).
  - rewrite G in F. exact (check_values (fun p => n2y (v2v v) t (fst p) (snd p)) (fun p => g t (fst p) (snd p)) pts F (x, y) J).
Qed.
Lemma v2_mesh_accepts : forall v els M, M < 6000 ->
  (forall t pts x y, In (t, pts) els -> In (x, y) pts -> exists ut ux uy vt vx vy,
    smooth2 M (v2u v) t x y ut ux uy /\ smooth2 M (v2v v) t x y vt vx vy /\
    right2 (v2ut v) t x y ut /\ right2 (v2ux v) t x y ux /\ right2 (v2uy v) t x y uy /\
    right2 (v2vt v) t x y vt /\ right2 (v2vx v) t x y vx /\ right2 (v2vy v) t x y vy) ->
  v2_mesh v els.
Proof.
  intros v els M L H. unfold v2_mesh. rewrite Forall_forall. intros [t pts] I. cbn [fst snd].
  assert (Z : err2 M < / 100000) by lra.
  repeat split; apply check2_exact; intros g G [x y] J;
    destruct (H t pts x y I J) as (ut & ux & uy & vt & vx & vy & Q & Q' & A & B & C & D & E & F);
    destruct (num2 _ _ _ _ _ _ _ _ Q) as (a & b & c); destruct (num2 _ _ _ _ _ _ _ _ Q') as (a' & b' & c'); cbn [fst snd].
  - eapply exact_small; [apply A; exact G|exact a|exact Z].
  - eapply exact_small; [apply D; exact G|exact a'|exact Z].
  - eapply exact_small; [apply B; exact G|exact b|exact Z].
  - eapply exact_small; [apply C; exact G|exact c|exact Z].
  - eapply exact_small; [apply E; exact G|exact b'|exact Z].
  - eapply exact_small; [apply F; exact G|exact c'|exact Z].
Qed.
Lemma s3_mesh_close : forall s els, s3_mesh s els -> forall M t pts x y z ft fx fy fz, In (t, pts) els -> In (x, y, z) pts ->
  smooth3 M (s3 s) t x y z ft fx fy fz ->
  forall g d, In (Some g, d) [(s3t s, ft); (s3x s, fx); (s3y s, fy); (s3z s, fz)] ->
  Rabs (g t x y z - d) < / 100000 * Rmax 1 (Rabs d + err3 M) + err3 M.
Proof.
  intros s els H M t pts x y z ft fx fy fz I J Q g d K.
  unfold s3_mesh in H. rewrite Forall_forall in H. specialize (H _ I). cbn [fst snd] in H. destruct H as (A & B & C & D).
  destruct (num3 _ _ _ _ _ _ _ _ _ _ Q) as (a & b & c & e).
  repeat (destruct K as [K|K]; [injection K as G <-|]); try destruct K; (eapply max_shift; [|eassumption]).
  - rewrite G in A. exact (check_values (fun p => n3t (s3 s) t (fst (fst p)) (snd (fst p)) (snd p)) (fun p => g t (fst (fst p)) (snd (fst p)) (snd p)) pts A (x, y, z) J).
  - rewrite G in B. exact (check_values (fun p => n3x (s3 s) t (fst (fst p)) (snd (fst p)) (snd p)) (fun p => g t (fst (fst p)) (snd (fst p)) (snd p)) pts B (x, y, z) J).
  - rewrite G in C. exact (check_values (fun p => n3y (s3 s) t (fst (fst p)) (snd (fst p)) (snd p)) (fun p => g t (fst (fst p)) (snd (fst p)) (snd p)) pts C (x, y, z) J).
  - rewrite G in D. exact (check_values (fun p => n3z (s3 s) t (fst (fst p)) (snd (fst p)) (snd p)) (fun p => g t (fst (fst p)) (snd (fst p)) (snd p)) pts D (x, y, z) J).
Qed.
Lemma s3_mesh_accepts : forall s els M, M < 60000000 ->
  (forall t pts x y z, In (t, pts) els -> In (x, y, z) pts -> exists ft fx fy fz, smooth3 M (s3 s) t x y z ft fx fy fz /\
    right3 (s3t s) t x y z ft /\ right3 (s3x s) t x y z fx /\ right3 (s3y s) t x y z fy /\ right3 (s3z s) t x y z fz) ->
  s3_mesh s els.
Proof.
  intros s els M L H. unfold s3_mesh. rewrite Forall_forall. intros [t pts] I. cbn [fst snd].
  assert (Z : err3 M < / 100000) by lra.
  repeat split; apply check3_exact; intros g G [[x y] z] J; destruct (H t pts x y z I J) as (ft & fx & fy & fz & Q & A & B & C & D);
    destruct (num3 _ _ _ _ _ _ _ _ _ _ Q) as (a & b & c & d); cbn [fst snd].
  - eapply exact_small; [apply A; exact G|exact a|exact Z].
  - eapply exact_small; [apply B; exact G|exact b|exact Z].
  - eapply exact_small; [apply C; exact G|exact c|exact Z].
  - eapply exact_small; [apply D; exact G|exact d|exact Z].
Qed.

(** a steady field that depends on time is found out *)
Lemma check_zero : forall {P} (n : P -> R) pts, check_partial (map n pts) (map (fun _ => 0) pts) ->
  forall p, In p pts -> Rabs (n p) < / 100000.
Proof.
  intros P n pts [C|C] p I.
  - unfold close_abs in C. induction pts as [|a pts IH]; [destruct I|]. cbn in C. inversion_clear C as [|? ? ? ? A B].
    destruct I as [->|I]; [|apply IH; assumption]. rewrite Rminus_0_l, Rabs_Ropp in A. exact A.
  - exfalso. unfold close_rel in C. induction pts as [|a pts IH]; [destruct I|]. cbn in C. inversion_clear C as [|? ? ? ? A B].
    destruct I as [->|I]; [|apply IH; assumption]. destruct A as [N A].
    replace ((0 - n p) / n p) with (-1) in A by (field; exact N). rewrite Rabs_left in A by lra. unfold tol in A. lra.
Qed.
Lemma steady_found : forall s els d dd r, new_sc2 s true d dd = Some r -> s2_mesh r els ->
  forall t pts x y, In (t, pts) els -> In (x, y) pts -> Rabs (n2t s t x y) < / 100000.
Proof.
  intros s els d dd r E H t pts x y I J.
  assert (X : s2 r = s /\ s2t r = Some zero2).
  { unfold new_sc2 in E.
    destruct (match d with None => _ | Some l => _ end) as [[|? [|? [|? [|]]]]|]; try discriminate E.
    destruct (match dd with None => _ | Some l => _ end) as [[|? [|? [|? [|? [|? [|]]]]]]|]; try discriminate E.
    injection E as <-. split; reflexivity. }
  destruct X as [A B]. unfold s2_mesh in H. rewrite Forall_forall in H. specialize (H _ I). cbn [fst snd] in H.
  destruct H as (H & _). rewrite A, B in H. cbn [check2] in H. unfold zero2 in H.
  exact (check_zero (fun p => n2t s t (fst p) (snd p)) pts H (x, y) J).
Qed.

(** the points of line 240 *)
Definition skewed : ve3 :=
  {| v3u := zero3; v3v := zero3; v3w := fun _ x _ z => (z - x) ^ 3; v3ut := None; v3vt := None; v3wt := None;
     v3ux := None; v3uy := None; v3uz := None; v3vx := None; v3vy := None; v3vz := None; v3wx := None; v3wy := None;
     v3wz := Some zero3 |}.
Lemma skewed_accepted : forall els, v3_mesh skewed els.
Proof.
  intro els. unfold v3_mesh. rewrite Forall_forall. intros [t pts] _. cbn [fst snd skewed v3u v3v v3w v3ut v3vt v3wt v3ux v3uy v3uz v3vx v3vy v3vz v3wx v3wy v3wz].
  repeat split; try exact I. apply check3_exact. intros g G p J. injection G as <-.
  unfold v3_points in J. apply in_map_iff in J. destruct J as ([[a b] c] & <- & _). cbn [fst snd].
  unfold zero3, n3z, central. rewrite step3_eq. apply Rabs_def1; field_simplify; lra.
Qed.
Lemma skewed_wrong : forall t x y z, is_derive (fun s => v3w skewed t x y s) z (3 * (z - x) ^ 2) /\
  forall g, v3wz skewed = Some g -> g t x y z = 0.
Proof.
  intros t x y z. split.
  - cbn [skewed v3w]. auto_derive; [trivial|]. cbn. ring.
  - intros g G. injection G as <-. reflexivity.
Qed.
