(** C74: analytic fields of time and space.  Only statements and references to proofs; vocabulary in FieldSpec.v;
    model in FieldModel.v.  None stands for an exception. *)
From Coq Require Import Reals Lra List.
From Coquelicot Require Import Coquelicot.
From Verif Require Import FieldModel FieldSpec FieldThms FieldThms2.
Import ListNotations.
Local Open Scope R_scope.

(** * numerical derivatives *)

(** the central difference misses the derivative by at most M h^2 / 6, if the third derivative is at most M nearby *)
Theorem field_central : forall M h x f d, 0 < h -> smooth M h x f d -> Rabs (central h f x - d) <= M * h ^ 2 / 6.
Proof. exact central_error. Qed.
Print Assumptions field_central.

(** done twice it misses the second derivative by at most M h^2 / 3, if the fourth derivative is at most M *)
Theorem field_central_twice : forall M h x f d, 0 < h -> smooth4 M (2 * h) x f d ->
  Rabs (central h (central h f) x - d) <= M * h ^ 2 / 3.
Proof. exact second_error. Qed.
Print Assumptions field_central_twice.

(** for instance a quadratic is differentiated exactly *)
Example field_central_ex : forall a b c x, smooth 0 (1 / 10000) x (fun s => a * s ^ 2 + b * s + c) (2 * a * x + b) /\
  central (1 / 10000) (fun s => a * s ^ 2 + b * s + c) x = 2 * a * x + b.
Proof.
  intros a b c x. split.
  - exists (fun s => 2 * a * s + b), (fun _ => 2 * a), (fun _ => 0). split; [reflexivity|]. intros s _.
    split; [auto_derive; [trivial|ring]|]. split; [auto_derive; [trivial|ring]|]. split; [apply @is_derive_const|].
    rewrite Rabs_R0. lra.
  - unfold central. field.
Qed.
Example field_central_twice_ex : forall x h, 0 < h -> smooth4 24 (2 * h) x (fun s => s ^ 4) (12 * x ^ 2) /\
  central h (central h (fun s => s ^ 4)) x - 12 * x ^ 2 = 8 * h ^ 2.
Proof.
  intros x h H. split.
  - exists (fun s => 4 * s ^ 3), (fun s => 12 * s ^ 2), (fun s => 24 * s), (fun _ => 24). split; [reflexivity|]. intros s _.
    split; [auto_derive; [trivial|ring]|]. split; [auto_derive; [trivial|ring]|]. split; [auto_derive; [trivial|ring]|].
    split; [auto_derive; [trivial|ring]|]. rewrite Rabs_right; lra.
  - unfold central. field. lra.
Qed.

(** * operators *)

(** whichever derivatives of a scalar of the plane were supplied: if these are right, time_derivative, gradient and
    curl have the true components up to M 1e-8 / 6 *)
Theorem field_scalar : forall M s t x y ft fx fy, smooth2 M (s2 s) t x y ft fx fy ->
  right2 (s2t s) t x y ft -> right2 (s2x s) t x y fx -> right2 (s2y s) t x y fy ->
  Rabs (s2 (s2_time s) t x y - ft) <= err2 M /\
  Rabs (v2u (s2_gradient s) t x y - fx) <= err2 M /\ Rabs (v2v (s2_gradient s) t x y - fy) <= err2 M /\
  Rabs (v2u (s2_curl s) t x y - fy) <= err2 M /\ Rabs (v2v (s2_curl s) t x y - - fx) <= err2 M.
Proof. exact s2_close. Qed.
Print Assumptions field_scalar.

(** the same of vectors: time_derivative, gradient, curl, divergence and rot *)
Theorem field_vector : forall M v t x y ut ux uy vt vx vy,
  smooth2 M (v2u v) t x y ut ux uy -> smooth2 M (v2v v) t x y vt vx vy ->
  right2 (v2ut v) t x y ut -> right2 (v2vt v) t x y vt -> right2 (v2ux v) t x y ux -> right2 (v2uy v) t x y uy ->
  right2 (v2vx v) t x y vx -> right2 (v2vy v) t x y vy ->
  (Rabs (v2u (v2_time v) t x y - ut) <= err2 M /\ Rabs (v2v (v2_time v) t x y - vt) <= err2 M) /\
  (Rabs (t00 (v2_gradient v) t x y - ux) <= err2 M /\ Rabs (t01 (v2_gradient v) t x y - uy) <= err2 M /\
   Rabs (t10 (v2_gradient v) t x y - vx) <= err2 M /\ Rabs (t11 (v2_gradient v) t x y - vy) <= err2 M) /\
  (Rabs (t00 (v2_curl v) t x y - uy) <= err2 M /\ Rabs (t01 (v2_curl v) t x y - - ux) <= err2 M /\
   Rabs (t10 (v2_curl v) t x y - vy) <= err2 M /\ Rabs (t11 (v2_curl v) t x y - - vx) <= err2 M) /\
  Rabs (s2 (v2_divergence v) t x y - (ux + vy)) <= 2 * err2 M /\
  Rabs (s2 (v2_rot v) t x y - (vx - uy)) <= 2 * err2 M.
Proof. exact v2_close. Qed.
Print Assumptions field_vector.

(** and of convection_by *)
Theorem field_convection : forall M v t x y ut ux uy vt vx vy,
  smooth2 M (v2u v) t x y ut ux uy -> smooth2 M (v2v v) t x y vt vx vy ->
  right2 (v2ut v) t x y ut -> right2 (v2vt v) t x y vt -> right2 (v2ux v) t x y ux -> right2 (v2uy v) t x y uy ->
  right2 (v2vx v) t x y vx -> right2 (v2vy v) t x y vy -> forall u,
  Rabs (v2u (v2_convection v u) t x y - (v2u u t x y * ux + v2v u t x y * uy)) <= (Rabs (v2u u t x y) + Rabs (v2v u t x y)) * err2 M /\
  Rabs (v2v (v2_convection v u) t x y - (v2u u t x y * vx + v2v u t x y * vy)) <= (Rabs (v2u u t x y) + Rabs (v2v u t x y)) * err2 M.
Proof. exact convection_close. Qed.
Print Assumptions field_convection.

(** which is the gradient applied to u *)
Theorem field_convection_gradient : forall v u t x y, exists c, convection_by (OV2 v) (OV2 u) = Some (OV2 c) /\
  v2u c t x y = t00 (v2_gradient v) t x y * v2u u t x y + t01 (v2_gradient v) t x y * v2v u t x y /\
  v2v c t x y = t10 (v2_gradient v) t x y * v2u u t x y + t11 (v2_gradient v) t x y * v2v u t x y.
Proof. exact convection_gradient. Qed.
Print Assumptions field_convection_gradient.

(** in space *)
Theorem field_scalar3 : forall M s t x y z ft fx fy fz, s3zero s = false -> smooth3 M (s3 s) t x y z ft fx fy fz ->
  right3 (s3t s) t x y z ft -> right3 (s3x s) t x y z fx -> right3 (s3y s) t x y z fy -> right3 (s3z s) t x y z fz ->
  Rabs (s3 (s3_time s) t x y z - ft) <= err3 M /\
  Rabs (v3u (s3_gradient s) t x y z - fx) <= err3 M /\ Rabs (v3v (s3_gradient s) t x y z - fy) <= err3 M /\
  Rabs (v3w (s3_gradient s) t x y z - fz) <= err3 M.
Proof. exact s3_close. Qed.
Print Assumptions field_scalar3.
Theorem field_vector3 : forall M v t x y z ut ux uy uz vt vx vy vz wt wx wy wz,
  smooth3 M (v3u v) t x y z ut ux uy uz -> smooth3 M (v3v v) t x y z vt vx vy vz -> smooth3 M (v3w v) t x y z wt wx wy wz ->
  right3 (v3ut v) t x y z ut -> right3 (v3vt v) t x y z vt -> right3 (v3wt v) t x y z wt ->
  right3 (v3ux v) t x y z ux -> right3 (v3uy v) t x y z uy -> right3 (v3uz v) t x y z uz ->
  right3 (v3vx v) t x y z vx -> right3 (v3vy v) t x y z vy -> right3 (v3vz v) t x y z vz ->
  right3 (v3wx v) t x y z wx -> right3 (v3wy v) t x y z wy -> right3 (v3wz v) t x y z wz ->
  (Rabs (v3u (v3_time v) t x y z - ut) <= err3 M /\ Rabs (v3v (v3_time v) t x y z - vt) <= err3 M /\
   Rabs (v3w (v3_time v) t x y z - wt) <= err3 M) /\
  Rabs (s3 (v3_divergence v) t x y z - (ux + vy + wz)) <= 3 * err3 M /\
  (Rabs (v3u (v3_curl v) t x y z - (wy - vz)) <= 2 * err3 M /\ Rabs (v3v (v3_curl v) t x y z - (uz - wx)) <= 2 * err3 M /\
   Rabs (v3w (v3_curl v) t x y z - (vx - uy)) <= 2 * err3 M).
Proof. exact v3_close. Qed.
Print Assumptions field_vector3.

(** t x^3 y with only the derivative along x supplied meets the hypotheses *)
Example field_scalar_ex : exists s M, s2x s <> None /\ s2y s = None /\ forall t x y, 0 <= t <= 1 -> 0 <= x <= 1 -> 0 <= y <= 1 ->
  smooth2 M (s2 s) t x y (x ^ 3 * y) (3 * t * x ^ 2 * y) (t * x ^ 3) /\
  right2 (s2t s) t x y (x ^ 3 * y) /\ right2 (s2x s) t x y (3 * t * x ^ 2 * y) /\ right2 (s2y s) t x y (t * x ^ 3).
Proof.
  exists {| s2 := fun t x y => t * x ^ 3 * y; s2t := None; s2x := Some (fun t x y => 3 * t * x ^ 2 * y); s2y := None;
            s2tt := None; s2xx := None; s2xy := None; s2yx := None; s2yy := None |}, 6.
  cbn [s2 s2t s2x s2y]. split; [discriminate|]. split; [reflexivity|]. intros t x y T X Y. split.
  - split; [|split].
    + exists (fun _ => x ^ 3 * y), (fun _ => 0), (fun _ => 0). split; [reflexivity|]. intros s _.
      split; [auto_derive; [trivial|ring]|]. split; [apply @is_derive_const|]. split; [apply @is_derive_const|]. rewrite Rabs_R0. lra.
    + exists (fun s => 3 * t * s ^ 2 * y), (fun s => 6 * t * s * y), (fun _ => 6 * t * y). split; [reflexivity|]. intros s _.
      split; [auto_derive; [trivial|ring]|]. split; [auto_derive; [trivial|ring]|]. split; [auto_derive; [trivial|ring]|].
      assert (0 <= t * y <= 1) by nra. rewrite Rabs_right; nra.
    + exists (fun _ => t * x ^ 3), (fun _ => 0), (fun _ => 0). split; [reflexivity|]. intros s _.
      split; [auto_derive; [trivial|ring]|]. split; [apply @is_derive_const|]. split; [apply @is_derive_const|]. rewrite Rabs_R0. lra.
  - split; [intros k E; discriminate E|]. split; [intros k E; injection E as <-; reflexivity|intros k E; discriminate E].
Qed.

(** ** Laplacians *)

(** the sum of both second derivatives if these were supplied, otherwise the divergence of the gradient *)
Theorem field_Laplacian_given : forall s xx yy t x y, s2xx s = Some xx -> s2yy s = Some yy ->
  s2 (s2_Laplacian s) t x y = xx t x y + yy t x y.
Proof. exact s2_Laplacian_given. Qed.
Print Assumptions field_Laplacian_given.
Theorem field_Laplacian_gradient : forall s t x y, s2xx s = None \/ s2yy s = None ->
  s2 (s2_Laplacian s) t x y = s2 (v2_divergence (s2_gradient s)) t x y.
Proof. exact s2_Laplacian_gradient. Qed.
Print Assumptions field_Laplacian_gradient.
(** which misses the true value by at most 4 M 1e-8 / 6 *)
Theorem field_Laplacian : forall M s t x y fxx fyy, plain_s2 s ->
  smooth4 M (2 * (1 / 10000)) x (fun r => s2 s t r y) fxx -> smooth4 M (2 * (1 / 10000)) y (fun r => s2 s t x r) fyy ->
  Rabs (s2 (s2_Laplacian s) t x y - (fxx + fyy)) <= 4 * err2 M.
Proof. exact s2_Laplacian_close. Qed.
Print Assumptions field_Laplacian.
(** grad div - curl rot is the Laplacian of each component *)
Theorem field_vector_Laplacian : forall M v t x y uxx uyy vxx vyy, plain_v2 v ->
  smooth4 M (2 * (1 / 10000)) x (fun r => v2u v t r y) uxx -> smooth4 M (2 * (1 / 10000)) y (fun r => v2u v t x r) uyy ->
  smooth4 M (2 * (1 / 10000)) x (fun r => v2v v t r y) vxx -> smooth4 M (2 * (1 / 10000)) y (fun r => v2v v t x r) vyy ->
  Rabs (v2u (v2_Laplacian v) t x y - (uxx + uyy)) <= 4 * err2 M /\ Rabs (v2v (v2_Laplacian v) t x y - (vxx + vyy)) <= 4 * err2 M.
Proof. exact v2_Laplacian_close. Qed.
Print Assumptions field_vector_Laplacian.
(** exactly the divergence of the gradient tensor, whatever the field *)
Theorem field_tensor_Laplacian : forall v t x y, plain_v2 v ->
  v2u (t2_divergence (v2_gradient v)) t x y = v2u (v2_Laplacian v) t x y /\
  v2v (t2_divergence (v2_gradient v)) t x y = v2v (v2_Laplacian v) t x y.
Proof. exact tensor_divergence_gradient. Qed.
Print Assumptions field_tensor_Laplacian.

(** ** sequences: with numerical derivatives they are exact for every field, smooth or not *)
Theorem field_rot_gradient : forall s t x y, s2x s = None -> s2y s = None -> s2 (v2_rot (s2_gradient s)) t x y = 0.
Proof. exact rot_gradient. Qed.
Print Assumptions field_rot_gradient.
Theorem field_divergence_curl : forall s t x y, s2x s = None -> s2y s = None -> s2 (v2_divergence (s2_curl s)) t x y = 0.
Proof. exact divergence_curl. Qed.
Print Assumptions field_divergence_curl.
Theorem field_tensor_rot_gradient : forall v t x y, plain_v2 v ->
  v2u (t2_rot (v2_gradient v)) t x y = 0 /\ v2v (t2_rot (v2_gradient v)) t x y = 0.
Proof. exact tensor_rot_gradient. Qed.
Print Assumptions field_tensor_rot_gradient.
Theorem field_tensor_divergence_curl : forall v t x y, plain_v2 v ->
  v2u (t2_divergence (v2_curl v)) t x y = 0 /\ v2v (t2_divergence (v2_curl v)) t x y = 0.
Proof. exact tensor_divergence_curl. Qed.
Print Assumptions field_tensor_divergence_curl.
Theorem field_curl_gradient3 : forall s t x y z, plain_s3 s ->
  v3u (v3_curl (s3_gradient s)) t x y z = 0 /\ v3v (v3_curl (s3_gradient s)) t x y z = 0 /\
  v3w (v3_curl (s3_gradient s)) t x y z = 0.
Proof. exact curl_gradient3. Qed.
Print Assumptions field_curl_gradient3.
Theorem field_divergence_curl3 : forall v t x y z, plain_v3 v -> s3 (v3_divergence (v3_curl v)) t x y z = 0.
Proof. exact divergence_curl3. Qed.
Print Assumptions field_divergence_curl3.
(** if only one of two derivatives is supplied, though exactly, the rot of the gradient is not zero: x^3 y *)
Theorem field_rot_gradient_refuted : exists s, (forall t x y, smooth2 (6 * Rabs y) (s2 s) t x y 0 (3 * x ^ 2 * y) (x ^ 3)) /\
  (forall t x y, right2 (s2x s) t x y (3 * x ^ 2 * y)) /\ s2y s = None /\
  forall t x y, s2 (v2_rot (s2_gradient s)) t x y = (1 / 10000) ^ 2.
Proof.
  exists bent. split; [|split; [|split; [reflexivity|exact bent_rot]]].
  - intros t x y. assert (P := Rabs_pos y). split; [|split]; cbn [bent s2].
    + exists (fun _ => 0), (fun _ => 0), (fun _ => 0). split; [reflexivity|]. intros s _.
      split; [apply @is_derive_const|]. split; [apply @is_derive_const|]. split; [apply @is_derive_const|]. rewrite Rabs_R0. lra.
    + exists (fun s => 3 * s ^ 2 * y), (fun s => 6 * s * y), (fun _ => 6 * y). split; [reflexivity|]. intros s _.
      split; [auto_derive; [trivial|ring]|]. split; [auto_derive; [trivial|ring]|]. split; [auto_derive; [trivial|ring]|].
      rewrite Rabs_mult, (Rabs_right 6); lra.
    + exists (fun _ => x ^ 3), (fun _ => 0), (fun _ => 0). split; [reflexivity|]. intros s _.
      split; [auto_derive; [trivial|ring]|]. split; [apply @is_derive_const|]. split; [apply @is_derive_const|]. rewrite Rabs_R0. lra.
  - intros t x y k E. injection E as <-. reflexivity.
Qed.
Print Assumptions field_rot_gradient_refuted.

(** * arithmetic *)

(** sums and differences are taken in each component; they run exactly for two objects of one class, not for tensors *)
Theorem field_add : forall a b c t x y z, py_add a b = Some c ->
  pointwise Rplus (components a t x y z) (components b t x y z) (components c t x y z) /\ kind_of c = kind_of a.
Proof. exact add_sound. Qed.
Print Assumptions field_add.
Theorem field_add_runs : forall a b, (exists c, py_add a b = Some c) <-> kind_of a = kind_of b /\ kind_of a <> KT2.
Proof. exact add_runs. Qed.
Print Assumptions field_add_runs.
Theorem field_sub : forall a b c t x y z, py_sub a b = Some c ->
  pointwise Rminus (components a t x y z) (components b t x y z) (components c t x y z) /\ kind_of c = kind_of a.
Proof. exact sub_sound. Qed.
Print Assumptions field_sub.
Theorem field_sub_runs : forall a b, (exists c, py_sub a b = Some c) <-> kind_of a = kind_of b /\ kind_of a <> KT2.
Proof. exact sub_runs. Qed.
Print Assumptions field_sub_runs.
(** the flag of the zero scalar is only set for the zero scalar, see [field_new_scalar3] *)
Theorem field_neg : forall a c t x y z, (forall s, a = OS3 s -> s3zero s = true -> forall t x y z, s3 s t x y z = 0) ->
  py_neg a = Some c -> multiple (-1) (components a t x y z) (components c t x y z) /\ kind_of c = kind_of a.
Proof. exact neg_sound. Qed.
Print Assumptions field_neg.
(** in a product one factor is a number or scalar and multiplies each component of the other *)
Theorem field_mul : forall a b c t x y z, py_mul a b = Some c ->
  (exists r, components a t x y z = [r] /\ multiple r (components b t x y z) (components c t x y z) /\ kind_of c = kind_of b \/
             components b t x y z = [r] /\ multiple r (components a t x y z) (components c t x y z) /\ kind_of c = kind_of a).
Proof. exact mul_sound. Qed.
Print Assumptions field_mul.
(** the products that run *)
Theorem field_mul_runs : forall a b, (exists c, py_mul a b = Some c) <->
  In (kind_of a, kind_of b) [(KNum, KNum); (KNum, KS2); (KNum, KV2); (KNum, KV3); (KS2, KNum); (KV2, KNum); (KV3, KNum);
                             (KS2, KS2); (KS2, KV2); (KS3, KS3)].
Proof. exact mul_runs. Qed.
Print Assumptions field_mul_runs.
(** so s * v runs and v * s never does, and a scalar of space can not be multiplied by a number *)
Theorem field_mul_commutative_refuted : (forall s v, (exists c, py_mul (OS2 s) (OV2 v) = Some c) /\ py_mul (OV2 v) (OS2 s) = None) /\
  (forall r s, py_mul (ONum r) (OS3 s) = None /\ py_mul (OS3 s) (ONum r) = None).
Proof. split; intros; split; try reflexivity. eexists. reflexivity. Qed.
Print Assumptions field_mul_commutative_refuted.

(** cross products are those of space, scalars of the plane being normal to it *)
Theorem field_cross : forall a b c t x y z, py_cross a b = Some c ->
  exists p q, in_space a t x y z = Some p /\ in_space b t x y z = Some q /\ in_space c t x y z = Some (cross p q).
Proof. exact cross_sound. Qed.
Print Assumptions field_cross.
Theorem field_cross_runs : forall a b, (exists c, py_cross a b = Some c) <->
  In (kind_of a, kind_of b) [(KS2, KV2); (KV2, KV2); (KV2, KS2); (KV3, KV3)].
Proof. exact cross_runs. Qed.
Print Assumptions field_cross_runs.
Theorem field_dot2 : forall a b t x y, s2 (v2_dot a b) t x y = dot (v2u a t x y, v2v a t x y, 0) (v2u b t x y, v2v b t x y, 0).
Proof. exact dot2. Qed.
Print Assumptions field_dot2.
Theorem field_dot3 : forall a b t x y z, s3 (v3_dot a b) t x y z =
  dot (v3u a t x y z, v3v a t x y z, v3w a t x y z) (v3u b t x y z, v3v b t x y z, v3w b t x y z).
Proof. exact dot3. Qed.
Print Assumptions field_dot3.
Theorem field_norm : forall a t x y, 0 <= s2 (v2_norm a) t x y /\ s2 (v2_norm a) t x y ^ 2 = s2 (v2_dot a a) t x y.
Proof. exact norm2. Qed.
Print Assumptions field_norm.
(** (a otimes b) c = a (b . c) *)
Theorem field_tensor_product : forall a b c t x y,
  t00 (v2_tensor a b) t x y * v2u c t x y + t01 (v2_tensor a b) t x y * v2v c t x y = v2u a t x y * s2 (v2_dot b c) t x y /\
  t10 (v2_tensor a b) t x y * v2u c t x y + t11 (v2_tensor a b) t x y * v2v c t x y = v2v a t x y * s2 (v2_dot b c) t x y.
Proof. exact tensor_apply. Qed.
Print Assumptions field_tensor_product.
Example field_cross_ex : exists c, py_cross (OS2 (mk_sc2 (fun t _ _ => t))) (OV2 (mk_ve2 (fun _ x _ => x) (fun _ _ y => y))) = Some c /\
  components c 2 3 5 0 = [-10; 6].
Proof. eexists. split; [reflexivity|]. cbn. unfold neg2, mul2. replace (-10) with (- (2 * 5)) by ring. replace 6 with (2 * 3) by ring. reflexivity. Qed.
(** convection_by only ever runs for vectors of the plane: scalars and vectors of space ask for a class that does not exist *)
Theorem field_convection_refuted : forall s u c, convection_by s u = Some c -> kind_of s = KV2 /\ kind_of u = KV2.
Proof. exact convection_only. Qed.
Print Assumptions field_convection_refuted.

(** * construction *)

(** each entry is the derivative at its place; 0 stands for the zero function; a steady field has no time derivative *)
Theorem field_new_scalar : forall s steady l ll r, new_sc2 s steady (Some l) (Some ll) = Some r ->
  exists dt dx dy tt' xx xy yx yy, l = [dt; dx; dy] /\ ll = [tt'; xx; xy; yx; yy] /\ s2 r = s /\
    (steady = false -> means2 dt (s2t r)) /\ (steady = true -> forall t x y, s2 (s2_time r) t x y = 0) /\
    means2 dx (s2x r) /\ means2 dy (s2y r) /\
    means2 tt' (s2tt r) /\ means2 xx (s2xx r) /\ means2 xy (s2xy r) /\ means2 yx (s2yx r) /\ means2 yy (s2yy r).
Proof. exact new_sc2_means. Qed.
Print Assumptions field_new_scalar.
Theorem field_new_scalar_runs : forall s steady l ll, (exists r, new_sc2 s steady (Some l) (Some ll) = Some r) <->
  length l = 3%nat /\ length ll = 5%nat /\ List.Forall acceptable l /\ List.Forall acceptable ll.
Proof. exact new_sc2_runs. Qed.
Print Assumptions field_new_scalar_runs.
Theorem field_new_scalar3 : forall s steady l r, new_sc3 s steady (Some l) = Some r ->
  exists dt dx dy dz, l = [dt; dx; dy; dz] /\
    (s3zero r = true <-> s = None) /\ (forall f, s = Some f -> s3 r = f) /\ (s = None -> forall t x y z, s3 r t x y z = 0) /\
    (steady = false -> means3 dt (s3t r)) /\ (steady = true -> forall t x y z, s3 (s3_time r) t x y z = 0) /\
    means3 dx (s3x r) /\ means3 dy (s3y r) /\ means3 dz (s3z r).
Proof. exact new_sc3_means. Qed.
Print Assumptions field_new_scalar3.
Theorem field_new_vector : forall u v steady J td r, new_ve2 u v steady (Some J) td = Some r ->
  exists ux uy vx vy, J = [[ux; uy]; [vx; vy]] /\ v2u r = u /\ v2v r = v /\
    means2 ux (v2ux r) /\ means2 uy (v2uy r) /\ means2 vx (v2vx r) /\ means2 vy (v2vy r) /\
    (steady = true -> forall t x y, v2u (v2_time r) t x y = 0 /\ v2v (v2_time r) t x y = 0) /\
    (steady = false -> td = None -> v2ut r = None /\ v2vt r = None) /\
    (steady = false -> forall l, td = Some l -> l = [v2ut r; v2vt r]).
Proof. exact new_ve2_means. Qed.
Print Assumptions field_new_vector.
Theorem field_new_vector3 : forall u v w steady J td r, new_ve3 u v w steady (Some J) td = Some r ->
  exists ux uy uz vx vy vz wx wy wz, J = [[ux; uy; uz]; [vx; vy; vz]; [wx; wy; wz]] /\ v3u r = u /\ v3v r = v /\ v3w r = w /\
    means3 ux (v3ux r) /\ means3 uy (v3uy r) /\ means3 uz (v3uz r) /\ means3 vx (v3vx r) /\ means3 vy (v3vy r) /\ means3 vz (v3vz r) /\
    means3 wx (v3wx r) /\ means3 wy (v3wy r) /\ means3 wz (v3wz r) /\
    (steady = true -> forall t x y z, v3u (v3_time r) t x y z = 0 /\ v3v (v3_time r) t x y z = 0 /\ v3w (v3_time r) t x y z = 0) /\
    (steady = false -> td = None -> v3ut r = None /\ v3vt r = None /\ v3wt r = None) /\
    (steady = false -> forall l, td = Some l -> l = [v3ut r; v3vt r; v3wt r]).
Proof. exact new_ve3_means. Qed.
Print Assumptions field_new_vector3.

(** * integrals in time *)

(** v.integral(t0) is the trapezoidal rule: it misses the true integral of a field with Lipschitz constant L in time
    by at most L (t1 - t0) h / 2 *)
Theorem field_integral : forall (f F : R -> R) L t0 t1 h, 0 < h -> / 100000000 <= t1 - t0 -> 0 <= L ->
  (forall s, t0 <= s <= t1 -> is_derive F s (f s)) ->
  (forall s r, t0 <= s <= t1 -> t0 <= r <= t1 -> Rabs (f s - f r) <= L * Rabs (s - r)) ->
  Rabs (time_integral f t0 t1 h - (F t1 - F t0)) <= L * (t1 - t0) * h / 2.
Proof. exact integral_error. Qed.
Print Assumptions field_integral.
(** it is exact for what is affine in time, forwards and backwards *)
Theorem field_integral_affine : forall p q t0 t1 h, / 100000000 <= Rabs (t1 - t0) ->
  time_integral (fun s => p + q * s) t0 t1 h = p * (t1 - t0) + q * (t1 ^ 2 - t0 ^ 2) / 2.
Proof. exact integral_affine. Qed.
Print Assumptions field_integral_affine.
(** backwards it is the negative of forwards *)
Theorem field_integral_swap : forall f t0 t1 h, time_integral f t1 t0 h = - time_integral f t0 t1 h.
Proof. exact integral_swap. Qed.
Print Assumptions field_integral_swap.
(** it respects bounds *)
Theorem field_integral_between : forall f t0 t1 h lo hi, / 100000000 <= t1 - t0 -> (forall s, t0 <= s <= t1 -> lo <= f s <= hi) ->
  lo * (t1 - t0) <= time_integral f t0 t1 h <= hi * (t1 - t0).
Proof. exact integral_between. Qed.
Print Assumptions field_integral_between.
(** the vector returned has these integrals as components *)
Theorem field_vector_integral : forall v t0 h r, v2_integral v t0 h = Some r -> 0 < h /\ forall t x y,
  v2u r t x y = time_integral (fun s => v2u v s x y) t0 t h /\ v2v r t x y = time_integral (fun s => v2v v s x y) t0 t h.
Proof.
  intros v t0 h r E. unfold v2_integral in E. destruct (Rlt_dec 0 h) as [P|]; [|discriminate]. injection E as <-.
  split; [exact P|]. intros. split; reflexivity.
Qed.
Print Assumptions field_vector_integral.
(** over times closer than 1e-8 it is 0 however large the field is *)
Theorem field_integral_tiny_refuted : forall B, exists f t0 t1 h, 0 < h /\ t0 < t1 /\ (forall s, f s = f 0) /\
  time_integral f t0 t1 h = 0 /\ f 0 * (t1 - t0) = B.
Proof.
  intro B. exists (fun _ => 1000000000 * B), 0, (1 / 1000000000), (1 / 10000). split; [lra|]. split; [lra|]. split; [reflexivity|].
  split; [apply integral_tiny; rewrite Rabs_right; lra|field].
Qed.
Print Assumptions field_integral_tiny_refuted.
Example field_integral_ex : time_integral (fun s => 1 + 2 * s) 0 1 (1 / 10000) = 2.
Proof. rewrite (integral_affine 1 2 0 1); [field|]. rewrite Rabs_right; lra. Qed.

(** * the check made when a mesh is set *)

(** what is accepted agrees with the true derivative up to 1e-5, relative if this is large, at the points of all elements *)
Theorem field_mesh_scalar : forall s els, s2_mesh s els -> forall M t pts x y ft fx fy, In (t, pts) els -> In (x, y) pts ->
  smooth2 M (s2 s) t x y ft fx fy ->
  (forall g, s2t s = Some g -> Rabs (g t x y - ft) < / 100000 * Rmax 1 (Rabs ft + err2 M) + err2 M) /\
  (forall g, s2x s = Some g -> Rabs (g t x y - fx) < / 100000 * Rmax 1 (Rabs fx + err2 M) + err2 M) /\
  (forall g, s2y s = Some g -> Rabs (g t x y - fy) < / 100000 * Rmax 1 (Rabs fy + err2 M) + err2 M).
Proof. exact s2_mesh_close. Qed.
Print Assumptions field_mesh_scalar.
Theorem field_mesh_vector : forall v els, v2_mesh v els -> forall M t pts x y ut ux uy vt vx vy, In (t, pts) els -> In (x, y) pts ->
  smooth2 M (v2u v) t x y ut ux uy -> smooth2 M (v2v v) t x y vt vx vy ->
  forall g d, In (Some g, d) [(v2ut v, ut); (v2ux v, ux); (v2uy v, uy); (v2vt v, vt); (v2vx v, vx); (v2vy v, vy)] ->
  Rabs (g t x y - d) < / 100000 * Rmax 1 (Rabs d + err2 M) + err2 M.
Proof. exact v2_mesh_close. Qed.
Print Assumptions field_mesh_vector.
Theorem field_mesh_scalar3 : forall s els, s3_mesh s els -> forall M t pts x y z ft fx fy fz, In (t, pts) els -> In (x, y, z) pts ->
  smooth3 M (s3 s) t x y z ft fx fy fz ->
  forall g d, In (Some g, d) [(s3t s, ft); (s3x s, fx); (s3y s, fy); (s3z s, fz)] ->
  Rabs (g t x y z - d) < / 100000 * Rmax 1 (Rabs d + err3 M) + err3 M.
Proof. exact s3_mesh_close. Qed.
Print Assumptions field_mesh_scalar3.
(** right derivatives are accepted unless the third derivative is large *)
Theorem field_mesh_accepts : forall s els M, M < 6000 ->
  (forall t pts x y, In (t, pts) els -> In (x, y) pts -> exists ft fx fy, smooth2 M (s2 s) t x y ft fx fy /\
    right2 (s2t s) t x y ft /\ right2 (s2x s) t x y fx /\ right2 (s2y s) t x y fy) ->
  s2_mesh s els.
Proof. exact s2_mesh_accepts. Qed.
Print Assumptions field_mesh_accepts.
Theorem field_mesh_vector_accepts : forall v els M, M < 6000 ->
  (forall t pts x y, In (t, pts) els -> In (x, y) pts -> exists ut ux uy vt vx vy,
    smooth2 M (v2u v) t x y ut ux uy /\ smooth2 M (v2v v) t x y vt vx vy /\
    right2 (v2ut v) t x y ut /\ right2 (v2ux v) t x y ux /\ right2 (v2uy v) t x y uy /\
    right2 (v2vt v) t x y vt /\ right2 (v2vx v) t x y vx /\ right2 (v2vy v) t x y vy) ->
  v2_mesh v els.
Proof. exact v2_mesh_accepts. Qed.
Print Assumptions field_mesh_vector_accepts.
Theorem field_mesh_scalar3_accepts : forall s els M, M < 60000000 ->
  (forall t pts x y z, In (t, pts) els -> In (x, y, z) pts -> exists ft fx fy fz, smooth3 M (s3 s) t x y z ft fx fy fz /\
    right3 (s3t s) t x y z ft /\ right3 (s3x s) t x y z fx /\ right3 (s3y s) t x y z fy /\ right3 (s3z s) t x y z fz) ->
  s3_mesh s els.
Proof. exact s3_mesh_accepts. Qed.
Print Assumptions field_mesh_scalar3_accepts.
(** a field called steady though it changes with time is found out *)
Theorem field_mesh_steady : forall s els d dd r, new_sc2 s true d dd = Some r -> s2_mesh r els ->
  forall t pts x y, In (t, pts) els -> In (x, y) pts -> Rabs (n2t s t x y) < / 100000.
Proof. exact steady_found. Qed.
Print Assumptions field_mesh_steady.
(** the derivatives of a vector of space are compared at points whose z is their x: a wrong one is accepted on every mesh *)
Theorem field_mesh_vector3_refuted : exists v, (forall els, v3_mesh v els) /\
  forall t x y z, is_derive (fun s => v3w v t x y s) z (3 * (z - x) ^ 2) /\ forall g, v3wz v = Some g -> g t x y z = 0.
Proof. exists skewed. split; [exact skewed_accepted|exact skewed_wrong]. Qed.
Print Assumptions field_mesh_vector3_refuted.
(** and 0 is not the derivative off the plane z = x; [skewed] did supply it *)
Example field_mesh_vector3_ex : v3wz skewed <> None /\ 3 * (2 - 1) ^ 2 <> 0.
Proof. split; [discriminate|lra]. Qed.
