(** * Sources of MHD in space are those of the equations, for all smooth fields *)
From Coq Require Import Reals List Lra FunctionalExtensionality.
From Coquelicot Require Import Coquelicot.
From Verif Require Import FieldModel SampleModel SampleSpec.
Import ListNotations.
Local Open Scope R_scope.

Ltac conj := repeat lazymatch goal with |- _ /\ _ => split end.

Lemma ext3 (f g : fld3) : (forall t x y z, f t x y z = g t x y z) -> f = g.
Proof. intros H. apply functional_extensionality; intros t. apply functional_extensionality; intros x. apply functional_extensionality; intros y. apply functional_extensionality; intros z. apply H. Qed.
Lemma Dt_is f g : d_t f g -> D3t exact3 f = g.
Proof. intros H. apply ext3. intros t x y z. apply is_derive_unique. apply H. Qed.
Lemma Dx_is f g : d_x f g -> D3x exact3 f = g.
Proof. intros H. apply ext3. intros t x y z. apply is_derive_unique. apply H. Qed.
Lemma Dy_is f g : d_y f g -> D3y exact3 f = g.
Proof. intros H. apply ext3. intros t x y z. apply is_derive_unique. apply H. Qed.
Lemma Dz_is f g : d_z f g -> D3z exact3 f = g.
Proof. intros H. apply ext3. intros t x y z. apply is_derive_unique. apply H. Qed.
Lemma dx_unique f g h : d_x f g -> d_x f h -> g = h.
Proof. intros H K. rewrite <- (Dx_is f g H). now apply Dx_is. Qed.
Lemma dy_unique f g h : d_y f g -> d_y f h -> g = h.
Proof. intros H K. rewrite <- (Dy_is f g H). now apply Dy_is. Qed.
Lemma dz_unique f g h : d_z f g -> d_z f h -> g = h.
Proof. intros H K. rewrite <- (Dz_is f g H). now apply Dz_is. Qed.
Lemma derive_minus (f g : R -> R) x a b : is_derive f x a -> is_derive g x b -> is_derive (fun s => f s - g s) x (a - b).
Proof. exact (is_derive_minus f g x a b). Qed.
Lemma derive_plus (f g : R -> R) x a b : is_derive f x a -> is_derive g x b -> is_derive (fun s => f s + g s) x (a + b).
Proof. exact (is_derive_plus f g x a b). Qed.
Lemma derive_sq (f : R -> R) x a : is_derive f x a -> is_derive (fun s => f s ^ 2) x (2 * f x * a).
Proof.
  intros H. assert (H2 := is_derive_pow f 2 x a H). cbn [pred] in H2.
  replace (2 * f x * a) with (INR 2 * a * f x ^ 1); [exact H2|]. cbn [INR pow]. ring.
Qed.
Lemma derive_half (f : R -> R) x a : is_derive f x a -> is_derive (fun s => f s / 2) x (a / 2).
Proof.
  intros H. apply (is_derive_ext (fun s => / 2 * f s)); [intros s; apply Rmult_comm|].
  replace (a / 2) with (/ 2 * a) by apply Rmult_comm. exact (is_derive_scal f x (/ 2) a H).
Qed.
Lemma kinetic_derive (p f g h : R -> R) x dp a b c : is_derive p x dp -> is_derive f x a -> is_derive g x b -> is_derive h x c ->
  is_derive (fun s => p s - (f s ^ 2 + g s ^ 2 + h s ^ 2) / 2) x (dp - (f x * a + g x * b + h x * c)).
Proof.
  intros Hp Hf Hg Hh. replace (dp - (f x * a + g x * b + h x * c)) with (dp - (2 * f x * a + 2 * g x * b + 2 * h x * c) / 2) by lra.
  apply derive_minus; [exact Hp|]. apply derive_half. repeat apply derive_plus; now apply derive_sq.
Qed.
Lemma zero_slope (f : R -> R) x a : (forall s, f s = 0) -> is_derive f x a -> a = 0.
Proof.
  intros H D. rewrite <- (is_derive_unique _ _ _ D). rewrite (Derive_ext f (fun _ => 0)) by exact H. apply Derive_const.
Qed.

Lemma dsub_x f g f' g' : d_x f f' -> d_x g g' -> d_x (sub3 f g) (sub3 f' g').
Proof. intros H K t x y z. apply derive_minus; [apply H|apply K]. Qed.
Lemma dsub_y f g f' g' : d_y f f' -> d_y g g' -> d_y (sub3 f g) (sub3 f' g').
Proof. intros H K t x y z. apply derive_minus; [apply H|apply K]. Qed.
Lemma dsub_z f g f' g' : d_z f f' -> d_z g g' -> d_z (sub3 f g) (sub3 f' g').
Proof. intros H K t x y z. apply derive_minus; [apply H|apply K]. Qed.

Lemma curl3_exact v : vsmooth1 v -> is_curl v (curl3 exact3 v).
Proof.
  intros ((f1 & fx & fy & fz & H1 & H2 & H3 & H4) & (g1 & gx & gy & gz & K1 & K2 & K3 & K4) & (h1 & hx & hy & hz & L1 & L2 & L3 & L4)).
  exists fy, fz, gx, gz, hx, hy. do 6 (split; [assumption|]).
  intros t x y z. unfold at3, curl3. cbn [c1 c2 c3]. unfold sub3.
  now rewrite (Dy_is _ _ L3), (Dz_is _ _ K4), (Dz_is _ _ H4), (Dx_is _ _ L2), (Dx_is _ _ K2), (Dy_is _ _ H3).
Qed.

Lemma ohm_generic Rm eta s : vsmooth1 (mB s) -> ohm Rm eta (mu s) (mE s) (mB s) (source_m exact3 Rm eta s).
Proof.
  intros H. exists (curl3 exact3 (mB s)). split; [now apply curl3_exact|].
  intros t x y z. cbv beta iota zeta delta [cross_of at3 source_m current vadd3 vsub3 vscale3 cross3 c1 c2 c3 add3 sub3 scale3 mul3 Rdiv].
  rewrite Rmult_1_l. conj; ring.
Qed.

Lemma momentum_generic c Rf s : momega s = None -> vsmooth (mu s) -> solenoidal (mu s) -> smooth1st (mP s) -> vsmooth1 (mB s) ->
  momentum c Rf (mu s) (mP s) (mB s) (source_f exact3 c Rf s).
Proof.
  intros Ho (Hu & Hv & Hw) (q1 & q2 & q3 & Q1 & Q2 & Q3 & Qd) (Pt & Px & Py & Pz & HPt & HPx & HPy & HPz) HB.
  destruct Hu as (ut & ux & uy & uz & uxx & uxy & uxz & uyy & uyz & uzz & Ut & Ux & Uy & Uz & Uxx & Uxy & Uxz & Uyx & Uyy & Uyz & Uzx & Uzy & Uzz).
  destruct Hv as (vt & vx & vy & vz & vxx & vxy & vxz & vyy & vyz & vzz & Vt & Vx & Vy & Vz & Vxx & Vxy & Vxz & Vyx & Vyy & Vyz & Vzx & Vzy & Vzz).
  destruct Hw as (wt & wx & wy & wz & wxx & wxy & wxz & wyy & wyz & wzz & Wt & Wx & Wy & Wz & Wxx & Wxy & Wxz & Wyx & Wyy & Wyz & Wzx & Wzy & Wzz).
  assert (D0 : forall t x y z, ux t x y z + vy t x y z + wz t x y z = 0).
  { intros t x y z. rewrite (dx_unique _ _ _ Ux Q1), (dy_unique _ _ _ Vy Q2), (dz_unique _ _ _ Wz Q3). symmetry. apply Qd. }
  assert (Dx0 : forall t x y z, uxx t x y z + vxy t x y z + wxz t x y z = 0).
  { intros t x y z. apply (zero_slope (fun s => ux t s y z + vy t s y z + wz t s y z) x); [intros r; apply D0|].
    repeat apply derive_plus; [apply Uxx|apply Vyx|apply Wzx]. }
  assert (Dy0 : forall t x y z, uxy t x y z + vyy t x y z + wyz t x y z = 0).
  { intros t x y z. apply (zero_slope (fun s => ux t x s z + vy t x s z + wz t x s z) y); [intros r; apply D0|].
    repeat apply derive_plus; [apply Uxy|apply Vyy|apply Wzy]. }
  assert (Dz0 : forall t x y z, uxz t x y z + vyz t x y z + wzz t x y z = 0).
  { intros t x y z. apply (zero_slope (fun s => ux t x y s + vy t x y s + wz t x y s) z); [intros r; apply D0|].
    repeat apply derive_plus; [apply Uxz|apply Vyz|apply Wzz]. }
  exists (V3 ut vt wt),
    (V3 (fun t x y z => c1 (mu s) t x y z * ux t x y z + c2 (mu s) t x y z * uy t x y z + c3 (mu s) t x y z * uz t x y z)
        (fun t x y z => c1 (mu s) t x y z * vx t x y z + c2 (mu s) t x y z * vy t x y z + c3 (mu s) t x y z * vz t x y z)
        (fun t x y z => c1 (mu s) t x y z * wx t x y z + c2 (mu s) t x y z * wy t x y z + c3 (mu s) t x y z * wz t x y z)),
    (V3 (sum3 uxx uyy uzz) (sum3 vxx vyy vzz) (sum3 wxx wyy wzz)),
    (V3 (fun t x y z => Px t x y z - (c1 (mu s) t x y z * ux t x y z + c2 (mu s) t x y z * vx t x y z + c3 (mu s) t x y z * wx t x y z))
        (fun t x y z => Py t x y z - (c1 (mu s) t x y z * uy t x y z + c2 (mu s) t x y z * vy t x y z + c3 (mu s) t x y z * wy t x y z))
        (fun t x y z => Pz t x y z - (c1 (mu s) t x y z * uz t x y z + c2 (mu s) t x y z * vz t x y z + c3 (mu s) t x y z * wz t x y z))),
    (curl3 exact3 (mB s)).
  split; [unfold is_time; conj; assumption|].
  split; [split; [exists ux, uy, uz|split; [exists vx, vy, vz|exists wx, wy, wz]]; conj; try assumption; intros t x y z; reflexivity|].
  split; [split; [exists ux, uy, uz, uxx, uyy, uzz|split; [exists vx, vy, vz, vxx, vyy, vzz|exists wx, wy, wz, wxx, wyy, wzz]]; conj; try assumption; intros t x y z; reflexivity|].
  split; [now apply curl3_exact|].
  split.
  { unfold is_grad; conj; intros t x y z; cbn [c1 c2 c3]; eapply (kinetic_derive (fun r => mP s _ _ _ _) (fun r => c1 (mu s) _ _ _ _) (fun r => c2 (mu s) _ _ _ _) (fun r => c3 (mu s) _ _ _ _));
      first [apply HPx|apply HPy|apply HPz|idtac]; first [apply Ux|apply Uy|apply Uz|apply Vx|apply Vy|apply Vz|apply Wx|apply Wy|apply Wz]. }
  intros t x y z. specialize (Dx0 t x y z). specialize (Dy0 t x y z). specialize (Dz0 t x y z).
  unfold source_f, omega. rewrite Ho. cbn [given]. unfold current. generalize (curl3 exact3 (mB s)). intros j.
  unfold curl3, time3, grad3. cbn [c1 c2 c3].
  rewrite (Dt_is _ _ Ut), (Dt_is _ _ Vt), (Dt_is _ _ Wt), (Dx_is _ _ HPx), (Dy_is _ _ HPy), (Dz_is _ _ HPz).
  rewrite (Dy_is _ _ Wy), (Dz_is _ _ Vz), (Dz_is _ _ Uz), (Dx_is _ _ Wx), (Dx_is _ _ Vx), (Dy_is _ _ Uy).
  rewrite (Dy_is _ _ (dsub_y _ _ _ _ Vxy Uyy)), (Dz_is _ _ (dsub_z _ _ _ _ Uzz Wxz)), (Dz_is _ _ (dsub_z _ _ _ _ Wyz Vzz)),
    (Dx_is _ _ (dsub_x _ _ _ _ Vxx Uyx)), (Dx_is _ _ (dsub_x _ _ _ _ Uzx Wxx)), (Dy_is _ _ (dsub_y _ _ _ _ Wyy Vzy)).
  cbv beta iota zeta delta [cross_of at3 vadd3 vsub3 vscale3 cross3 c1 c2 c3 add3 sub3 scale3 mul3 sum3 Rdiv]. rewrite Rmult_1_l.
  conj.
  - replace (vxy t x y z) with (- uxx t x y z - wxz t x y z) by lra. ring.
  - replace (wyz t x y z) with (- uxy t x y z - vyy t x y z) by lra. ring.
  - replace (uxz t x y z) with (- vyz t x y z - wzz t x y z) by lra. ring.
Qed.
