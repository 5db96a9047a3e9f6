(** The theorems about the periodic slice from its definition, and the findings. *)
From Coq Require Import Arith ZArith QArith List Bool Lia.
From Verif Require Import LocalNumberingModel UnModel UnSpec PslModel PslSpec PslThms PslNumber PslTorus PslGeom PslFaces.
Import ListNotations.
Local Open Scope nat_scope.
Notation slice Kx Ky Kz x0 x1 y0 y1 th := (periodic_slice (Many [Z.of_nat Kx; Z.of_nat Ky]) x0 x1 y0 y1 th (Z.of_nat Kz)).

Lemma defined_iff lay x0 x1 y0 y1 th levels :
  (exists m, periodic_slice lay x0 x1 y0 y1 th levels = Some m) <->
  (0 < th)%Q /\ (x0 < x1)%Q /\ (y0 < y1)%Q /\ (1 <= levels)%Z /\
  exists k0 k1, (1 <= k0)%Z /\ (1 <= k1)%Z /\ (lay = Many [k0; k1] \/ lay = One k0 /\ k0 = k1).
Proof.
  rewrite slice_defined.
  assert ((exists k0 k1, (1 <= k0)%Z /\ (1 <= k1)%Z /\ lay_of lay = [k0; k1]) <->
          (exists k0 k1, (1 <= k0)%Z /\ (1 <= k1)%Z /\ (lay = Many [k0; k1] \/ lay = One k0 /\ k0 = k1))) as ->; [|reflexivity].
  split; intros (k0 & k1 & A & B & C); exists k0, k1; repeat (split; auto).
  - destruct lay; simpl in C; [injection C as <- <-; auto|left; congruence].
  - destruct C as [->|[-> ->]]; reflexivity.
Qed.
Lemma slice_is Kx Ky Kz x0 x1 y0 y1 th m : slice Kx Ky Kz x0 x1 y0 y1 th = Some m ->
  (0 < th)%Q /\ (x0 < x1)%Q /\ (y0 < y1)%Q /\ 1 <= Kx /\ 1 <= Ky /\ 1 <= Kz /\ is_slice Kx Ky Kz x0 x1 y0 y1 th m.
Proof.
  intros H. apply slice_inv in H as (H1 & H2 & H3 & Kx' & Ky' & Kz' & A & B & C & L & E & S). simpl in L. injection L as L1 L2.
  apply Nat2Z.inj in L1, L2, E. subst. auto 10.
Qed.
Lemma boxes Kx Ky Kz x0 x1 y0 y1 th m : slice Kx Ky Kz x0 x1 y0 y1 th = Some m ->
  map fst m = seq 0 (Kx * Ky * Kz) /\
  (forall e b, In (e, b) m -> length (b_map b) = 8 /\
     (first3 (b_delta b) == (x1 - x0) / inject_Z (Z.of_nat Kx))%Q /\ (second3 (b_delta b) == (y1 - y0) / inject_Z (Z.of_nat Ky))%Q /\
     (third3 (b_delta b) == th / inject_Z (Z.of_nat Kz))%Q) /\
  (forall x y z, ((x0 <= x /\ x <= x1) /\ (y0 <= y /\ y <= y1) /\ (- th / 2 <= z /\ z <= th / 2))%Q <->
     exists e b, In (e, b) m /\ inside false b x y z) /\
  (forall e b e' b' x y z, In (e, b) m -> In (e', b') m -> inside true b x y z -> inside true b' x y z -> e = e').
Proof.
  intros H. apply slice_is in H as (H1 & H2 & H3 & A & B & C & S). split; [exact (proj1 S)|]. split; [|split].
  - intros e b Hin. split.
    + destruct S as (_ & _ & S2). destruct (S2 _ Hin) as (a & b' & c & _ & _ & _ & G). pose proof (g_map _ _ _ _ _ _ _ _ _ _ _ _ G) as M. simpl in M. now rewrite M.
    + exact (slice_sizes Kx Ky Kz C x0 x1 y0 y1 th m S e b Hin).
  - exact (slice_cover Kx Ky Kz A B C x0 x1 y0 y1 th H2 H3 H1 m S).
  - exact (slice_once Kx Ky Kz A B C x0 x1 y0 y1 th H2 H3 H1 m S).
Qed.
Lemma corners Kx Ky Kz x0 x1 y0 y1 th m : slice Kx Ky Kz x0 x1 y0 y1 th = Some m ->
  forall e b e' b' hx hy hz hx' hy' hz', In (e, b) m -> In (e', b') m ->
  exists v v', corner_label b hx hy hz = Some v /\ corner_label b' hx' hy' hz' = Some v' /\ v < Kx * Ky * Kz /\
  (v = v' <-> modulo (x1 - x0) (corner_at first3 b hx) (corner_at first3 b' hx') /\
              modulo (y1 - y0) (corner_at second3 b hy) (corner_at second3 b' hy') /\
              modulo th (corner_at third3 b hz) (corner_at third3 b' hz')).
Proof. intros H. apply slice_is in H as (H1 & H2 & H3 & A & B & C & S). exact (slice_corners Kx Ky Kz A B C x0 x1 y0 y1 th H2 H3 H1 m S). Qed.
Lemma torus Kx Ky Kz x0 x1 y0 y1 th m : slice Kx Ky Kz x0 x1 y0 y1 th = Some m -> distinct_edges Kx Ky Kz ->
  forall k px py pz, k <= 3 -> 1 <= px -> 1 <= py -> 1 <= pz -> exists g st,
    number_mesh (prog_hex px py pz k) (hexes_of m) st0 = Some (g, st) /\ torus_numbers k Kx Ky Kz px py pz g (cur st).
Proof. intros H D. apply slice_is in H as (H1 & H2 & H3 & A & B & C & S). intros. eapply slice_torus; eauto. Qed.
Lemma warning Kx Ky Kz x0 x1 y0 y1 th m : slice Kx Ky Kz x0 x1 y0 y1 th = Some m ->
  (warns m = true <-> Kx = 2 \/ Ky = 2 \/ Kz = 2 \/ ~ distinct_edges Kx Ky Kz) /\
  (warns m = false -> forall key positions, In (key, positions) (face_pool m) -> length positions = 2).
Proof.
  intros H. apply slice_is in H as (H1 & H2 & H3 & A & B & C & S). assert (warns m = true <-> Kx = 2 \/ Ky = 2 \/ Kz = 2 \/ ~ distinct_edges Kx Ky Kz) as W by (eapply slice_warns; eauto).
  split; auto. intros F k v Hin. rewrite F in W.
  assert (distinct_edges Kx Ky Kz) as D by (unfold distinct_edges in *; repeat split; intros [? ?]; assert (false = true) by (apply W; right; right; right; tauto); discriminate).
  assert (Kx <> 2 /\ Ky <> 2 /\ Kz <> 2) as (N1 & N2 & N3) by (repeat split; intros E; assert (false = true) by (apply W; auto); discriminate).
  eapply (exactly_two Kx Ky Kz); eauto.
Qed.
Lemma default_warns Kx Ky x0 x1 y0 y1 th m k px py pz : slice Kx Ky 2 x0 x1 y0 y1 th = Some m ->
  ~ (Kx = 1 /\ Ky = 1) -> k <= 3 -> 1 <= px -> 1 <= py -> 1 <= pz ->
  warns m = true /\ exists g st, number_mesh (prog_hex px py pz k) (hexes_of m) st0 = Some (g, st) /\ torus_numbers k Kx Ky 2 px py pz g (cur st).
Proof.
  intros H N Hk Hx Hy Hz. split; [apply (warning _ _ _ _ _ _ _ _ _ H); auto|]. eapply torus; eauto. unfold distinct_edges. lia.
Qed.
Lemma single_merged : exists m g st d d' n,
  slice 1 1 3 0 1 0 1 1 = Some m /\ number_mesh (prog_hex 1 1 1 1) (hexes_of m) st0 = Some (g, st) /\
  dof_of 1 1 1 1 [0; 0; 0; 0] = Some d /\ dof_of 1 1 1 1 [1; 0; 0; 0] = Some d' /\ number_at g 0 d n /\ number_at g 0 d' n /\
  ~ torus_numbers 1 1 1 3 1 1 1 g (cur st).
Proof.
  do 6 eexists. split; [vm_compute; reflexivity|]. split; [vm_compute; reflexivity|]. split; [vm_compute; reflexivity|]. split; [vm_compute; reflexivity|].
  split; [eexists; split; [left; reflexivity|reflexivity]|]. split; [eexists; split; [left; reflexivity|reflexivity]|].
  intros T. pose proof (tn_count _ _ _ _ _ _ _ _ _ T) as C. vm_compute in C. discriminate.
Qed.
