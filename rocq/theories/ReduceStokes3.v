(** Theorems of Gauss and Stokes for reconstructed fields in 3-d. *)
From Coq Require Import List Arith Reals Lra Lia.
From Coquelicot Require Import Coquelicot.
From Verif Require Import MappingModel MappingSpec MappingProofs JacobianSpec JacobianModel JacobianProofs PolyModel PolySpec PolyProofs PolyCalc NdArray LocalNumberingModel IncidenceModel IncidenceSpec IncidenceThms TensorModel TensorSpec TensorAct TensorProofs TensorThms ReduceModel ReduceSpec ReduceProofs ReduceForms ReduceRound ReduceStokes ReduceThree ReduceRound3.
Import List ListNotations.
Local Open Scope R_scope.
Local Notation mat := MappingModel.mat.
Local Notation i0 := 0%nat.
Local Notation i1 := 1%nat.
Local Notation i2 := 2%nat.

Lemma int3_ext (f g : R -> R -> R -> R) (a b c d e h l : R) : a <= b -> c <= d -> e <= h -> (forall x y z, a <= x <= b -> c <= y <= d -> e <= z <= h -> f x y z = g x y z) ->
  integral3 f a b c d e h l -> integral_on3 g a b c d e h l.
Proof. intros ab cd eh H (k & Hk & I). exists k. split; [| exact I]. intros z Hz. eapply int2_ext; [exact ab | exact cd | | apply Hk]. intros. now apply H. Qed.

Section Stokes3.
Variables (phi : R -> R -> R -> pt3) (J : R -> R -> R -> mat) (sx sy sz : list R) (vx vy vz : R -> R -> R -> R * R * R).
Hypotheses (Hx : nodes_ok sx) (Hy : nodes_ok sy) (Hz : nodes_ok sz) (Rx : in_reference sx) (Ry : in_reference sy) (Rz : in_reference sz)
  (HS : smooth3 phi J) (HM : moves3 phi vx vy vz) (D : forall x y z, ref x -> ref y -> ref z -> determinant 3 (J x y z) <> 0).
Notation px := (degree sx). Notation py := (degree sy). Notation pz := (degree sz).
Notation X i := (node sx i). Notation Y j := (node sy j). Notation Z k := (node sz k).
Ltac deg3 := destruct (deg_len sx Hx) as [?Dx _]; destruct (deg_len sy Hy) as [?Dy _]; destruct (deg_len sz Hz) as [?Dz _].
Ltac refs := first [eapply ref_edge; cycle 3; [eassumption | assumption | assumption | assumption] | apply ref_node; [assumption | unfold degree in *; destruct Hx, Hy, Hz; lia]].
Lemma edges3 c V : length c = nd_m3n3k1 px py pz ->
  (forall x y z, ref x -> ref y -> ref z -> rc_vector3 push1_3 J [x] [y] [z] (rc_m3n3k1 sx sy sz [x] [y] [z] c) = Some [[fst (fst (V (phi x y z)))]; [snd (fst (V (phi x y z)))]; [snd (V (phi x y z))]]) ->
  (forall i j k, (i < px)%nat -> (j < length sy)%nat -> (k < length sz)%nat -> is_RInt (fun tx => along3 (V (phi tx (Y j) (Z k))) (vx tx (Y j) (Z k))) (X i) (X (S i)) (rcoef (cochain c) (ln_m3n3k1 px py pz) 0 [i; j; k])) /\
  (forall i j k, (i < length sx)%nat -> (j < py)%nat -> (k < length sz)%nat -> is_RInt (fun ty => along3 (V (phi (X i) ty (Z k))) (vy (X i) ty (Z k))) (Y j) (Y (S j)) (rcoef (cochain c) (ln_m3n3k1 px py pz) 1 [i; j; k])) /\
  (forall i j k, (i < length sx)%nat -> (j < length sy)%nat -> (k < pz)%nat -> is_RInt (fun tz => along3 (V (phi (X i) (Y j) tz)) (vz (X i) (Y j) tz)) (Z k) (Z (S k)) (rcoef (cochain c) (ln_m3n3k1 px py pz) 2 [i; j; k])).
Proof.
  intros Lc H. deg3. refine (conj _ (conj _ _)); intros i j k Hi Hj Hk.
  - eapply int_ext; [now apply node_le | | exact (red_ENN (cochain c) _ 0 sx sy sz Hx Hy Hz i j k Hi Hj Hk)]. intros tx Kx.
    assert (Tx : ref tx) by refs.
    assert (Ty : ref (Y j)) by refs.
    assert (Tz : ref (Z k)) by refs.
    destruct (columns3 phi J vx vy vz tx (Y j) (Z k) HS HM Tx Ty Tz) as (Cx & Cy & Cz). rewrite ?Cx, ?Cy, ?Cz. clear Cx Cy Cz.
    destruct (k1_point J sx sy sz c tx (Y j) (Z k) _ _ _ Hx Hy Hz Lc (D _ _ _ Tx Ty Tz) (H _ _ _ Tx Ty Tz)) as [<- _]. unfold through, along3, cross, column, cof_x, cof_y, cof_z; cbn [fst snd]. ring.
  - eapply int_ext; [now apply node_le | | exact (red_NEN (cochain c) _ 1 sx sy sz Hx Hy Hz i j k Hi Hj Hk)]. intros ty Ky.
    assert (Tx : ref (X i)) by refs.
    assert (Ty : ref ty) by refs.
    assert (Tz : ref (Z k)) by refs.
    destruct (columns3 phi J vx vy vz (X i) ty (Z k) HS HM Tx Ty Tz) as (Cx & Cy & Cz). rewrite ?Cx, ?Cy, ?Cz. clear Cx Cy Cz.
    destruct (k1_point J sx sy sz c (X i) ty (Z k) _ _ _ Hx Hy Hz Lc (D _ _ _ Tx Ty Tz) (H _ _ _ Tx Ty Tz)) as (_ & <- & _). unfold through, along3, cross, column, cof_x, cof_y, cof_z; cbn [fst snd]. ring.
  - eapply int_ext; [now apply node_le | | exact (red_NNE (cochain c) _ 2 sx sy sz Hx Hy Hz i j k Hi Hj Hk)]. intros tz Kz.
    assert (Tx : ref (X i)) by refs.
    assert (Ty : ref (Y j)) by refs.
    assert (Tz : ref tz) by refs.
    destruct (columns3 phi J vx vy vz (X i) (Y j) tz HS HM Tx Ty Tz) as (Cx & Cy & Cz). rewrite ?Cx, ?Cy, ?Cz. clear Cx Cy Cz.
    destruct (k1_point J sx sy sz c (X i) (Y j) tz _ _ _ Hx Hy Hz Lc (D _ _ _ Tx Ty Tz) (H _ _ _ Tx Ty Tz)) as (_ & _ & <-). unfold through, along3, cross, column, cof_x, cof_y, cof_z; cbn [fst snd]. ring.
Qed.
Lemma faces3 c V : length c = nd_m3n3k2 px py pz ->
  (forall x y z, ref x -> ref y -> ref z -> rc_vector3 push2_3 J [x] [y] [z] (rc_m3n3k2 sx sy sz [x] [y] [z] c) = Some [[fst (fst (V (phi x y z)))]; [snd (fst (V (phi x y z)))]; [snd (V (phi x y z))]]) ->
  (forall i j k, (i < length sx)%nat -> (j < py)%nat -> (k < pz)%nat -> integral_on2 (fun ty tz => through (V (phi (X i) ty tz)) (vy (X i) ty tz) (vz (X i) ty tz)) (Y j) (Y (S j)) (Z k) (Z (S k)) (rcoef (cochain c) (ln_m3n3k2 px py pz) 0 [i; j; k])) /\
  (forall i j k, (i < px)%nat -> (j < length sy)%nat -> (k < pz)%nat -> integral_on2 (fun tx tz => through (V (phi tx (Y j) tz)) (vz tx (Y j) tz) (vx tx (Y j) tz)) (X i) (X (S i)) (Z k) (Z (S k)) (rcoef (cochain c) (ln_m3n3k2 px py pz) 1 [i; j; k])) /\
  (forall i j k, (i < px)%nat -> (j < py)%nat -> (k < length sz)%nat -> integral_on2 (fun tx ty => through (V (phi tx ty (Z k))) (vx tx ty (Z k)) (vy tx ty (Z k))) (X i) (X (S i)) (Y j) (Y (S j)) (rcoef (cochain c) (ln_m3n3k2 px py pz) 2 [i; j; k])).
Proof.
  intros Lc H. deg3. refine (conj _ (conj _ _)); intros i j k Hi Hj Hk.
  - eapply int2_ext; [now apply node_le | now apply node_le | | exact (red_NEE (cochain c) _ 0 sx sy sz Hx Hy Hz i j k Hi Hj Hk)]. intros ty tz Ky Kz.
    assert (Tx : ref (X i)) by refs.
    assert (Ty : ref ty) by refs.
    assert (Tz : ref tz) by refs.
    destruct (columns3 phi J vx vy vz (X i) ty tz HS HM Tx Ty Tz) as (Cx & Cy & Cz). rewrite ?Cx, ?Cy, ?Cz. clear Cx Cy Cz.
    destruct (k2_point J sx sy sz c (X i) ty tz _ _ _ Hx Hy Hz Lc (D _ _ _ Tx Ty Tz) (H _ _ _ Tx Ty Tz)) as [<- _]. unfold through, along3, cross, column, cof_x, cof_y, cof_z; cbn [fst snd]. ring.
  - eapply int2_ext; [now apply node_le | now apply node_le | | exact (red_ENE (cochain c) _ 1 sx sy sz Hx Hy Hz i j k Hi Hj Hk)]. intros tx tz Kx Kz.
    assert (Tx : ref tx) by refs.
    assert (Ty : ref (Y j)) by refs.
    assert (Tz : ref tz) by refs.
    destruct (columns3 phi J vx vy vz tx (Y j) tz HS HM Tx Ty Tz) as (Cx & Cy & Cz). rewrite ?Cx, ?Cy, ?Cz. clear Cx Cy Cz.
    destruct (k2_point J sx sy sz c tx (Y j) tz _ _ _ Hx Hy Hz Lc (D _ _ _ Tx Ty Tz) (H _ _ _ Tx Ty Tz)) as (_ & <- & _). unfold through, along3, cross, column, cof_x, cof_y, cof_z; cbn [fst snd]. ring.
  - eapply int2_ext; [now apply node_le | now apply node_le | | exact (red_EEN (cochain c) _ 2 sx sy sz Hx Hy Hz i j k Hi Hj Hk)]. intros tx ty Kx Ky.
    assert (Tx : ref tx) by refs.
    assert (Ty : ref ty) by refs.
    assert (Tz : ref (Z k)) by refs.
    destruct (columns3 phi J vx vy vz tx ty (Z k) HS HM Tx Ty Tz) as (Cx & Cy & Cz). rewrite ?Cx, ?Cy, ?Cz. clear Cx Cy Cz.
    destruct (k2_point J sx sy sz c tx ty (Z k) _ _ _ Hx Hy Hz Lc (D _ _ _ Tx Ty Tz) (H _ _ _ Tx Ty Tz)) as (_ & _ & <-). unfold through, along3, cross, column, cof_x, cof_y, cof_z; cbn [fst snd]. ring.
Qed.
Lemma cells3 e g : length e = nd_m3n3k3 px py pz ->
  (forall x y z, ref x -> ref y -> ref z -> rc_density3 J [x] [y] [z] (rc_m3n3k3 sx sy sz [x] [y] [z] e) = Some [[g (phi x y z)]]) ->
  forall i j k, (i < px)%nat -> (j < py)%nat -> (k < pz)%nat ->
    integral_on3 (fun x y z => g (phi x y z) * volume3 (vx x y z) (vy x y z) (vz x y z)) (X i) (X (S i)) (Y j) (Y (S j)) (Z k) (Z (S k)) (rcoef (cochain e) (ln_m3n3k3 px py pz) 0 [i; j; k]).
Proof.
  intros Le H i j k Hi Hj Hk. eapply int3_ext; [now apply node_le | now apply node_le | now apply node_le | | exact (red_EEE (cochain e) _ 0 sx sy sz Hx Hy Hz i j k Hi Hj Hk)].
  intros x y z Kx Ky Kz. assert (Tx : ref x) by refs. assert (Ty : ref y) by refs. assert (Tz : ref z) by refs. rewrite (det_volume phi J vx vy vz x y z HS HM Tx Ty Tz).
  symmetry. apply (density3_point J); auto.
Qed.
Ltac dof3 := deg3; rewrite ?ln_m3n3k1_eq, ?ln_m3n3k2_eq, ?ln_m3n3k3_eq; eapply ex3; [reflexivity | lia | lia | lia].
(** Gauss: the integral of the divergence over the image of a cell is the flux out of it *)
Lemma gauss3 E V g c d : E_m3n3k2 px py pz = Some E -> length c = nd_m3n3k2 px py pz -> applied E (nd_m3n3k3 px py pz) c d ->
  (forall x y z, ref x -> ref y -> ref z -> rc_vector3 push2_3 J [x] [y] [z] (rc_m3n3k2 sx sy sz [x] [y] [z] c) = Some [[fst (fst (V (phi x y z)))]; [snd (fst (V (phi x y z)))]; [snd (V (phi x y z))]]) ->
  (forall x y z, ref x -> ref y -> ref z -> rc_density3 J [x] [y] [z] (rc_m3n3k3 sx sy sz [x] [y] [z] d) = Some [[g (phi x y z)]]) ->
  forall i j k, (i < px)%nat -> (j < py)%nat -> (k < pz)%nat -> exists south north west east back front,
    integral_on2 (fun ty tz => through (V (phi (X i) ty tz)) (vy (X i) ty tz) (vz (X i) ty tz)) (Y j) (Y (S j)) (Z k) (Z (S k)) north /\
    integral_on2 (fun ty tz => through (V (phi (X (S i)) ty tz)) (vy (X (S i)) ty tz) (vz (X (S i)) ty tz)) (Y j) (Y (S j)) (Z k) (Z (S k)) south /\
    integral_on2 (fun tx tz => through (V (phi tx (Y j) tz)) (vz tx (Y j) tz) (vx tx (Y j) tz)) (X i) (X (S i)) (Z k) (Z (S k)) west /\
    integral_on2 (fun tx tz => through (V (phi tx (Y (S j)) tz)) (vz tx (Y (S j)) tz) (vx tx (Y (S j)) tz)) (X i) (X (S i)) (Z k) (Z (S k)) east /\
    integral_on2 (fun tx ty => through (V (phi tx ty (Z k))) (vx tx ty (Z k)) (vy tx ty (Z k))) (X i) (X (S i)) (Y j) (Y (S j)) back /\
    integral_on2 (fun tx ty => through (V (phi tx ty (Z (S k)))) (vx tx ty (Z (S k))) (vy tx ty (Z (S k)))) (X i) (X (S i)) (Y j) (Y (S j)) front /\
    integral_on3 (fun x y z => g (phi x y z) * volume3 (vx x y z) (vy x y z) (vz x y z)) (X i) (X (S i)) (Y j) (Y (S j)) (Z k) (Z (S k)) ((south - north) + (east - west) + (front - back)).
Proof.
  intros HE Lc A HV Hg i j k Hi Hj Hk. destruct (faces3 c V Lc HV) as (FX & FY & FZ). assert (C := cells3 d g (proj1 A) Hg i j k Hi Hj Hk).
  rewrite (coef_of_applied _ _ E c d _ _ (bij_m3n3k3 px py pz) A) in C by dof3.
  rewrite (real_m3n3k2 px py pz E HE (cochain c) i j k Hi Hj Hk) in C. deg3.
  eexists _, _, _, _, _, _. refine (conj _ (conj _ (conj _ (conj _ (conj _ (conj _ C)))))); [apply FX | apply FX | apply FY | apply FY | apply FZ | apply FZ]; lia.
Qed.
(** Stokes: the flux of the curl through the image of a face is the circulation around it *)
Lemma stokes3 E V W c d : E_m3n3k1 px py pz = Some E -> length c = nd_m3n3k1 px py pz -> applied E (nd_m3n3k2 px py pz) c d ->
  (forall x y z, ref x -> ref y -> ref z -> rc_vector3 push1_3 J [x] [y] [z] (rc_m3n3k1 sx sy sz [x] [y] [z] c) = Some [[fst (fst (V (phi x y z)))]; [snd (fst (V (phi x y z)))]; [snd (V (phi x y z))]]) ->
  (forall x y z, ref x -> ref y -> ref z -> rc_vector3 push2_3 J [x] [y] [z] (rc_m3n3k2 sx sy sz [x] [y] [z] d) = Some [[fst (fst (W (phi x y z)))]; [snd (fst (W (phi x y z)))]; [snd (W (phi x y z))]]) ->
  (forall i j k, (i < length sx)%nat -> (j < py)%nat -> (k < pz)%nat -> exists first second third fourth,
    is_RInt (fun ty => along3 (V (phi (X i) ty (Z k))) (vy (X i) ty (Z k))) (Y j) (Y (S j)) first /\
    is_RInt (fun tz => along3 (V (phi (X i) (Y (S j)) tz)) (vz (X i) (Y (S j)) tz)) (Z k) (Z (S k)) second /\
    is_RInt (fun ty => along3 (V (phi (X i) ty (Z (S k)))) (vy (X i) ty (Z (S k)))) (Y j) (Y (S j)) third /\
    is_RInt (fun tz => along3 (V (phi (X i) (Y j) tz)) (vz (X i) (Y j) tz)) (Z k) (Z (S k)) fourth /\
    integral_on2 (fun ty tz => through (W (phi (X i) ty tz)) (vy (X i) ty tz) (vz (X i) ty tz)) (Y j) (Y (S j)) (Z k) (Z (S k)) (first + second - third - fourth)) /\
  (forall i j k, (i < px)%nat -> (j < length sy)%nat -> (k < pz)%nat -> exists first second third fourth,
    is_RInt (fun tz => along3 (V (phi (X i) (Y j) tz)) (vz (X i) (Y j) tz)) (Z k) (Z (S k)) first /\
    is_RInt (fun tx => along3 (V (phi tx (Y j) (Z (S k)))) (vx tx (Y j) (Z (S k)))) (X i) (X (S i)) second /\
    is_RInt (fun tz => along3 (V (phi (X (S i)) (Y j) tz)) (vz (X (S i)) (Y j) tz)) (Z k) (Z (S k)) third /\
    is_RInt (fun tx => along3 (V (phi tx (Y j) (Z k))) (vx tx (Y j) (Z k))) (X i) (X (S i)) fourth /\
    integral_on2 (fun tx tz => through (W (phi tx (Y j) tz)) (vz tx (Y j) tz) (vx tx (Y j) tz)) (X i) (X (S i)) (Z k) (Z (S k)) (first + second - third - fourth)) /\
  (forall i j k, (i < px)%nat -> (j < py)%nat -> (k < length sz)%nat -> exists first second third fourth,
    is_RInt (fun tx => along3 (V (phi tx (Y j) (Z k))) (vx tx (Y j) (Z k))) (X i) (X (S i)) first /\
    is_RInt (fun ty => along3 (V (phi (X (S i)) ty (Z k))) (vy (X (S i)) ty (Z k))) (Y j) (Y (S j)) second /\
    is_RInt (fun tx => along3 (V (phi tx (Y (S j)) (Z k))) (vx tx (Y (S j)) (Z k))) (X i) (X (S i)) third /\
    is_RInt (fun ty => along3 (V (phi (X i) ty (Z k))) (vy (X i) ty (Z k))) (Y j) (Y (S j)) fourth /\
    integral_on2 (fun tx ty => through (W (phi tx ty (Z k))) (vx tx ty (Z k)) (vy tx ty (Z k))) (X i) (X (S i)) (Y j) (Y (S j)) (first + second - third - fourth)).
Proof.
  intros HE Lc A HV HW. destruct (faces3 d W (proj1 A) HW) as (FX & FY & FZ). destruct (edges3 c V Lc HV) as (EX & EY & EZ).
  destruct (real_m3n3k1 px py pz E HE (cochain c)) as (RX & RY & RZ). deg3.
  refine (conj _ (conj _ _)); intros i j k Hi Hj Hk.
  - assert (C := FX i j k Hi Hj Hk). rewrite (coef_of_applied _ _ E c d _ _ (bij_m3n3k2 px py pz) A), RX in C by (lia || dof3).
    eexists _, _, _, _. refine (conj _ (conj _ (conj _ (conj _ _)))); [apply EY; lia | apply EZ; lia | apply EY; lia | apply EZ; lia |].
    replace (_ + _ - _ - _) with ((rcoef (cochain c) (ln_m3n3k1 px py pz) 2 [i; S j; k] - rcoef (cochain c) (ln_m3n3k1 px py pz) 2 [i; j; k]) - (rcoef (cochain c) (ln_m3n3k1 px py pz) 1 [i; j; S k] - rcoef (cochain c) (ln_m3n3k1 px py pz) 1 [i; j; k])) by ring. exact C.
  - assert (C := FY i j k Hi Hj Hk). rewrite (coef_of_applied _ _ E c d _ _ (bij_m3n3k2 px py pz) A), RY in C by (lia || dof3).
    eexists _, _, _, _. refine (conj _ (conj _ (conj _ (conj _ _)))); [apply EZ; lia | apply EX; lia | apply EZ; lia | apply EX; lia |].
    replace (_ + _ - _ - _) with ((rcoef (cochain c) (ln_m3n3k1 px py pz) 0 [i; j; S k] - rcoef (cochain c) (ln_m3n3k1 px py pz) 0 [i; j; k]) - (rcoef (cochain c) (ln_m3n3k1 px py pz) 2 [S i; j; k] - rcoef (cochain c) (ln_m3n3k1 px py pz) 2 [i; j; k])) by ring. exact C.
  - assert (C := FZ i j k Hi Hj Hk). rewrite (coef_of_applied _ _ E c d _ _ (bij_m3n3k2 px py pz) A), RZ in C by (lia || dof3).
    eexists _, _, _, _. refine (conj _ (conj _ (conj _ (conj _ _)))); [apply EX; lia | apply EY; lia | apply EX; lia | apply EY; lia |].
    replace (_ + _ - _ - _) with ((rcoef (cochain c) (ln_m3n3k1 px py pz) 1 [S i; j; k] - rcoef (cochain c) (ln_m3n3k1 px py pz) 1 [i; j; k]) - (rcoef (cochain c) (ln_m3n3k1 px py pz) 0 [i; S j; k] - rcoef (cochain c) (ln_m3n3k1 px py pz) 0 [i; j; k])) by ring. exact C.
Qed.
Lemma scalar_at3 c f i j k : length c = nd_m3n3k0 px py pz -> (forall x y z, ref x -> ref y -> ref z -> rc_m3n3k0 sx sy sz [x] [y] [z] c = Some [[f (phi x y z)]]) ->
  (i < length sx)%nat -> (j < length sy)%nat -> (k < length sz)%nat -> f (phi (X i) (Y j) (Z k)) = rcoef (cochain c) (ln_m3n3k0 px py pz) 0 [i; j; k].
Proof.
  intros Lc H Hi Hj Hk. rewrite (scalar3_point sx sy sz c (X i) (Y j) (Z k) _ Hx Hy Hz Lc (H (X i) (Y j) (Z k) ltac:(refs) ltac:(refs) ltac:(refs))). now apply red_NNN.
Qed.
(** line integrals of a reconstructed gradient are differences of values *)
Lemma potential3 E V f c d : E_m3n3k0 px py pz = Some E -> length c = nd_m3n3k0 px py pz -> applied E (nd_m3n3k1 px py pz) c d ->
  (forall x y z, ref x -> ref y -> ref z -> rc_m3n3k0 sx sy sz [x] [y] [z] c = Some [[f (phi x y z)]]) ->
  (forall x y z, ref x -> ref y -> ref z -> rc_vector3 push1_3 J [x] [y] [z] (rc_m3n3k1 sx sy sz [x] [y] [z] d) = Some [[fst (fst (V (phi x y z)))]; [snd (fst (V (phi x y z)))]; [snd (V (phi x y z))]]) ->
  (forall i j k, (i < px)%nat -> (j < length sy)%nat -> (k < length sz)%nat -> is_RInt (fun tx => along3 (V (phi tx (Y j) (Z k))) (vx tx (Y j) (Z k))) (X i) (X (S i)) (f (phi (X (S i)) (Y j) (Z k)) - f (phi (X i) (Y j) (Z k)))) /\
  (forall i j k, (i < length sx)%nat -> (j < py)%nat -> (k < length sz)%nat -> is_RInt (fun ty => along3 (V (phi (X i) ty (Z k))) (vy (X i) ty (Z k))) (Y j) (Y (S j)) (f (phi (X i) (Y (S j)) (Z k)) - f (phi (X i) (Y j) (Z k)))) /\
  (forall i j k, (i < length sx)%nat -> (j < length sy)%nat -> (k < pz)%nat -> is_RInt (fun tz => along3 (V (phi (X i) (Y j) tz)) (vz (X i) (Y j) tz)) (Z k) (Z (S k)) (f (phi (X i) (Y j) (Z (S k))) - f (phi (X i) (Y j) (Z k)))).
Proof.
  intros HE Lc A Hf HV. destruct (edges3 d V (proj1 A) HV) as (EX & EY & EZ). destruct (real_m3n3k0 px py pz E HE (cochain c)) as (RX & RY & RZ). deg3.
  refine (conj _ (conj _ _)); intros i j k Hi Hj Hk; rewrite !(scalar_at3 c) by (assumption || lia).
  - assert (C := EX i j k Hi Hj Hk). rewrite (coef_of_applied _ _ E c d _ _ (bij_m3n3k1 px py pz) A), RX in C by (lia || dof3). exact C.
  - assert (C := EY i j k Hi Hj Hk). rewrite (coef_of_applied _ _ E c d _ _ (bij_m3n3k1 px py pz) A), RY in C by (lia || dof3). exact C.
  - assert (C := EZ i j k Hi Hj Hk). rewrite (coef_of_applied _ _ E c d _ _ (bij_m3n3k1 px py pz) A), RZ in C by (lia || dof3). exact C.
Qed.
End Stokes3.

(** entries of the top forms: densities times areas and volumes *)
Lemma k2_2_area phi J det f sx sy qx wx qy wy vx vy : nodes_ok sx -> nodes_ok sy -> in_reference sx -> in_reference sy -> length qx = length wx -> length qy = length wy -> in_reference qx -> in_reference qy ->
  smooth2 phi J -> moves2 phi vx vy -> (forall x y, jac_det 2 (J x y) = Some (det x y)) ->
  length (rd_m2n2k2 phi det f sx sy qx wx qy wy) = nd_m2n2k2 (degree sx) (degree sy) /\
  (forall i j, (i < degree sx)%nat -> (j < degree sy)%nat ->
     rcoef (cochain (rd_m2n2k2 phi det f sx sy qx wx qy wy)) (ln_m2n2k2 (degree sx) (degree sy)) 0 [i; j]
     = rule_sum2 qx wx qy wy (node sx i) (node sx (S i)) (node sy j) (node sy (S j)) (fun x y => f (phi x y) * area2 (vx x y) (vy x y))).
Proof.
  intros Hx Hy Rx Ry Lx Ly Qx Qy HS HM Hd. destruct (k2_2_entries phi det f sx sy qx wx qy wy Hx Hy) as [L E]. split; [exact L |]. intros i j Hi Hj. rewrite E by assumption.
  apply rule_sum2_ext; try assumption; try (now apply node_le). intros x y Tx Ty.
  rewrite (det_area phi J vx vy x y HS HM) by (eapply ref_edge; [| | | eassumption]; assumption).
  specialize (Hd x y). cbn in Hd. injection Hd as <-. now rewrite det_expand2.
Qed.
Lemma k3_volume phi J det f sx sy sz qx wx qy wy qz wz vx vy vz : nodes_ok sx -> nodes_ok sy -> nodes_ok sz -> in_reference sx -> in_reference sy -> in_reference sz ->
  length qx = length wx -> length qy = length wy -> length qz = length wz -> in_reference qx -> in_reference qy -> in_reference qz ->
  smooth3 phi J -> moves3 phi vx vy vz -> (forall x y z, jac_det 3 (J x y z) = Some (det x y z)) ->
  length (rd_m3n3k3 phi sx sy sz qx wx qy wy qz wz det f) = nd_m3n3k3 (degree sx) (degree sy) (degree sz) /\
  (forall i j k, (i < degree sx)%nat -> (j < degree sy)%nat -> (k < degree sz)%nat ->
     rcoef (cochain (rd_m3n3k3 phi sx sy sz qx wx qy wy qz wz det f)) (ln_m3n3k3 (degree sx) (degree sy) (degree sz)) 0 [i; j; k]
     = rule_sum3 qx wx qy wy qz wz (node sx i) (node sx (S i)) (node sy j) (node sy (S j)) (node sz k) (node sz (S k)) (fun x y z => f (phi x y z) * volume3 (vx x y z) (vy x y z) (vz x y z))).
Proof.
  intros Hx Hy Hz Rx Ry Rz Lx Ly Lz Qx Qy Qz HS HM Hd. destruct (k3_entries phi det f sx sy sz qx wx qy wy qz wz) as [L E]. split; [exact L |]. intros i j k Hi Hj Hk. rewrite E by assumption.
  apply rule_sum3_ext; try assumption; try (now apply node_le). intros x y z Tx Ty Tz.
  rewrite (det_volume phi J vx vy vz x y z HS HM) by (eapply ref_edge; [| | | eassumption]; assumption).
  specialize (Hd x y z). cbn in Hd. injection Hd as <-. now rewrite det_expand3.
Qed.
