(** What a user means by the dofs on a face: those that decide the trace of the form on the face.

    The trace of a 0-form is its value, that of an inner 1-form in 2-D and of a 1-form in 3-D its tangential components, that of an
    outer 1-form in 2-D and of a 2-form in 3-D its normal component. *)
From Coq Require Import List Arith ZArith Reals.
From Verif Require Import NdArray LocalNumberingModel PolyModel PolySpec TensorSpec TensorThms FaceModel.
Import ListNotations.
Local Open Scope R_scope.

Definition end_of (s : list R) (sd : side) : R := match sd with Low => nth 0 s 0 | High => last s 0 end.
Definition within (s : list R) (x : R) : Prop := nth 0 s 0 <= x <= last s 0.

(** a function is zero on the face *)
Definition zero2 (F : R -> R -> R) (sx sy : list R) (axis : nat) (sd : side) : Prop :=
  match axis with
  | 0%nat => forall et, within sy et -> F (end_of sx sd) et = 0
  | _ => forall xi, within sx xi -> F xi (end_of sy sd) = 0
  end.
Definition zero3 (F : R -> R -> R -> R) (sx sy sz : list R) (axis : nat) (sd : side) : Prop :=
  match axis with
  | 0%nat => forall et sg, within sy et -> within sz sg -> F (end_of sx sd) et sg = 0
  | 1%nat => forall xi sg, within sx xi -> within sz sg -> F xi (end_of sy sd) sg = 0
  | _ => forall xi et, within sx xi -> within sy et -> F xi et (end_of sz sd) = 0
  end.

(** the trace of the form with cochain [x] is zero *)
Definition no_trace_1d_k0 (s : list R) (sd : side) (x : nat -> R) : Prop := form1 x (ln_m1n1k0 (degree s)) 0 (nodal s) (end_of s sd) = 0.
Definition no_trace_2d_k0 (sx sy : list R) (axis : nat) (sd : side) (x : nat -> R) : Prop :=
  zero2 (form2 x (ln_m2n2k0 (degree sx) (degree sy)) 0 (nodal sx) (nodal sy)) sx sy axis sd.
Definition no_trace_2d_outer (sx sy : list R) (axis : nat) (sd : side) (x : nat -> R) : Prop :=
  let ln := ln_m2n2k1_outer (degree sx) (degree sy) in
  zero2 (match axis with 0%nat => form2 x ln 0 (nodal sx) (edges sy) | _ => form2 x ln 1 (edges sx) (nodal sy) end) sx sy axis sd.
Definition no_trace_2d_inner (sx sy : list R) (axis : nat) (sd : side) (x : nat -> R) : Prop :=
  let ln := ln_m2n2k1_inner (degree sx) (degree sy) in
  zero2 (match axis with 0%nat => form2 x ln 1 (nodal sx) (edges sy) | _ => form2 x ln 0 (edges sx) (nodal sy) end) sx sy axis sd.
Definition no_trace_3d_k0 (sx sy sz : list R) (axis : nat) (sd : side) (x : nat -> R) : Prop :=
  zero3 (form3 x (ln_m3n3k0 (degree sx) (degree sy) (degree sz)) 0 (nodal sx) (nodal sy) (nodal sz)) sx sy sz axis sd.
Definition no_trace_3d_k1 (sx sy sz : list R) (axis : nat) (sd : side) (x : nat -> R) : Prop :=
  let ln := ln_m3n3k1 (degree sx) (degree sy) (degree sz) in
  let u := form3 x ln 0 (edges sx) (nodal sy) (nodal sz) in
  let v := form3 x ln 1 (nodal sx) (edges sy) (nodal sz) in
  let w := form3 x ln 2 (nodal sx) (nodal sy) (edges sz) in
  match axis with
  | 0%nat => zero3 v sx sy sz axis sd /\ zero3 w sx sy sz axis sd
  | 1%nat => zero3 w sx sy sz axis sd /\ zero3 u sx sy sz axis sd
  | _ => zero3 u sx sy sz axis sd /\ zero3 v sx sy sz axis sd
  end.
Definition no_trace_3d_k2 (sx sy sz : list R) (axis : nat) (sd : side) (x : nat -> R) : Prop :=
  let ln := ln_m3n3k2 (degree sx) (degree sy) (degree sz) in
  zero3 (match axis with
         | 0%nat => form3 x ln 0 (nodal sx) (edges sy) (edges sz)
         | 1%nat => form3 x ln 1 (edges sx) (nodal sy) (edges sz)
         | _ => form3 x ln 2 (edges sx) (edges sy) (nodal sz)
         end) sx sy sz axis sd.

(** triangles: squares whose side x- is one point; a 0-form has one value there and the edges there are gone *)
Definition later_nodal (s : list R) : basis := (degree s, fun i => lagrange s (S i)).
Definition tri_form0 (x : nat -> R) (sx sy : list R) (xi et : R) : R :=
  total (length sx) (fun i => total (length sy) (fun j =>
    match ln_m2n2k0_tri (degree sx) (degree sy) [i; j] with Some r => x r | None => 0 end * (lagrange sx i xi * lagrange sy j et))).
Definition no_trace_tri_k0 (sx sy : list R) (axis : nat) (sd : side) (x : nat -> R) : Prop := zero2 (tri_form0 x sx sy) sx sy axis sd.
Definition no_trace_tri_outer (sx sy : list R) (axis : nat) (sd : side) (x : nat -> R) : Prop :=
  let ln := ln_m2n2k1_outer_tri (degree sx) (degree sy) in
  zero2 (match axis with 0%nat => form2 x ln 0 (later_nodal sx) (edges sy) | _ => form2 x ln 1 (edges sx) (nodal sy) end) sx sy axis sd.
Definition no_trace_tri_inner (sx sy : list R) (axis : nat) (sd : side) (x : nat -> R) : Prop :=
  let ln := ln_m2n2k1_inner_tri (degree sx) (degree sy) in
  zero2 (match axis with 0%nat => form2 x ln 1 (later_nodal sx) (edges sy) | _ => form2 x ln 0 (edges sx) (nodal sy) end) sx sy axis sd.

(** [l] is exactly the set of dofs that decide whether there is a trace *)
Definition decides (no_trace : (nat -> R) -> Prop) (l : list nat) : Prop := forall x, no_trace x <-> forall r, In r l -> x r = 0.
(** the cochain of one basis function *)
Definition unit (r : nat) : nat -> R := kronecker r.
Definition face_dofs (no_trace : (nat -> R) -> Prop) (nd : nat) (l : list nat) : Prop :=
  decides no_trace l /\ NoDup l /\ (forall r, In r l -> (r < nd)%nat) /\ (forall r, (r < nd)%nat -> (In r l <-> ~ no_trace (unit r))).
(** the faces of quadrilaterals and hexahedra are numbered x- x+ y- y+ z- z+ *)
Definition face_axis (f : nat) : nat := Nat.div2 f.
Definition face_side (f : nat) : side := if Nat.even f then Low else High.
(** the faces of triangles are numbered y- x+ y+ *)
Definition tri_axis (f : nat) : nat := match f with 1%nat => 0%nat | _ => 1%nat end.
Definition tri_side (f : nat) : side := match f with 0%nat => Low | _ => High end.
(** the sides of msepy are numbered 0 and 1 *)
Definition mn_side (n : nat) : side := match n with 0%nat => Low | _ => High end.
(** the numbers of [l] in component [c], where [before] dofs come before that component *)
Definition within_component (before nd : nat) (l lc : list nat) : Prop := l = map (fun r => (before + r)%nat) lc /\ forall r, In r lc -> (r < nd)%nat.

(** the 3-D 2-form finder with its memory: the numbers seen are the ones of [htt_m3n3k2]; calls that do not ask for the numbers within a component of a face y or z *)
Definition right_numbers (px py pz f : nat) (v : list Z) : Prop := exists l, htt_m3n3k2 px py pz f = Some l /\ v = map Z.of_nat l.
Definition safe_call (c : nat * bool) : Prop := snd c = false \/ (fst c < 2)%nat.
