(** Vocabulary for analytic fields: derivatives of functions of one variable, cross products of triples and products of
    lists of components.  Nothing of FieldModel.v but the objects themselves is used. *)
From Coq Require Import Reals List.
From Coquelicot Require Import Coquelicot.
From Verif Require Import FieldModel.
Import ListNotations.
Local Open Scope R_scope.

(** [f] has the derivative [d] at [x] and a third derivative of size at most [M] at distance at most [h] from [x] *)
Definition smooth (M h x : R) (f : R -> R) (d : R) : Prop :=
  exists f1 f2 f3 : R -> R, f1 x = d /\ forall s, x - h <= s <= x + h ->
    is_derive f s (f1 s) /\ is_derive f1 s (f2 s) /\ is_derive f2 s (f3 s) /\ Rabs (f3 s) <= M.
(** [f] has the second derivative [d] at [x] and a fourth derivative of size at most [M] at distance at most [h] *)
Definition smooth4 (M h x : R) (f : R -> R) (d : R) : Prop :=
  exists f1 f2 f3 f4 : R -> R, f2 x = d /\ forall s, x - h <= s <= x + h ->
    is_derive f s (f1 s) /\ is_derive f1 s (f2 s) /\ is_derive f2 s (f3 s) /\ is_derive f3 s (f4 s) /\ Rabs (f4 s) <= M.

(** the field [f] has the partial derivatives [ft], [fx], [fy] at (t, x, y) and is smooth as above along each axis *)
Definition smooth2 (M : R) (f : R -> R -> R -> R) (t x y ft fx fy : R) : Prop :=
  smooth M (1 / 10000) t (fun s => f s x y) ft /\ smooth M (1 / 10000) x (fun s => f t s y) fx /\
  smooth M (1 / 10000) y (fun s => f t x s) fy.
Definition smooth3 (M : R) (f : R -> R -> R -> R -> R) (t x y z ft fx fy fz : R) : Prop :=
  smooth M (1 / 1000000) t (fun s => f s x y z) ft /\ smooth M (1 / 1000000) x (fun s => f t s y z) fx /\
  smooth M (1 / 1000000) y (fun s => f t x s z) fy /\ smooth M (1 / 1000000) z (fun s => f t x y s) fz.

(** a derivative that was supplied, if any, has the value [d] at the point *)
Definition right2 (g : option (R -> R -> R -> R)) (t x y d : R) : Prop := forall k, g = Some k -> k t x y = d.
Definition right3 (g : option (R -> R -> R -> R -> R)) (t x y z d : R) : Prop := forall k, g = Some k -> k t x y z = d.

(** what is left of the central difference, for the steps 1e-4 and 1e-6 *)
Notation err2 M := (M * (1 / 10000) ^ 2 / 6).
Notation err3 M := (M * (1 / 1000000) ^ 2 / 6).

(** the cross product of triples *)
Definition cross (a b : R * R * R) : R * R * R :=
  let '(a1, a2, a3) := a in let '(b1, b2, b3) := b in (a2 * b3 - a3 * b2, a3 * b1 - a1 * b3, a1 * b2 - a2 * b1).
Definition dot (a b : R * R * R) : R :=
  let '(a1, a2, a3) := a in let '(b1, b2, b3) := b in a1 * b1 + a2 * b2 + a3 * b3.

(** the components of an object at a point *)
Definition components (o : obj) (t x y z : R) : list R :=
  match o with
  | ONum r => [r]
  | OS2 s => [s2 s t x y]
  | OV2 v => [v2u v t x y; v2v v t x y]
  | OT2 T => [t00 T t x y; t01 T t x y; t10 T t x y; t11 T t x y]
  | OS3 s => [s3 s t x y z]
  | OV3 v => [v3u v t x y z; v3v v t x y z; v3w v t x y z]
  end.
(** the vector of space a scalar or vector of the plane stands for: scalars are normal to the plane *)
Definition in_space (o : obj) (t x y z : R) : option (R * R * R) :=
  match o with
  | OS2 s => Some (0, 0, s2 s t x y)
  | OV2 v => Some (v2u v t x y, v2v v t x y, 0)
  | OV3 v => Some (v3u v t x y z, v3v v t x y z, v3w v t x y z)
  | _ => None
  end.

(** componentwise sums and differences, and products with one component *)
Definition pointwise (op : R -> R -> R) (a b c : list R) : Prop :=
  length a = length b /\ length b = length c /\
  forall i p q r, nth_error a i = Some p -> nth_error b i = Some q -> nth_error c i = Some r -> r = op p q.
Definition multiple (r : R) (a c : list R) : Prop := c = map (fun p => r * p) a.

(** the kinds of objects *)
Inductive kind := KNum | KS2 | KV2 | KT2 | KS3 | KV3.
Definition kind_of (o : obj) : kind :=
  match o with ONum _ => KNum | OS2 _ => KS2 | OV2 _ => KV2 | OT2 _ => KT2 | OS3 _ => KS3 | OV3 _ => KV3 end.

(** what an entry of a list of derivatives stands for *)
Definition means2 (e : entry (R -> R -> R -> R)) (d : option (R -> R -> R -> R)) : Prop :=
  match e with
  | ENone => d = None
  | ENum r => r = 0 /\ exists z, d = Some z /\ forall t x y, z t x y = 0
  | EFun f => d = Some f
  end.
Definition means3 (e : entry (R -> R -> R -> R -> R)) (d : option (R -> R -> R -> R -> R)) : Prop :=
  match e with
  | ENone => d = None
  | ENum r => r = 0 /\ exists w, d = Some w /\ forall t x y z, w t x y z = 0
  | EFun f => d = Some f
  end.
Definition acceptable {F} (e : entry F) : Prop := forall r, e = ENum r -> r = 0.

(** nothing was supplied *)
Definition plain_s2 (s : sc2) : Prop := s2x s = None /\ s2y s = None /\ (s2xx s = None \/ s2yy s = None).
Definition plain_v2 (v : ve2) : Prop := v2ux v = None /\ v2uy v = None /\ v2vx v = None /\ v2vy v = None.
Definition plain_s3 (s : sc3) : Prop := s3x s = None /\ s3y s = None /\ s3z s = None.
Definition plain_v3 (v : ve3) : Prop :=
  v3ux v = None /\ v3uy v = None /\ v3uz v = None /\ v3vx v = None /\ v3vy v = None /\ v3vz v = None /\
  v3wx v = None /\ v3wy v = None /\ v3wz v = None.
