(** Model of metric signatures and of the data elements share through them.

    /repo/tools/functions/space/_2d/{distance,angle,angles_of_triangle}.py,
    /repo/msehtt/static/mesh/great/elements/types/{vtu_5_triangle.py 38-48,
    vtu_9_quad.py 65-80, orthogonal_rectangle.py 47-50,
    orthogonal_hexahedron.py 48-53, base.py 614-627},
    /repo/msehtt/static/space/mass_matrix/Lambda/MM_m2n2k1.py 40-75 (the same
    in the other mass matrices).

    Simplifications: real numbers; the text "%.3f" of a rounded number is the
    integer number of thousandths ([None] for "nan", which numpy gives for 0/0);
    the letters between the numbers of a signature are left out, the type of the
    element is kept.  Points are compared exactly in the cache of base.py (with
    np.allclose: C31, C32), and the cache never gives up. *)
From Coq Require Import List ZArith Reals Bool.
From Verif Require Import MappingModel.
Import ListNotations.
Local Open Scope R_scope.
Local Notation mat := MappingModel.mat.

(** round(x): to the nearest, ties to the even one; round(x, n) and "%.nf" of it, in units of 10^-n *)
Definition rnd_R (x : R) : Z :=
  let f := Int_part x in
  match total_order_T (x - IZR f) (1/2) with
  | inleft (left _) => f
  | inleft (right _) => if Z.even f then f else (f + 1)%Z
  | inright _ => (f + 1)%Z
  end.
Definition text (n : nat) (x : R) : Z := rnd_R (x * 10 ^ n).
Definition text_of (n : nat) (x : option R) : option Z := option_map (text n) x.

(** distance.py 6-8 *)
Definition dist (p q : pt2) : R := sqrt ((fst p - fst q) ^ 2 + (snd p - snd q) ^ 2).
(** np division: 0/0 is nan *)
Definition quotient (a b : R) : option R := if Req_EM_T b 0 then None else Some (a / b).
(** angles_of_triangle.py 9-33, in degrees *)
Definition degrees (c : option R) : option R := option_map (fun c => acos c * 180 / PI) c.
Definition angles_of_triangle (A B C : pt2) : option R * option R * option R :=
  let a := dist B C in
  let b := dist A C in
  let c := dist A B in
  let a2 := a ^ 2 in
  let b2 := b ^ 2 in
  let c2 := c ^ 2 in
  (degrees (quotient (b2 + c2 - a2) (2 * b * c)),
   degrees (quotient (a2 + c2 - b2) (2 * a * c)),
   degrees (quotient (a2 + b2 - c2) (2 * a * b))).
(** angle.py 6-26, in radians *)
Definition angle (o p : pt2) : option R :=
  let x2 := fst p - fst o in
  let y2 := snd p - snd o in
  let ip := 1 * x2 + 0 * y2 in
  let len1 := sqrt (1 ^ 2 + 0 ^ 2) in
  let len2 := sqrt (x2 ^ 2 + y2 ^ 2) in
  if Rlt_dec y2 0 then option_map (fun c => 2 * PI - acos c) (quotient ip (len1 * len2))
  else option_map acos (quotient ip (len1 * len2)).
Definition nan_plus (x y : option R) : option R := match x, y with Some a, Some b => Some (a + b) | _, _ => None end.

(** the numbers that are written into the signatures *)
Definition triangle_numbers (A B C : pt2) : list (option R) :=
  let '(a, b, _) := angles_of_triangle A B C in [a; b; angle A B; Some (dist A B)].
Definition quad_numbers (A B C D : pt2) : list (option R) :=
  let '(a0, b, c0) := angles_of_triangle A B C in
  let '(a1, c1, _) := angles_of_triangle A C D in
  [nan_plus a0 a1; b; nan_plus c0 c1; angle A C; Some (dist A C)].

Inductive element :=
| Triangle5 (A B C : pt2)
| Quad9 (A B C D : pt2)
| Rectangle (ox oy dx dy : R)
| Hexahedron (ox oy oz dx dy dz : R)
| Unique (id : nat) (J : R -> R -> mat).
(** [metric_signature]: type and numbers; an int (the id) for unique elements *)
Inductive kind := K5 | K9 | OR2 | OR3.
Definition write (digits : list nat) (xs : list (option R)) : list (option Z) := map (fun dx => text_of (fst dx) (snd dx)) (combine digits xs).
Definition metric_signature (e : element) : (kind * list (option Z)) + nat :=
  match e with
  | Triangle5 A B C => inl (K5, write [3; 3; 3; 6]%nat (triangle_numbers A B C))
  | Quad9 A B C D => inl (K9, write [2; 2; 2; 3; 5]%nat (quad_numbers A B C D))
  | Rectangle _ _ dx dy => inl (OR2, write [5; 5]%nat [Some dx; Some dy])
  | Hexahedron _ _ _ dx dy dz => inl (OR3, write [5; 5; 5]%nat [Some dx; Some dy; Some dz])
  | Unique id _ => inr id
  end.
(** ___Jacobian_matrix___ of the elements in the plane *)
Definition own_J (e : element) (xi et : R) : mat :=
  match e with
  | Triangle5 A B C => tri5_J [A; B; C] xi et
  | Quad9 A B C D => quad9_J [A; B; C; D] xi et
  | Rectangle _ _ dx dy => mat2 (dx / 2) 0 0 (dy / 2)
  | Hexahedron _ _ _ dx dy dz => mat3 (dx / 2) 0 0 0 (dy / 2) 0 0 0 (dz / 2)
  | Unique _ J => J xi et
  end.

(** * data computed once per signature *)
Definition key_eq_dec (a b : kind * list (option Z)) : {a = b} + {a <> b}.
Proof. repeat decide equality. Defined.
Section Shared.
Context {P V : Type} (peq : forall p q : P, {p = q} + {p <> q}).
(** what is computed for an element (Jacobian matrices at points, mass matrices of degrees ...) *)
Variable own : element -> P -> V.
Fixpoint found (c : list ((kind * list (option Z)) * P * V)) (k : kind * list (option Z)) (p : P) : option V :=
  match c with
  | [] => None
  | (k', p', v) :: r => if key_eq_dec k' k then if peq p' p then Some v else found r k p else found r k p
  end.
(** base.py 614-627; MM_m2n2k1.py 43-75 *)
Definition shared (c : list ((kind * list (option Z)) * P * V)) (e : element) (p : P) : V * list ((kind * list (option Z)) * P * V) :=
  match metric_signature e with
  | inr _ => (own e p, c)
  | inl k => match found c k p with
             | Some v => (v, c)
             | None => (own e p, (k, p, own e p) :: c)
             end
  end.
(** the results of a sequence of calls *)
Fixpoint calls (c : list ((kind * list (option Z)) * P * V)) (es : list (element * P)) : list V :=
  match es with
  | [] => []
  | (e, p) :: r => let (v, c') := shared c e p in v :: calls c' r
  end.
End Shared.
