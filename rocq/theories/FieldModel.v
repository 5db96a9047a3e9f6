(** Model of the analytic fields of time and space: tools/functions/time_space/_2d/wrappers/{scalar,vector,tensor}.py,
    _3d/wrappers/{scalar,vector}.py and tools/numerical.  Numbers are reals instead of floats; a field evaluated on
    arrays of points is the field evaluated at each point.  None stands for an exception.  Left out: plotting, merging
    over boundaries, allowed time ranges (only None is accepted, base.py:36-43), linked objects, cached results
    (the cached properties do not depend on anything that changes) and the mesh kept with a result. *)
From Coq Require Import Reals List Bool.
Import ListNotations.
Local Open Scope R_scope.

Notation fld2 := (R -> R -> R -> R).
Notation fld3 := (R -> R -> R -> R -> R).

(** * numerical derivatives *)

(** tools/numerical/derivative.py:6-34; the methods 'forward' and 'backward' are used nowhere *)
Definition central (h : R) (f : R -> R) (x : R) : R := (f (x + h) - f (x - h)) / (2 * h).

(** the steps: time_space/_2d/partial_derivative.py:14, time_space/_3d/partial_derivative.py:14 *)
Definition step2 : R := / 10000.
Definition step3 : R := / 1000000.

(** NumericalPartialDerivativeTxy.partial, time_space/_2d/partial_derivative.py:43-62, and the functions of
    partial_derivative_as_functions.py *)
Definition n2t (f : fld2) : fld2 := fun t x y => central step2 (fun s => f s x y) t.
Definition n2x (f : fld2) : fld2 := fun t x y => central step2 (fun s => f t s y) x.
Definition n2y (f : fld2) : fld2 := fun t x y => central step2 (fun s => f t x s) y.

(** NumericalPartialDerivativeTxyz.partial, time_space/_3d/partial_derivative.py:41-67 *)
Definition n3t (f : fld3) : fld3 := fun t x y z => central step3 (fun s => f s x y z) t.
Definition n3x (f : fld3) : fld3 := fun t x y z => central step3 (fun s => f t s y z) x.
Definition n3y (f : fld3) : fld3 := fun t x y z => central step3 (fun s => f t x s z) y.
Definition n3z (f : fld3) : fld3 := fun t x y z => central step3 (fun s => f t x y s) z.

(** the supplied derivative, otherwise the numerical one; the branches 'if self._dx is None' of every operator *)
Definition given {F : Type} (d : option F) (n : F) : F := match d with Some g => g | None => n end.

(** * objects *)

(** an entry of the list of derivatives: None, a number or a function *)
Inductive entry (F : Type) := ENone | ENum (r : R) | EFun (f : F).
Arguments ENone {F}. Arguments ENum {F} r. Arguments EFun {F} f.

(** scalar.py:69-76, vector.py:125-132, _3d/wrappers/scalar.py:65-72: 0 stands for the zero function, other numbers raise *)
Definition fill {F : Type} (zero : F) (e : entry F) : option (option F) :=
  match e with
  | ENone => Some None
  | ENum r => if Req_EM_T r 0 then Some (Some zero) else None
  | EFun f => Some (Some f)
  end.

Fixpoint fills {F : Type} (zero : F) (l : list (entry F)) : option (list (option F)) :=
  match l with
  | [] => Some []
  | e :: l' => match fill zero e, fills zero l' with Some d, Some r => Some (d :: r) | _, _ => None end
  end.

(** T2dScalar: the function, [dt, dx, dy] and [dd_tt, dd_xx, dd_xy, dd_yx, dd_yy] *)
Record sc2 := { s2 : fld2; s2t : option fld2; s2x : option fld2; s2y : option fld2;
                s2tt : option fld2; s2xx : option fld2; s2xy : option fld2; s2yx : option fld2; s2yy : option fld2 }.
(** T2dVector: the components, the time derivatives and the Jacobian matrix *)
Record ve2 := { v2u : fld2; v2v : fld2; v2ut : option fld2; v2vt : option fld2;
                v2ux : option fld2; v2uy : option fld2; v2vx : option fld2; v2vy : option fld2 }.
(** T2dTensor, tensor.py:18-47 *)
Record te2 := { t00 : fld2; t01 : fld2; t10 : fld2; t11 : fld2 }.
(** T3dScalar with the flag of _3d/wrappers/scalar.py:46-51 *)
Record sc3 := { s3 : fld3; s3zero : bool; s3t : option fld3; s3x : option fld3; s3y : option fld3; s3z : option fld3 }.
(** T3dVector *)
Record ve3 := { v3u : fld3; v3v : fld3; v3w : fld3; v3ut : option fld3; v3vt : option fld3; v3wt : option fld3;
                v3ux : option fld3; v3uy : option fld3; v3uz : option fld3;
                v3vx : option fld3; v3vy : option fld3; v3vz : option fld3;
                v3wx : option fld3; v3wy : option fld3; v3wz : option fld3 }.

(** ___0_func2___, _0_function, ___0_func___ *)
Definition zero2 : fld2 := fun _ _ _ => 0.
Definition zero3 : fld3 := fun _ _ _ _ => 0.

(** T2dScalar.__init__, _2d/wrappers/scalar.py:57-108 *)
Definition new_sc2 (s : fld2) (steady : bool) (d : option (list (entry fld2))) (dd : option (list (entry fld2))) : option sc2 :=
  match match d with None => Some [None; None; None] | Some l => if Nat.eqb (length l) 3 then fills zero2 l else None end,
        match dd with None => Some [None; None; None; None; None] | Some l => if Nat.eqb (length l) 5 then fills zero2 l else None end with
  | Some [dt; dx; dy], Some [dtt; dxx; dxy; dyx; dyy] =>
      Some {| s2 := s; s2t := if steady then Some zero2 else dt; s2x := dx; s2y := dy;
              s2tt := dtt; s2xx := dxx; s2xy := dxy; s2yx := dyx; s2yy := dyy |}
  | _, _ => None
  end.

(** self.__class__(s), T2dVector(u, v): nothing but the function is handed on; all operators build their results so *)
Definition mk_sc2 (s : fld2) : sc2 := {| s2 := s; s2t := None; s2x := None; s2y := None; s2tt := None; s2xx := None;
                                         s2xy := None; s2yx := None; s2yy := None |}.
Definition mk_ve2 (u v : fld2) : ve2 := {| v2u := u; v2v := v; v2ut := None; v2vt := None; v2ux := None; v2uy := None;
                                           v2vx := None; v2vy := None |}.
Definition mk_sc3 (s : fld3) : sc3 := {| s3 := s; s3zero := false; s3t := None; s3x := None; s3y := None; s3z := None |}.
Definition mk_ve3 (u v w : fld3) : ve3 := {| v3u := u; v3v := v; v3w := w; v3ut := None; v3vt := None; v3wt := None;
                                             v3ux := None; v3uy := None; v3uz := None; v3vx := None; v3vy := None;
                                             v3vz := None; v3wx := None; v3wy := None; v3wz := None |}.

(** T3dScalar(0) and T3dScalar(s), _3d/wrappers/scalar.py:44-84; [None] as the function stands for the number 0 *)
Definition new_sc3 (s : option fld3) (steady : bool) (d : option (list (entry fld3))) : option sc3 :=
  match match d with None => Some [None; None; None; None] | Some l => if Nat.eqb (length l) 4 then fills zero3 l else None end with
  | Some [dt; dx; dy; dz] =>
      Some {| s3 := match s with Some f => f | None => zero3 end; s3zero := match s with Some _ => false | None => true end;
              s3t := if steady then Some zero3 else dt; s3x := dx; s3y := dy; s3z := dz |}
  | _ => None
  end.

(** a Jacobian matrix: rows of the right length, each entry filled; vector.py:117-139, _3d/wrappers/vector.py:101-131 *)
Fixpoint jacobian {F : Type} (n : nat) (zero : F) (rows : list (list (entry F))) : option (list (list (option F))) :=
  match rows with
  | [] => Some []
  | r :: rest => if Nat.eqb (length r) n
                 then match fills zero r, jacobian n zero rest with Some a, Some b => Some (a :: b) | _, _ => None end
                 else None
  end.

(** T2dVector.__init__, vector.py:80-155; time derivatives are given as functions or left out *)
Definition new_ve2 (u v : fld2) (steady : bool) (J : option (list (list (entry fld2)))) (td : option (list (option fld2))) : option ve2 :=
  match match J with None => Some [[None; None]; [None; None]] | Some l => if Nat.eqb (length l) 2 then jacobian 2 zero2 l else None end,
        (if steady then Some [Some zero2; Some zero2]
         else match td with None => Some [None; None] | Some l => Some l end) with
  | Some [[ux; uy]; [vx; vy]], Some [ut; vt] =>
      Some {| v2u := u; v2v := v; v2ut := ut; v2vt := vt; v2ux := ux; v2uy := uy; v2vx := vx; v2vy := vy |}
  | _, _ => None
  end.

(** T3dVector.__init__, _3d/wrappers/vector.py:80-153 *)
Definition new_ve3 (u v w : fld3) (steady : bool) (J : option (list (list (entry fld3)))) (td : option (list (option fld3))) : option ve3 :=
  match match J with None => Some [[None; None; None]; [None; None; None]; [None; None; None]]
                   | Some l => if Nat.eqb (length l) 3 then jacobian 3 zero3 l else None end,
        (if steady then Some [Some zero3; Some zero3; Some zero3]
         else match td with None => Some [None; None; None] | Some l => Some l end) with
  | Some [[ux; uy; uz]; [vx; vy; vz]; [wx; wy; wz]], Some [ut; vt; wt] =>
      Some {| v3u := u; v3v := v; v3w := w; v3ut := ut; v3vt := vt; v3wt := wt; v3ux := ux; v3uy := uy; v3uz := uz;
              v3vx := vx; v3vy := vy; v3vz := vz; v3wx := wx; v3wy := wy; v3wz := wz |}
  | _, _ => None
  end.

(** * helpers: _2d/wrappers/helpers and _3d/wrappers/helpers *)
Definition add2 (f g : fld2) : fld2 := fun t x y => f t x y + g t x y.
Definition sub2 (f g : fld2) : fld2 := fun t x y => f t x y - g t x y.
Definition neg2 (f : fld2) : fld2 := fun t x y => - f t x y.
Definition mul2 (f g : fld2) : fld2 := fun t x y => f t x y * g t x y.
Definition scale2 (c : R) (f : fld2) : fld2 := fun t x y => c * f t x y.
Definition add3 (f g : fld3) : fld3 := fun t x y z => f t x y z + g t x y z.
Definition sub3 (f g : fld3) : fld3 := fun t x y z => f t x y z - g t x y z.
Definition neg3 (f : fld3) : fld3 := fun t x y z => - f t x y z.
Definition mul3 (f g : fld3) : fld3 := fun t x y z => f t x y z * g t x y z.
Definition scale3 (c : R) (f : fld3) : fld3 := fun t x y z => c * f t x y z.
Definition sum3 (f g k : fld3) : fld3 := fun t x y z => f t x y z + g t x y z + k t x y z.

(** * scalars in the plane: _2d/wrappers/scalar.py *)

(** 286-292 *)
Definition s2_time (s : sc2) : sc2 := mk_sc2 (given (s2t s) (n2t (s2 s))).
(** 295-309 *)
Definition s2_gradient (s : sc2) : ve2 := mk_ve2 (given (s2x s) (n2x (s2 s))) (given (s2y s) (n2y (s2 s))).
(** 312-328 *)
Definition s2_curl (s : sc2) : ve2 := mk_ve2 (given (s2y s) (n2y (s2 s))) (neg2 (given (s2x s) (n2x (s2 s)))).
(** 394-421 *)
Definition s2_add (a b : sc2) : sc2 := mk_sc2 (add2 (s2 a) (s2 b)).
Definition s2_sub (a b : sc2) : sc2 := mk_sc2 (sub2 (s2 a) (s2 b)).
Definition s2_neg (a : sc2) : sc2 := mk_sc2 (neg2 (s2 a)).
(** 339-362 *)
Definition s2_log (a : sc2) : sc2 := mk_sc2 (fun t x y => ln (s2 a t x y)).
Definition s2_exp (a : sc2) : sc2 := mk_sc2 (fun t x y => exp (s2 a t x y)).
Definition s2_abs (a : sc2) : sc2 := mk_sc2 (fun t x y => Rabs (s2 a t x y)).
(** 450-465 *)
Definition s2_cross (a : sc2) (b : ve2) : ve2 := mk_ve2 (neg2 (mul2 (s2 a) (v2v b))) (mul2 (s2 a) (v2u b)).

(** * vectors in the plane: _2d/wrappers/vector.py *)

(** 305-319 *)
Definition v2_time (v : ve2) : ve2 := mk_ve2 (given (v2ut v) (n2t (v2u v))) (given (v2vt v) (n2t (v2v v))).
(** 429-456 *)
Definition v2_gradient (v : ve2) : te2 :=
  {| t00 := given (v2ux v) (n2x (v2u v)); t01 := given (v2uy v) (n2y (v2u v));
     t10 := given (v2vx v) (n2x (v2v v)); t11 := given (v2vy v) (n2y (v2v v)) |}.
(** 459-489 *)
Definition v2_curl (v : ve2) : te2 :=
  {| t00 := given (v2uy v) (n2y (v2u v)); t01 := neg2 (given (v2ux v) (n2x (v2u v)));
     t10 := given (v2vy v) (n2y (v2v v)); t11 := neg2 (given (v2vx v) (n2x (v2v v))) |}.
(** 492-509 *)
Definition v2_divergence (v : ve2) : sc2 :=
  s2_add (mk_sc2 (given (v2ux v) (n2x (v2u v)))) (mk_sc2 (given (v2vy v) (n2y (v2v v)))).
(** 512-537 *)
Definition v2_rot (v : ve2) : sc2 :=
  s2_sub (mk_sc2 (given (v2vx v) (n2x (v2v v)))) (mk_sc2 (given (v2uy v) (n2y (v2u v)))).
(** 606-666 *)
Definition v2_add (a b : ve2) : ve2 := mk_ve2 (add2 (v2u a) (v2u b)) (add2 (v2v a) (v2v b)).
Definition v2_sub (a b : ve2) : ve2 := mk_ve2 (sub2 (v2u a) (v2u b)) (sub2 (v2v a) (v2v b)).
Definition v2_neg (a : ve2) : ve2 := mk_ve2 (neg2 (v2u a)) (neg2 (v2v a)).
(** 540-544 *)
Definition v2_Laplacian (v : ve2) : ve2 := v2_sub (s2_gradient (v2_divergence v)) (s2_curl (v2_rot v)).
(** scalar.py:331-337 *)
Definition s2_Laplacian (s : sc2) : sc2 :=
  match s2xx s, s2yy s with
  | Some xx, Some yy => mk_sc2 (add2 xx yy)
  | _, _ => v2_divergence (s2_gradient s)
  end.
(** 547-560 *)
Definition v2_norm (v : ve2) : sc2 := mk_sc2 (fun t x y => sqrt (v2u v t x y ^ 2 + v2v v t x y ^ 2)).
(** 575-604, behind the assertion *)
Definition v2_convection (v u : ve2) : ve2 :=
  mk_ve2 (add2 (mul2 (v2u u) (given (v2ux v) (n2x (v2u v)))) (mul2 (v2v u) (given (v2uy v) (n2y (v2u v)))))
         (add2 (mul2 (v2u u) (given (v2vx v) (n2x (v2v v)))) (mul2 (v2v u) (given (v2vy v) (n2y (v2v v))))).
(** scalar.py:377-392, behind the assertion *)
Definition s2_convection (s : sc2) (u : ve2) : sc2 :=
  mk_sc2 (add2 (mul2 (v2u u) (given (s2x s) (n2x (s2 s)))) (mul2 (v2v u) (given (s2y s) (n2y (s2 s))))).
(** 687-712 *)
Definition v2_dot (a b : ve2) : sc2 := mk_sc2 (add2 (mul2 (v2u a) (v2u b)) (mul2 (v2v a) (v2v b))).
(** 723-733 *)
Definition v2_cross (a b : ve2) : sc2 := mk_sc2 (sub2 (mul2 (v2u a) (v2v b)) (mul2 (v2v a) (v2u b))).
(** 735-736 *)
Definition v2_cross_s (a : ve2) (b : sc2) : ve2 := v2_neg (s2_cross b a).
(** 741-762 *)
Definition v2_tensor (a b : ve2) : te2 :=
  {| t00 := mul2 (v2u a) (v2u b); t01 := mul2 (v2u a) (v2v b); t10 := mul2 (v2v a) (v2u b); t11 := mul2 (v2v a) (v2v b) |}.

(** tensor.py:101-108, 110-126, 128-144 *)
Definition t2_time (T : te2) : te2 := {| t00 := n2t (t00 T); t01 := n2t (t01 T); t10 := n2t (t10 T); t11 := n2t (t11 T) |}.
Definition t2_divergence (T : te2) : ve2 := mk_ve2 (add2 (n2x (t00 T)) (n2y (t01 T))) (add2 (n2x (t10 T)) (n2y (t11 T))).
Definition t2_rot (T : te2) : ve2 := mk_ve2 (sub2 (n2x (t01 T)) (n2y (t00 T))) (sub2 (n2x (t11 T)) (n2y (t10 T))).

(** ** the integral in time: vector.py:389-415 *)

(** int(q) for q >= 0 *)
Definition int_part (q : R) : nat := Z.to_nat (Int_part q).
(** one pass of the loop for the remaining [n] segments from [it0] *)
Fixpoint trapezoid (f : R -> R) (n : nat) (h it0 : R) : R :=
  match n with
  | O => 0
  | S n' => (f it0 + f (it0 + h)) / 2 * h + trapezoid f n' h (it0 + h)
  end.
Definition tiny : R := / 100000000.
Definition time_integral (f : R -> R) (t0 t1 h : R) : R :=
  if Rlt_dec (Rabs (t0 - t1)) tiny then 0
  else let n := S (int_part (Rabs (t1 - t0) / h)) in
       let w := Rabs (t1 - t0) / INR n in
       trapezoid f n (if Rlt_dec t1 t0 then - w else w) t0.
(** 321-330 and 417-426: the vector that is the integral from t0; h > 0 is asserted when it is evaluated *)
Definition v2_integral (v : ve2) (t0 h : R) : option ve2 :=
  if Rlt_dec 0 h then Some (mk_ve2 (fun t x y => time_integral (fun s => v2u v s x y) t0 t h)
                                   (fun t x y => time_integral (fun s => v2v v s x y) t0 t h))
  else None.

(** * scalars and vectors in space: _3d/wrappers/scalar.py and vector.py *)

(** scalar.py:193-199 *)
Definition s3_time (s : sc3) : sc3 := mk_sc3 (given (s3t s) (n3t (s3 s))).
(** scalar.py:201-223 *)
Definition s3_gradient (s : sc3) : ve3 :=
  if s3zero s then mk_ve3 zero3 zero3 zero3
  else mk_ve3 (given (s3x s) (n3x (s3 s))) (given (s3y s) (n3y (s3 s))) (given (s3z s) (n3z (s3 s))).
(** scalar.py:261-290 *)
Definition s3_add (a b : sc3) : sc3 := mk_sc3 (add3 (s3 a) (s3 b)).
Definition s3_sub (a b : sc3) : sc3 := mk_sc3 (sub3 (s3 a) (s3 b)).
Definition s3_neg (a : sc3) : sc3 := if s3zero a then a else mk_sc3 (neg3 (s3 a)).
(** vector.py:312-329 *)
Definition v3_time (v : ve3) : ve3 :=
  mk_ve3 (given (v3ut v) (n3t (v3u v))) (given (v3vt v) (n3t (v3v v))) (given (v3wt v) (n3t (v3w v))).
(** vector.py:331-352 *)
Definition v3_divergence (v : ve3) : sc3 :=
  mk_sc3 (sum3 (given (v3ux v) (n3x (v3u v))) (given (v3vy v) (n3y (v3v v))) (given (v3wz v) (n3z (v3w v)))).
(** vector.py:354-398 *)
Definition v3_curl (v : ve3) : ve3 :=
  mk_ve3 (sub3 (given (v3wy v) (n3y (v3w v))) (given (v3vz v) (n3z (v3v v))))
         (sub3 (given (v3uz v) (n3z (v3u v))) (given (v3wx v) (n3x (v3w v))))
         (sub3 (given (v3vx v) (n3x (v3v v))) (given (v3uy v) (n3y (v3u v)))).
(** vector.py:474-531 *)
Definition v3_add (a b : ve3) : ve3 := mk_ve3 (add3 (v3u a) (v3u b)) (add3 (v3v a) (v3v b)) (add3 (v3w a) (v3w b)).
Definition v3_sub (a b : ve3) : ve3 := mk_ve3 (sub3 (v3u a) (v3u b)) (sub3 (v3v a) (v3v b)) (sub3 (v3w a) (v3w b)).
Definition v3_neg (a : ve3) : ve3 := mk_ve3 (neg3 (v3u a)) (neg3 (v3v a)) (neg3 (v3w a)).
(** vector.py:553-579 *)
Definition v3_dot (a b : ve3) : sc3 := mk_sc3 (sum3 (mul3 (v3u a) (v3u b)) (mul3 (v3v a) (v3v b)) (mul3 (v3w a) (v3w b))).
(** vector.py:581-602: the difference of two vectors of products *)
Definition v3_cross (a b : ve3) : ve3 :=
  v3_sub (mk_ve3 (mul3 (v3v a) (v3w b)) (mul3 (v3w a) (v3u b)) (mul3 (v3u a) (v3v b)))
         (mk_ve3 (mul3 (v3w a) (v3v b)) (mul3 (v3u a) (v3w b)) (mul3 (v3v a) (v3u b))).

(** * which operations python finds *)

(** an object a user holds; T3dTensor has no operation modelled here *)
Inductive obj := ONum (r : R) | OS2 (s : sc2) | OV2 (v : ve2) | OT2 (T : te2) | OS3 (s : sc3) | OV3 (v : ve3).

(** a + b and a - b: the classes must agree; no class has __radd__ or __rsub__ and tensors have no sum *)
Definition py_add (a b : obj) : option obj :=
  match a, b with
  | ONum p, ONum q => Some (ONum (p + q))
  | OS2 p, OS2 q => Some (OS2 (s2_add p q))
  | OV2 p, OV2 q => Some (OV2 (v2_add p q))
  | OS3 p, OS3 q => Some (OS3 (s3_add p q))
  | OV3 p, OV3 q => Some (OV3 (v3_add p q))
  | _, _ => None
  end.
Definition py_sub (a b : obj) : option obj :=
  match a, b with
  | ONum p, ONum q => Some (ONum (p - q))
  | OS2 p, OS2 q => Some (OS2 (s2_sub p q))
  | OV2 p, OV2 q => Some (OV2 (v2_sub p q))
  | OS3 p, OS3 q => Some (OS3 (s3_sub p q))
  | OV3 p, OV3 q => Some (OV3 (v3_sub p q))
  | _, _ => None
  end.
(** -a *)
Definition py_neg (a : obj) : option obj :=
  match a with
  | ONum p => Some (ONum (- p))
  | OS2 p => Some (OS2 (s2_neg p))
  | OV2 p => Some (OV2 (v2_neg p))
  | OT2 _ => None
  | OS3 p => Some (OS3 (s3_neg p))
  | OV3 p => Some (OV3 (v3_neg p))
  end.
(** a * b: a.__mul__ first; it raises instead of returning NotImplemented, so b.__rmul__ is only reached if a is a
    number (scalar.py:423-448, vector.py:668-685, _3d/wrappers/scalar.py:292-299, _3d/wrappers/vector.py:533-551) *)
Definition py_mul (a b : obj) : option obj :=
  match a, b with
  | ONum p, ONum q => Some (ONum (p * q))
  | OS2 p, OS2 q => Some (OS2 (mk_sc2 (mul2 (s2 p) (s2 q))))
  | OS2 p, ONum q => Some (OS2 (mk_sc2 (scale2 q (s2 p))))
  | OS2 p, OV2 q => Some (OV2 (mk_ve2 (mul2 (s2 p) (v2u q)) (mul2 (s2 p) (v2v q))))
  | ONum p, OS2 q => Some (OS2 (mk_sc2 (scale2 p (s2 q))))
  | OV2 p, ONum q => Some (OV2 (mk_ve2 (scale2 q (v2u p)) (scale2 q (v2v p))))
  | ONum p, OV2 q => Some (OV2 (mk_ve2 (scale2 p (v2u q)) (scale2 p (v2v q))))
  | OS3 p, OS3 q => Some (OS3 (mk_sc3 (mul3 (s3 p) (s3 q))))
  | OV3 p, ONum q => Some (OV3 (mk_ve3 (scale3 q (v3u p)) (scale3 q (v3v p)) (scale3 q (v3w p))))
  | ONum p, OV3 q => Some (OV3 (mk_ve3 (scale3 p (v3u q)) (scale3 p (v3v q)) (scale3 p (v3w q))))
  | _, _ => None
  end.
(** a.cross_product(b) *)
Definition py_cross (a b : obj) : option obj :=
  match a, b with
  | OS2 p, OV2 q => Some (OV2 (s2_cross p q))
  | OV2 p, OV2 q => Some (OS2 (v2_cross p q))
  | OV2 p, OS2 q => Some (OV2 (v2_cross_s p q))
  | OV3 p, OV3 q => Some (OV3 (v3_cross p q))
  | _, _ => None
  end.

(** u.__class__.__name__ *)
Inductive cls := C_float | C_T2dScalar | C_T2dVector | C_T2dTensor | C_T3dScalar | C_T3dVector | C_t2dVector | C_t3dVector.
Definition class_name (o : obj) : cls :=
  match o with
  | ONum _ => C_float | OS2 _ => C_T2dScalar | OV2 _ => C_T2dVector | OT2 _ => C_T2dTensor
  | OS3 _ => C_T3dScalar | OV3 _ => C_T3dVector
  end.
Definition cls_eqb (a b : cls) : bool :=
  match a, b with
  | C_float, C_float | C_T2dScalar, C_T2dScalar | C_T2dVector, C_T2dVector | C_T2dTensor, C_T2dTensor
  | C_T3dScalar, C_T3dScalar | C_T3dVector, C_T3dVector | C_t2dVector, C_t2dVector | C_t3dVector, C_t3dVector => true
  | _, _ => false
  end.
(** s.convection_by(u): the name that is asserted, scalar.py:375, vector.py:573, _3d/wrappers/scalar.py:236,
    _3d/wrappers/vector.py:411; the bodies behind the 3-D assertions are not modelled since they are not reached *)
Definition convection_by (s u : obj) : option obj :=
  match s with
  | OS2 p => if cls_eqb (class_name u) C_t2dVector then match u with OV2 q => Some (OS2 (s2_convection p q)) | _ => None end else None
  | OV2 p => if cls_eqb (class_name u) C_T2dVector then match u with OV2 q => Some (OV2 (v2_convection p q)) | _ => None end else None
  | OS3 _ | OV3 _ => if cls_eqb (class_name u) C_t3dVector then Some s else None
  | _ => None
  end.

(** * checking supplied derivatives: the mesh setters *)

(** check_partial_*, time_space/_2d/partial_derivative.py:72-110: [ns] are the numerical and [gs] the supplied values
    at the points; a quotient by 0 is inf or nan and the comparison is then false *)
Definition tol : R := / 100000.
Definition close_abs (ns gs : list R) : Prop := Forall2 (fun n g => Rabs (g - n) < tol) ns gs.
Definition close_rel (ns gs : list R) : Prop := Forall2 (fun n g => n <> 0 /\ Rabs ((g - n) / n) < tol) ns gs.
Definition check_partial (ns gs : list R) : Prop := close_abs ns gs \/ close_rel ns gs.

(** one component of a scalar or vector in the plane at the points (x, y) of an element at the time t;
    scalar.py:189-198 and vector.py:229-247 *)
Definition check2 (num : fld2) (d : option fld2) (t : R) (pts : list (R * R)) : Prop :=
  match d with
  | None => True
  | Some g => check_partial (map (fun p => num t (fst p) (snd p)) pts) (map (fun p => g t (fst p) (snd p)) pts)
  end.
Definition check3 (num : fld3) (d : option fld3) (t : R) (pts : list (R * R * R)) : Prop :=
  match d with
  | None => True
  | Some g => check_partial (map (fun p => num t (fst (fst p)) (snd (fst p)) (snd p)) pts)
                            (map (fun p => g t (fst (fst p)) (snd (fst p)) (snd p)) pts)
  end.
(** s.mesh = mesh for elements with points and a time of their own, first derivatives only; scalar.py:185-198 *)
Definition s2_mesh (s : sc2) (els : list (R * list (R * R))) : Prop :=
  Forall (fun e => check2 (n2t (s2 s)) (s2t s) (fst e) (snd e) /\ check2 (n2x (s2 s)) (s2x s) (fst e) (snd e) /\
                   check2 (n2y (s2 s)) (s2y s) (fst e) (snd e)) els.
(** v.mesh = mesh; vector.py:226-247 *)
Definition v2_mesh (v : ve2) (els : list (R * list (R * R))) : Prop :=
  Forall (fun e =>
    check2 (n2t (v2u v)) (v2ut v) (fst e) (snd e) /\ check2 (n2t (v2v v)) (v2vt v) (fst e) (snd e) /\
    check2 (n2x (v2u v)) (v2ux v) (fst e) (snd e) /\ check2 (n2y (v2u v)) (v2uy v) (fst e) (snd e) /\
    check2 (n2x (v2v v)) (v2vx v) (fst e) (snd e) /\ check2 (n2y (v2v v)) (v2vy v) (fst e) (snd e)) els.
(** s.mesh = mesh in space; _3d/wrappers/scalar.py:146-160 *)
Definition s3_mesh (s : sc3) (els : list (R * list (R * R * R))) : Prop :=
  Forall (fun e =>
    check3 (n3t (s3 s)) (s3t s) (fst e) (snd e) /\ check3 (n3x (s3 s)) (s3x s) (fst e) (snd e) /\
    check3 (n3y (s3 s)) (s3y s) (fst e) (snd e) /\ check3 (n3z (s3 s)) (s3z s) (fst e) (snd e)) els.
(** v.mesh = mesh in space; _3d/wrappers/vector.py:234-268, where line 240 reads x, y, z = X[i], Y[i], X[i] *)
Definition v3_points (pts : list (R * R * R)) : list (R * R * R) := map (fun p => (fst (fst p), snd (fst p), fst (fst p))) pts.
Definition v3_mesh (v : ve3) (els : list (R * list (R * R * R))) : Prop :=
  Forall (fun e => let pts := v3_points (snd e) in
    check3 (n3t (v3u v)) (v3ut v) (fst e) pts /\ check3 (n3t (v3v v)) (v3vt v) (fst e) pts /\ check3 (n3t (v3w v)) (v3wt v) (fst e) pts /\
    check3 (n3x (v3u v)) (v3ux v) (fst e) pts /\ check3 (n3y (v3u v)) (v3uy v) (fst e) pts /\ check3 (n3z (v3u v)) (v3uz v) (fst e) pts /\
    check3 (n3x (v3v v)) (v3vx v) (fst e) pts /\ check3 (n3y (v3v v)) (v3vy v) (fst e) pts /\ check3 (n3z (v3v v)) (v3vz v) (fst e) pts /\
    check3 (n3x (v3w v)) (v3wx v) (fst e) pts /\ check3 (n3y (v3w v)) (v3wy v) (fst e) pts /\ check3 (n3z (v3w v)) (v3wz v) (fst e) pts) els.
