(** Model of the mass matrices of one element.

    /repo/msepy/space/mass_matrix/Lambda.py 76-330, 398-432,
    /repo/msehtt/static/space/mass_matrix/Lambda/MM_*.py (the same formulas).

    [J] is Jacobian_matrix of the element at one point; nodes and weights of
    the quadrature in every direction are arguments.  [linear] is
    [reference_mtype[:6] == 'Linear'] of msepy; msehtt has the linear formulas
    for orthogonal elements and (3-D, k = 1, 2) for
    "unique msepy curvilinear hexahedron", the others elsewhere.
    Left out: basis functions with reversed signs on some faces; sparse storage;
    _m2_n1_k1_outer (434-). *)
From Coq Require Import List Arith Reals Bool String.
From Verif Require Import PolyModel TensorModel MappingModel JacobianModel ReduceModel.
Import ListNotations.
Local Open Scope R_scope.
Local Notation i0 := 0%nat.
Local Notation i1 := 1%nat.
Local Notation i2 := 2%nat.
Local Notation mat := MappingModel.mat.

(** quad_weights_ravel: /repo/tools/quadrature.py 149-169, tensordot(axes=0), ravel('F') *)
Definition weights2 (wx wy : list R) : list R := flat_map (fun b => map (fun a => a * b) wx) wy.
Definition weights3 (wx wy wz : list R) : list R := flat_map (fun c => map (fun ab => ab * c) (weights2 wx wy)) wz.

(** np.einsum('m, im, jm -> ij', metric, bfO, bfS): Lambda.py 299-303 *)
Definition einsum2 (metric : nat -> R) (bfO bfS : fm) : fm :=
  mk_fm (fm_rows bfO) (fm_rows bfS)
        (fun i j => np_sum (fm_cols bfO) (fun m => metric m * fm_at bfO i m * fm_at bfS j m)).
(** M.T, -M *)
Definition ft (A : fm) : fm := mk_fm (fm_cols A) (fm_rows A) (fun i j => fm_at A j i).
Definition fneg (A : fm) : fm := mk_fm (fm_rows A) (fm_cols A) (fun i j => - fm_at A i j).

(** scipy.sparse.bmat of a square array of blocks, None is a zero block; the
    sizes of the rows and columns are those of the blocks on the diagonal *)
Fixpoint locate (sizes : list nat) (r : nat) : option (nat * nat) :=
  match sizes with
  | [] => None
  | n :: ns => if Nat.ltb r n then Some (0%nat, r)
               else match locate ns (r - n) with Some (b, o) => Some (S b, o) | None => None end
  end.
Definition bmat (sizes : list nat) (blocks : list (list (option fm))) : fm :=
  mk_fm (list_sum sizes) (list_sum sizes)
        (fun r c => match locate sizes r, locate sizes c with
                    | Some (i, r'), Some (j, c') =>
                        match nth j (nth i blocks []) None with Some B => fm_at B r' c' | None => 0 end
                    | _, _ => 0
                    end).

(** det J, 1 / det J, inverse metric matrix at the m-th quadrature point *)
Definition det_at (n : nat) (J : mat) : R := match jac_det n J with Some d => d | None => 0 end.
Definition at2 {A} (qx qy : list R) (f : R -> R -> A) (m : nat) : A := let '(x, y) := nth m (points2 qx qy) (0, 0) in f x y.
Definition at3 {A} (qx qy qz : list R) (f : R -> R -> R -> A) (m : nat) : A :=
  let '(x, y, z) := nth m (points3 qx qy qz) (0, 0, 0) in f x y z.

(** one component: _m1_n1_k0, _m2_n2_k0, _m3_n3_k0 and _m1_n1_k1, _m2_n2_k2, _m3_n3_k3 *)
Definition mm_scalar (metric : nat -> R) (bfs : list fm) : option fm :=
  match bfs with b :: _ => Some (einsum2 metric b b) | [] => None end.

Definition mm_m1n1k0 (J : R -> mat) (sx qx wx : list R) : option fm :=
  mm_scalar (fun m => det_at 1 (J (nth m qx 0)) * nth m wx 0) (bf_m1n1k0 sx qx).
Definition mm_m1n1k1 (J : R -> mat) (sx qx wx : list R) : option fm :=
  mm_scalar (fun m => / det_at 1 (J (nth m qx 0)) * nth m wx 0) (bf_m1n1k1 sx qx).

Section Two.
Variables (J : R -> R -> mat) (sx sy qx wx qy wy : list R).
Definition qw2 (m : nat) : R := nth m (weights2 wx wy) 0.
Definition det2 (m : nat) : R := at2 qx qy (fun x y => det_at 2 (J x y)) m.
Definition g2 (i j m : nat) : R := at2 qx qy (fun x y => jac_iG 2 (inverse 2 (J x y)) i j) m.
(** 218-237 *)
Definition mm_m2n2k0 : option fm := mm_scalar (fun m => det2 m * qw2 m) (bf_m2n2k0 sx sy qx qy).
(** 239-258 *)
Definition mm_m2n2k2 : option fm := mm_scalar (fun m => / det2 m * qw2 m) (bf_m2n2k2 sx sy qx qy).
(** 260-297 *)
Definition mm_m2n2k1_inner (linear : bool) : option fm :=
  match bf_m2n2k1_inner sx sy qx qy with
  | [b0; b1] =>
      let M00 := einsum2 (fun m => qw2 m * det2 m * g2 i0 i0 m) b0 b0 in
      let M11 := einsum2 (fun m => qw2 m * det2 m * g2 i1 i1 m) b1 b1 in
      let M01 := if linear then None else Some (einsum2 (fun m => qw2 m * det2 m * g2 i0 i1 m) b0 b1) in
      let M10 := option_map ft M01 in
      Some (bmat [fm_rows M00; fm_rows M11] [[Some M00; M01]; [M10; Some M11]])
  | _ => None
  end.
(** 305-342 *)
Definition mm_m2n2k1_outer (linear : bool) : option fm :=
  match bf_m2n2k1_outer sx sy qx qy with
  | [b0; b1] =>
      let M00 := einsum2 (fun m => qw2 m * det2 m * g2 i1 i1 m) b0 b0 in
      let M11 := einsum2 (fun m => qw2 m * det2 m * g2 i0 i0 m) b1 b1 in
      let M01 := if linear then None else Some (fneg (einsum2 (fun m => qw2 m * det2 m * g2 i1 i0 m) b0 b1)) in
      let M10 := option_map ft M01 in
      Some (bmat [fm_rows M00; fm_rows M11] [[Some M00; M01]; [M10; Some M11]])
  | _ => None
  end.
End Two.

Section Three.
Variables (J : R -> R -> R -> mat) (sx sy sz qx wx qy wy qz wz : list R).
Definition qw3 (m : nat) : R := nth m (weights3 wx wy wz) 0.
Definition det3 (m : nat) : R := at3 qx qy qz (fun x y z => det_at 3 (J x y z)) m.
Definition g3 (i j m : nat) : R := at3 qx qy qz (fun x y z => jac_iG 3 (inverse 3 (J x y z)) i j) m.
(** 197-216 *)
Definition mm_m3n3k0 : option fm := mm_scalar (fun m => det3 m * qw3 m) (bf_m3n3k0 sx sy sz qx qy qz).
(** 76-95 *)
Definition mm_m3n3k3 : option fm := mm_scalar (fun m => / det3 m * qw3 m) (bf_m3n3k3 sx sy sz qx qy qz).
(** 151-195 *)
Definition mm_m3n3k1 (linear : bool) : option fm :=
  match bf_m3n3k1 sx sy sz qx qy qz with
  | [b0; b1; b2] =>
      let w i j := fun m => qw3 m * det3 m * g3 i j m in
      let M00 := einsum2 (w i0 i0) b0 b0 in
      let M11 := einsum2 (w i1 i1) b1 b1 in
      let M22 := einsum2 (w i2 i2) b2 b2 in
      let M01 := if linear then None else Some (einsum2 (w i0 i1) b0 b1) in
      let M02 := if linear then None else Some (einsum2 (w i0 i2) b0 b2) in
      let M12 := if linear then None else Some (einsum2 (w i1 i2) b1 b2) in
      let M10 := option_map ft M01 in
      let M20 := option_map ft M02 in
      let M21 := option_map ft M12 in
      Some (bmat [fm_rows M00; fm_rows M11; fm_rows M22]
                 [[Some M00; M01; M02]; [M10; Some M11; M12]; [M20; M21; Some M22]])
  | _ => None
  end.
(** 97-149 *)
Definition mm_m3n3k2 (linear : bool) : option fm :=
  match bf_m3n3k2 sx sy sz qx qy qz with
  | [b0; b1; b2] =>
      let w f := fun m => qw3 m * det3 m * f m in
      let d f g := if linear then f else fun m : nat => f m - g m in
      let g := g3 in
      let M00 := einsum2 (w (d (fun m => g i1 i1 m * g i2 i2 m) (fun m => g i1 i2 m * g i2 i1 m))) b0 b0 in
      let M11 := einsum2 (w (d (fun m => g i2 i2 m * g i0 i0 m) (fun m => g i2 i0 m * g i0 i2 m))) b1 b1 in
      let M22 := einsum2 (w (d (fun m => g i0 i0 m * g i1 i1 m) (fun m => g i0 i1 m * g i1 i0 m))) b2 b2 in
      let M01 := if linear then None else Some (einsum2 (w (fun m => g i1 i2 m * g i2 i0 m - g i1 i0 m * g i2 i2 m)) b0 b1) in
      let M02 := if linear then None else Some (einsum2 (w (fun m => g i1 i0 m * g i2 i1 m - g i1 i1 m * g i2 i0 m)) b0 b2) in
      let M12 := if linear then None else Some (einsum2 (w (fun m => g i2 i0 m * g i0 i1 m - g i2 i1 m * g i0 i0 m)) b1 b2) in
      let M10 := option_map ft M01 in
      let M20 := option_map ft M02 in
      let M21 := option_map ft M12 in
      Some (bmat [fm_rows M00; fm_rows M11; fm_rows M22]
                 [[Some M00; M01; M02]; [M10; Some M11; M12]; [M20; M21; Some M22]])
  | _ => None
  end.
End Three.

(** msehtt, "unique msepy curvilinear hexahedron": MM_m3n3k1.py 93-130, MM_m3n3k2.py 94-131 *)
Definition mm331_unique_hexahedron J sx sy sz qx wx qy wy qz wz := mm_m3n3k1 J sx sy sz qx wx qy wy qz wz true.
Definition mm332_unique_hexahedron J sx sy sz qx wx qy wy qz wz := mm_m3n3k2 J sx sy sz qx wx qy wy qz wz true.

(** * MsePyMassMatrixLambda.__call__ 25-74: choice of the quadrature and cache *)
(** quadrature degrees and category; the category of a space is its ntype *)
Definition quad_choice (is_linear high_accuracy : bool) (p : list nat) (ntype : string) : list nat * string :=
  if is_linear then if high_accuracy then (map (fun q => q + 1)%nat p, "Gauss"%string) else (p, ntype)
  else (map (fun q => q + 2)%nat p, "Gauss"%string).
(** the cache: degree (as the string of the key) to matrices; the quadrature is not part of the key *)
Definition mm_call {M} (build : string -> list nat * string -> M) (is_linear : bool)
  (cache : list (string * M)) (high_accuracy : bool) (degree : string) (p : list nat) (ntype : string) : M * list (string * M) :=
  let quad := quad_choice is_linear high_accuracy p ntype in
  match List.find (fun kv => String.eqb (fst kv) degree) cache with
  | Some (_, m) => (m, cache)
  | None => let m := build degree quad in (m, (degree, m) :: cache)
  end.
