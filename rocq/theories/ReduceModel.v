(** Model of the reduction of fields to cochains on one element, and of the
    transformation of reconstructed components to physical components.

    reduction:      /repo/msehtt/static/space/reduce/Lambda/Rd_*.py,
                    /repo/msepy/space/reduce/Lambda.py (the same arrays)
    reconstruction: /repo/msehtt/static/space/reconstruct/Lambda/Rc_*.py,
                    /repo/msepy/space/reconstruct/Lambda.py

    [phi], [J] are mapping and Jacobian_matrix of the element at one point;
    [F], [f] the field at one point and the fixed time.  Branches that skip
    entries of J that are the number 0 are merged with the general ones.  The
    quadrature nodes and weights are arguments.  Left out: the reversal of the
    dofs of some faces, msepy's splitting by cache indices. *)
From Coq Require Import List Arith Reals.
From Verif Require Import MappingModel JacobianModel PolyModel TensorModel LocalNumberingModel.
Import ListNotations.
Local Open Scope R_scope.
Local Notation i0 := 0%nat.
Local Notation i1 := 1%nat.
Local Notation i2 := 2%nat.

(** np.tile(l, n), np.repeat(l, n) *)
Definition tile (l : list R) (n : nat) : list R := concat (repeat l n).
Definition rep (l : list R) (n : nat) : list R := flat_map (fun x => repeat x n) l.
(** [l[1:] - l[:-1]] *)
Definition diffs (l : list R) : list R := map (fun i => nth (S i) l 0 - nth i l 0) (seq 0 (length l - 1)).

(** * quadrature points: row = point, column = edge; sizes of the edges *)
Notation prep2 := ((nat -> nat -> R) * (nat -> nat -> R) * list R)%type.
Notation prep3 := ((nat -> nat -> R) * (nat -> nat -> R) * (nat -> nat -> R) * list R)%type.

(** Rd_m2n2k1.py 428-429; Lambda.py 271-272: ravel('F') *)
Definition cell_nodes (xs qn : list R) : list R :=
  flat_map (fun i => map (fun q => 1/2 * nth i (diffs xs) 0 * (q + 1) + nth i xs 0) qn) (seq 0 (length xs - 1)).
(** Rd_m2n2k1.py 431-437; Lambda.py 274-280 *)
Definition prep2_x (sx sy qn : list R) : prep2 :=
  ((fun r c => nth (r + length qn * c) (tile (cell_nodes sx qn) (degree sy + 1)) 0),
   (fun r c => nth c (rep sy (degree sx)) 0),
   tile (diffs sx) (degree sy + 1)).
(** Rd_m2n2k1.py 439-444; Lambda.py 282-287 *)
Definition prep2_y (sx sy qn : list R) : prep2 :=
  ((fun r c => nth c (tile sx (degree sy)) 0),
   (fun r c => nth (r + length qn * (c / (degree sx + 1))) (cell_nodes sy qn) 0),
   rep (diffs sy) (degree sx + 1)).
(** Rd_m3n3k1.py 138-154; Lambda.py 590-606 *)
Definition prep3_x (sx sy sz qn : list R) : prep3 :=
  let b := ((degree sy + 1) * (degree sz + 1))%nat in
  let es := tile (diffs sx) b in
  ((fun r c => (nth r qn 0 + 1) * nth c es 0 / 2 + nth c (tile (removelast sx) b) 0),
   (fun r c => nth (r + length qn * (c mod (degree sx * (degree sy + 1)))) (rep sy (degree sx * length qn)) 0),
   (fun r c => nth c (rep sz (degree sx * (degree sy + 1))) 0),
   es).
(** Rd_m3n3k1.py 156-167; Lambda.py 608-619 *)
Definition prep3_y (sx sy sz qn : list R) : prep3 :=
  let es := tile (rep (diffs sy) (degree sx + 1)) (degree sz + 1) in
  ((fun r c => nth c (tile sx (degree sy * (degree sz + 1))) 0),
   (fun r c => (nth r qn 0 + 1) * nth c es 0 / 2 + nth c (tile (rep (removelast sy) (degree sx + 1)) (degree sz + 1)) 0),
   (fun r c => nth c (rep sz (degree sy * (degree sx + 1))) 0),
   es).
(** Rd_m3n3k1.py 169-180; Lambda.py 621-632 *)
Definition prep3_z (sx sy sz qn : list R) : prep3 :=
  let es := rep (rep (diffs sz) (degree sx + 1)) (degree sy + 1) in
  ((fun r c => nth c (tile sx ((degree sy + 1) * degree sz)) 0),
   (fun r c => nth c (tile (rep sy (degree sx + 1)) (degree sz)) 0),
   (fun r c => (nth r qn 0 + 1) * nth c es 0 / 2 + nth c (rep (removelast sz) ((degree sx + 1) * (degree sy + 1))) 0),
   es).

(** np.einsum('ij, i, j -> j', v, w, es * 0.5) *)
Definition einsum_edges (v : nat -> nat -> R) (w es : list R) : list R :=
  map (fun j => np_sum (length w) (fun i => v i j * nth i w 0 * (nth j es 0 * (1/2)))) (seq 0 (length es)).

(** arrays made by np.zeros and assignments in loops *)
Definition fill {A} (zero : A) (writes : list (nat * A)) (m : nat) : A :=
  fold_left (fun v w => if Nat.eqb (fst w) m then snd w else v) writes zero.
Definition loops2 {A} (nj ni : nat) (f : nat -> nat -> A) : list A :=
  flat_map (fun j => map (fun i => f i j) (seq 0 ni)) (seq 0 nj).
Definition loops3 {A} (nk nj ni : nat) (f : nat -> nat -> nat -> A) : list A :=
  flat_map (fun k => flat_map (fun j => map (fun i => f i j k) (seq 0 ni)) (seq 0 nj)) (seq 0 nk).
(** [(q + 1) * (xs[i + 1] - xs[i]) / 2 + xs[i]] *)
Definition between (xs qn : list R) (i r : nat) : R := (nth r qn 0 + 1) * (nth (S i) xs 0 - nth i xs 0) / 2 + nth i xs 0.
Definition size (xs : list R) (i : nat) : R := nth (S i) xs 0 - nth i xs 0.

(** * nodal values: Rd_m2n2k0.py 44-58, Rd_m3n3k0.py; meshgrid indexing='ij', ravel('F') *)
Definition rd_m2n2k0 (phi : R -> R -> pt2) (f : pt2 -> R) (sx sy : list R) : list R :=
  flat_map (fun y => map (fun x => f (phi x y)) sx) sy.
Definition rd_m3n3k0 (phi : R -> R -> R -> pt3) (f : pt3 -> R) (sx sy sz : list R) : list R :=
  flat_map (fun z => flat_map (fun y => map (fun x => f (phi x y z)) sx) sy) sz.
(** triangles, Rd_m2n2k0.py 61-85: the first row (one corner) once *)
Definition rd_m2n2k0_tri (phi : R -> R -> pt2) (f : pt2 -> R) (sx sy : list R) : list R :=
  f (phi (nth 0 sx 0) (nth 0 sy 0)) :: flat_map (fun y => map (fun x => f (phi x y)) (tl sx)) sy.

(** * 1-forms in 2-d *)
Section Edges2.
Context (phi : R -> R -> pt2) (J : R -> R -> mat) (F : pt2 -> pt2) (sx sy qx wx qy wy : list R).
(** Rd_m2n2k1.py 63-80; Lambda.py 125-152 *)
Definition rd_inner_dx : list R :=
  let '(xi, et, es) := prep2_x sx sy qx in
  einsum_edges (fun r c => let M := J (xi r c) (et r c) in let '(u, v) := F (phi (xi r c) (et r c)) in
                           M i0 i0 * u + M i1 i0 * v) wx es.
(** Rd_m2n2k1.py 82-100; Lambda.py 154-181 *)
Definition rd_inner_dy : list R :=
  let '(xi, et, es) := prep2_y sx sy qy in
  einsum_edges (fun r c => let M := J (xi r c) (et r c) in let '(u, v) := F (phi (xi r c) (et r c)) in
                           M i0 i1 * u + M i1 i1 * v) wy es.
(** Rd_m2n2k1.py 257-274; Lambda.py 195-222 *)
Definition rd_outer_dx : list R :=
  let '(xi, et, es) := prep2_x sx sy qx in
  einsum_edges (fun r c => let M := J (xi r c) (et r c) in let '(u, v) := F (phi (xi r c) (et r c)) in
                           M i0 i0 * v - M i1 i0 * u) wx es.
(** Rd_m2n2k1.py 276-294; Lambda.py 224-251 *)
Definition rd_outer_dy : list R :=
  let '(xi, et, es) := prep2_y sx sy qy in
  einsum_edges (fun r c => let M := J (xi r c) (et r c) in let '(u, v) := F (phi (xi r c) (et r c)) in
                           - (M i0 i1) * v + M i1 i1 * u) wy es.
Definition rd_m2n2k1_inner : list R := rd_inner_dx ++ rd_inner_dy.
Definition rd_m2n2k1_outer : list R := rd_outer_dy ++ rd_outer_dx.
(** triangles, Rd_m2n2k1.py 171-177, 372-376: without the first row *)
Definition drop_row (px py : nat) (c : list R) : list R :=
  if Nat.eqb px 1 then (if Nat.eqb py 1 then tl c else loops2 py px (fun i j => nth (S i + (px + 1) * j) c 0))
  else loops2 py px (fun i j => nth (S i + (px + 1) * j) c 0).
Definition rd_m2n2k1_inner_tri : list R := rd_inner_dx ++ drop_row (degree sx) (degree sy) rd_inner_dy.
Definition rd_m2n2k1_outer_tri : list R := drop_row (degree sx) (degree sy) rd_outer_dy ++ rd_outer_dx.
End Edges2.

(** * 2-forms in 2-d: Rd_m2n2k2.py 37-98; Lambda.py 291-345 *)
Definition rd_m2n2k2 (phi : R -> R -> pt2) (det : R -> R -> R) (f : pt2 -> R) (sx sy qx wx qy wy : list R) : list R :=
  let px := degree sx in let py := degree sy in
  let cell := fill ((fun _ _ => 0), (fun _ _ => 0), 0)
    (loops2 py px (fun i j => ((i + j * px)%nat, ((fun r s : nat => between sx qx i r), (fun r s : nat => between sy qy j s), size sx i * size sy j * (1/4))))) in
  map (fun m => let '(xi, et, vol) := cell m in
         np_sum (length wx) (fun r => np_sum (length wy) (fun s =>
           f (phi (xi r s) (et r s)) * det (xi r s) (et r s) * nth r wx 0 * nth s wy 0 * vol)))
      (seq 0 (px * py)).

(** * 3-d *)
Section Three.
Context (phi : R -> R -> R -> pt3) (J : R -> R -> R -> mat) (F : pt3 -> pt3) (sx sy sz qx wx qy wy qz wz : list R).
(** Rd_m3n3k1.py 37-86; Lambda.py 524-569: column [m] of J *)
Definition rd_k1_component (m : nat) (p : prep3) (w : list R) : list R :=
  let '(xi, et, sg, es) := p in
  einsum_edges (fun r c => let M := J (xi r c) (et r c) (sg r c) in let '(u, v, w) := F (phi (xi r c) (et r c) (sg r c)) in
                           M i0 m * u + M i1 m * v + M i2 m * w) w es.
Definition rd_m3n3k1 : list R :=
  rd_k1_component i0 (prep3_x sx sy sz qx) wx ++ rd_k1_component i1 (prep3_y sx sy sz qy) wy ++ rd_k1_component i2 (prep3_z sx sy sz qz) wz.

(** the cofactors, Rd_m3n3k2.py 41-44, 61-64, 80-83; Lambda.py 722-731, ... *)
Definition cof_x (M : mat) : pt3 := (M i1 i1 * M i2 i2 - M i1 i2 * M i2 i1, M i2 i1 * M i0 i2 - M i2 i2 * M i0 i1, M i0 i1 * M i1 i2 - M i0 i2 * M i1 i1).
Definition cof_y (M : mat) : pt3 := (M i1 i2 * M i2 i0 - M i1 i0 * M i2 i2, M i2 i2 * M i0 i0 - M i2 i0 * M i0 i2, M i0 i2 * M i1 i0 - M i0 i0 * M i1 i2).
Definition cof_z (M : mat) : pt3 := (M i1 i0 * M i2 i1 - M i1 i1 * M i2 i0, M i2 i0 * M i0 i1 - M i2 i1 * M i0 i0, M i0 i0 * M i1 i1 - M i0 i1 * M i1 i0).
(** Rd_m3n3k2.py 31-96 with the arrays of 141-186; Lambda.py 634-808.  [n] faces; per face the coordinates of the points and the area *)
Notation face := ((nat -> nat -> R) * (nat -> nat -> R) * (nat -> nat -> R) * R)%type.
Definition zero_face : face := ((fun _ _ => 0), (fun _ _ => 0), (fun _ _ => 0), 0).
Definition rd_k2_component (cof : mat -> pt3) (n : nat) (writes : list (nat * face)) (w1 w2 : list R) : list R :=
  map (fun m => let '(xi, et, sg, area) := fill zero_face writes m in
         np_sum (length w1) (fun r => np_sum (length w2) (fun s =>
           (let '(c0, c1, c2) := cof (J (xi r s) (et r s) (sg r s)) in let '(u, v, w) := F (phi (xi r s) (et r s) (sg r s)) in
            c0 * u + c1 * v + c2 * w) * (nth r w1 0 * nth s w2 0) * (area * (1/4)))))
      (seq 0 n).
Definition faces_x : list (nat * face) := let px := degree sx in let py := degree sy in
  loops3 (degree sz) py (px + 1)%nat (fun i j k => ((i + j * (px + 1) + k * (px + 1) * py)%nat,
    ((fun r s : nat => nth i sx 0), (fun r s : nat => between sy qy j r), (fun r s : nat => between sz qz k s), size sz k * size sy j))).
Definition faces_y : list (nat * face) := let px := degree sx in let py := degree sy in
  loops3 (degree sz) (py + 1)%nat px (fun i j k => ((i + j * px + k * (py + 1) * px)%nat,
    ((fun r s : nat => between sx qx i r), (fun r s : nat => nth j sy 0), (fun r s : nat => between sz qz k s), size sz k * size sx i))).
Definition faces_z : list (nat * face) := let px := degree sx in let py := degree sy in
  loops3 (degree sz + 1)%nat py px (fun i j k => ((i + j * px + k * py * px)%nat,
    ((fun r s : nat => between sx qx i r), (fun r s : nat => between sy qy j s), (fun r s : nat => nth k sz 0), size sy j * size sx i))).
Definition rd_m3n3k2 : list R := let px := degree sx in let py := degree sy in let pz := degree sz in
  rd_k2_component cof_x ((px + 1) * py * pz) faces_x wy wz ++
  rd_k2_component cof_y (px * (py + 1) * pz) faces_y wx wz ++
  rd_k2_component cof_z (px * py * (pz + 1)) faces_z wx wy.

(** Rd_m3n3k3.py; Lambda.py 810-873 *)
Definition rd_m3n3k3 (det : R -> R -> R -> R) (f : pt3 -> R) : list R :=
  let px := degree sx in let py := degree sy in let pz := degree sz in
  let cell := fill ((fun _ => 0), (fun _ => 0), (fun _ => 0), 0)
    (loops3 pz py px (fun i j k => ((i + j * px + k * px * py)%nat, ((fun r : nat => between sx qx i r), (fun s : nat => between sy qy j s), (fun t : nat => between sz qz k t),
       size sx i * size sy j * size sz k * (1/8))))) in
  map (fun m => let '(xi, et, sg, vol) := cell m in
         np_sum (length wx) (fun r => np_sum (length wy) (fun s => np_sum (length wz) (fun t =>
           f (phi (xi r) (et s) (sg t)) * det (xi r) (et s) (sg t) * nth r wx 0 * nth s wy 0 * nth t wz 0 * vol))))
      (seq 0 (px * py * pz)).
End Three.

(** * from components on the reference element to physical components *)
(** Rc_m2n2k1.py 60-74; reconstruct/Lambda.py 123-131; [K] is the inverse Jacobian matrix *)
Definition push_inner2 (K : mat) (p : pt2) : pt2 := let '(u, v) := p in (u * K i0 i0 + v * K i1 i0, u * K i0 i1 + v * K i1 i1).
(** Rc_m2n2k1.py (outer); Lambda.py 191-199 *)
Definition push_outer2 (K : mat) (p : pt2) : pt2 := let '(u, v) := p in (u * K i1 i1 - v * K i0 i1, - u * K i1 i0 + v * K i0 i0).
(** Rc_m3n3k1.py; Lambda.py *)
Definition push1_3 (K : mat) (p : pt3) : pt3 := let '(u, v, w) := p in
  (u * K i0 i0 + v * K i1 i0 + w * K i2 i0, u * K i0 i1 + v * K i1 i1 + w * K i2 i1, u * K i0 i2 + v * K i1 i2 + w * K i2 i2).
(** Rc_m3n3k2.py; Lambda.py *)
Definition push2_3 (K : mat) (p : pt3) : pt3 := let '(u, v, w) := p in
  (u * (K i1 i1 * K i2 i2 - K i1 i2 * K i2 i1) + v * (K i2 i1 * K i0 i2 - K i2 i2 * K i0 i1) + w * (K i0 i1 * K i1 i2 - K i0 i2 * K i1 i1),
   u * (K i1 i2 * K i2 i0 - K i1 i0 * K i2 i2) + v * (K i2 i2 * K i0 i0 - K i2 i0 * K i0 i2) + w * (K i0 i2 * K i1 i0 - K i0 i0 * K i1 i2),
   u * (K i1 i0 * K i2 i1 - K i1 i1 * K i2 i0) + v * (K i2 i0 * K i0 i1 - K i2 i1 * K i0 i0) + w * (K i0 i0 * K i1 i1 - K i0 i1 * K i1 i0)).

(** * the arrays of physical components: xi, et are meshgrid(indexing='ij') ravelled with 'F' *)
Definition points2 (xi et : list R) : list pt2 := flat_map (fun y => map (fun x => (x, y)) xi) et.
Definition points3 (xi et sg : list R) : list pt3 := flat_map (fun z => flat_map (fun y => map (fun x => (x, y, z)) xi) et) sg.
Definition inverse (n : nat) (M : mat) : mat := match jac_inv n M with Some K => K | None => M end.
Definition rc_vector2 (push : mat -> pt2 -> pt2) (J : R -> R -> mat) (xi et : list R) (uv : option (list (list R))) : option (list (list R)) :=
  match uv with
  | Some [u; v] =>
      let at_ r := let '(x, y) := nth r (points2 xi et) (0, 0) in push (inverse 2 (J x y)) (nth r u 0, nth r v 0) in
      let ix := seq 0 (length u) in
      Some [map (fun r => fst (at_ r)) ix; map (fun r => snd (at_ r)) ix]
  | _ => None
  end.
Definition rc_vector3 (push : mat -> pt3 -> pt3) (J : R -> R -> R -> mat) (xi et sg : list R) (uvw : option (list (list R))) : option (list (list R)) :=
  match uvw with
  | Some [u; v; w] =>
      let at_ r := let '(x, y, z) := nth r (points3 xi et sg) (0, 0, 0) in push (inverse 3 (J x y z)) (nth r u 0, nth r v 0, nth r w 0) in
      let ix := seq 0 (length u) in
      Some [map (fun r => fst (fst (at_ r))) ix; map (fun r => snd (fst (at_ r))) ix; map (fun r => snd (at_ r)) ix]
  | _ => None
  end.
(** top forms: times inverse_Jacobian, reconstruct/Lambda.py 262-286, 462-485; Rc_m2n2k2.py, Rc_m3n3k3.py *)
Definition rc_density2 (J : R -> R -> mat) (xi et : list R) (fs : option (list (list R))) : option (list (list R)) :=
  match fs with
  | Some [f] => Some [map (fun r => let '(x, y) := nth r (points2 xi et) (0, 0) in
                                    nth r f 0 * match jac_inv_det 2 (J x y) with Some d => d | None => 0 end) (seq 0 (length f))]
  | _ => None
  end.
Definition rc_density3 (J : R -> R -> R -> mat) (xi et sg : list R) (fs : option (list (list R))) : option (list (list R)) :=
  match fs with
  | Some [f] => Some [map (fun r => let '(x, y, z) := nth r (points3 xi et sg) (0, 0, 0) in
                                    nth r f 0 * match jac_inv_det 3 (J x y z) with Some d => d | None => 0 end) (seq 0 (length f))]
  | _ => None
  end.
