(** Model of the functions that find the local dofs on a face of an element.

    msepy:   /repo/msepy/space/find/local_dofs.py
    msehtt:  /repo/msehtt/static/space/find/local_dofs_on_face/Lambda/*.py
    The local numberings are those of LocalNumberingModel.v.  A returned array
    is its entries in Fortran order.  The caches of the 2-D functions hold copies
    and are left out; the memory shared by the caches of the 3-D 2-forms is in
    FaceMemModel.v. *)
From Coq Require Import Arith List Bool.
From Verif Require Import NdArray LocalNumberingModel.
Import ListNotations.

(** an array of numbers: its shape and its entries *)
Notation narr := (list nat * (list nat -> option nat))%type.
Definition of_arr (a : arr) : narr := (a_shape a, aget a).

Fixpoint insert (axis i : nat) (ix : list nat) : list nat :=
  match axis, ix with
  | S a, x :: r => x :: insert a i r
  | _, _ => i :: ix
  end.
Fixpoint remove (axis : nat) (sh : list nat) : list nat :=
  match axis, sh with
  | O, _ :: r => r
  | S a, x :: r => x :: remove a r
  | _, [] => []
  end.
Fixpoint all_some {A} (l : list (option A)) : option (list A) :=
  match l with
  | [] => Some []
  | Some x :: r => match all_some r with Some y => Some (x :: y) | None => None end
  | None :: _ => None
  end.

(** a[0, :, :], a[:, -1, :] and so on, ravelled in Fortran order; IndexError if the axis is empty *)
Inductive side := Low | High.
Definition at_side (a : narr) (axis : nat) (sd : side) : option (list nat) :=
  match nth axis (fst a) 0 with
  | O => None
  | S n => all_some (map (fun ix => snd a (insert axis (match sd with Low => 0 | High => n end) ix)) (indices (remove axis (fst a))))
  end.

(** the side argument [n] of msepy: 0 or 1 *)
Definition side_of (n : nat) : option side := match n with 0 => Some Low | 1 => Some High | _ => None end.
Definition at_mn (a : arr) (axis n : nat) : option (list nat) := match side_of n with Some sd => at_side (of_arr a) axis sd | None => None end.

(** ** msepy *)
(** local_dofs.py 77-95 *)
Definition msepy_m1n1k0 (p m n : nat) : option (list nat) :=
  match ln_m1n1k0 p with Some [a] => match m with 0 => at_mn a 0 n | _ => None end | _ => None end.
(** 97-124 *)
Definition msepy_m2n2k1_outer (px py m n : nat) : option (list nat) :=
  match ln_m2n2k1_outer px py with
  | Some [dy; dx] => match m with 0 => at_mn dy 0 n | 1 => at_mn dx 1 n | _ => None end
  | _ => None
  end.
(** 126-153 *)
Definition msepy_m2n2k1_inner (px py m n : nat) : option (list nat) :=
  match ln_m2n2k1_inner px py with
  | Some [dx; dy] => match m with 0 => at_mn dy 0 n | 1 => at_mn dx 1 n | _ => None end
  | _ => None
  end.
(** 155-181 *)
Definition msepy_m2n2k0 (px py m n : nat) : option (list nat) :=
  match ln_m2n2k0 px py with
  | Some [a] => match m with 0 => at_mn a 0 n | 1 => at_mn a 1 n | _ => None end
  | _ => None
  end.
(** 183-217 *)
Definition msepy_m3n3k0 (px py pz m n : nat) : option (list nat) :=
  match ln_m3n3k0 px py pz with
  | Some [a] => match m with 0 => at_mn a 0 n | 1 => at_mn a 1 n | 2 => at_mn a 2 n | _ => None end
  | _ => None
  end.
(** 219-252 *)
Definition msepy_m3n3k1 (px py pz m n : nat) : option (list nat) :=
  match ln_m3n3k1 px py pz with
  | Some [dx; dy; dz] => match m with 0 => at_mn dx 0 n | 1 => at_mn dy 1 n | 2 => at_mn dz 2 n | _ => None end
  | _ => None
  end.
(** 254-287 *)
Definition msepy_m3n3k2 (px py pz m n : nat) : option (list nat) :=
  match ln_m3n3k2 px py pz with
  | Some [dydz; dzdx; dxdy] => match m with 0 => at_mn dydz 0 n | 1 => at_mn dzdx 1 n | 2 => at_mn dxdy 2 n | _ => None end
  | _ => None
  end.
(** 289-302: boundary 1-forms of a 2-D mesh, nWE, nNS = p *)
Definition msepy_m2n1k1_outer (nWE nNS m n : nat) : option (list nat) :=
  match m, n with
  | 0, 0 => Some (seq 0 nNS)
  | 0, 1 => Some (seq nNS (nNS * 2 - nNS))
  | 1, 0 => Some (seq (nNS * 2) (nNS * 2 + nWE - nNS * 2))
  | 1, 1 => Some (seq (nNS * 2 + nWE) (nNS * 2 + nWE * 2 - (nNS * 2 + nWE)))
  | _, _ => None
  end.

(** ** msehtt, quadrilaterals and hexahedra: faces x- x+ y- y+ z- z+ *)
Definition face_place (f : nat) : option (nat * side) :=
  match f with 0 => Some (0, Low) | 1 => Some (0, High) | 2 => Some (1, Low) | 3 => Some (1, High) | 4 => Some (2, Low) | 5 => Some (2, High) | _ => None end.
Definition quad_place (f : nat) : option (nat * side) := match f with 4 | 5 => None | _ => face_place f end.
(** m2n2k0.py 28-46 *)
Definition htt_m2n2k0 (px py f : nat) : option (list nat) :=
  match ln_m2n2k0 px py, quad_place f with Some [a], Some (ax, sd) => at_side (of_arr a) ax sd | _, _ => None end.
(** m2n2k1.py 29-59, component_wise=False *)
Definition htt_m2n2k1_outer (px py f : nat) : option (list nat) :=
  match ln_m2n2k1_outer px py, quad_place f with Some [dy; dx], Some (ax, sd) => at_side (of_arr (match ax with 0 => dy | _ => dx end)) ax sd | _, _ => None end.
(** m2n2k1.py 138-168, component_wise=False *)
Definition htt_m2n2k1_inner (px py f : nat) : option (list nat) :=
  match ln_m2n2k1_inner px py, quad_place f with Some [dx; dy], Some (ax, sd) => at_side (of_arr (match ax with 0 => dy | _ => dx end)) ax sd | _, _ => None end.
(** np.max(a) + 1 of a numbering of consecutive numbers; np.max of an empty array raises *)
Definition max_plus_1 (a : arr) : option nat := match asize a with O => None | _ => Some (a_base a + asize a) end.
(** component_wise=True: [local_numbering -= dy_max] on a copy, 49-53 and 158-164 *)
Definition minus_all (o : option nat) (l : option (list nat)) : option (list nat) :=
  match o, l with Some c, Some l => Some (map (fun r => r - c) l) | _, _ => None end.
Definition htt_m2n2k1_outer_cw (px py f : nat) : option (nat * list nat) :=
  match ln_m2n2k1_outer px py, quad_place f with
  | Some [dy; dx], Some (0, sd) => option_map (pair 0) (at_side (of_arr dy) 0 sd)
  | Some [dy; dx], Some (ax, sd) => option_map (pair 1) (minus_all (max_plus_1 dy) (at_side (of_arr dx) ax sd))
  | _, _ => None
  end.
Definition htt_m2n2k1_inner_cw (px py f : nat) : option (nat * list nat) :=
  match ln_m2n2k1_inner px py, quad_place f with
  | Some [dx; dy], Some (0, sd) => option_map (pair 1) (minus_all (max_plus_1 dx) (at_side (of_arr dy) 0 sd))
  | Some [dx; dy], Some (ax, sd) => option_map (pair 0) (at_side (of_arr dx) ax sd)
  | _, _ => None
  end.
(** m3n3k0.py 23-45 *)
Definition htt_m3n3k0 (px py pz f : nat) : option (list nat) :=
  match ln_m3n3k0 px py pz, face_place f with Some [a], Some (ax, sd) => at_side (of_arr a) ax sd | _, _ => None end.
(** m3n3k1.py 24-59, component_wise=False *)
Definition htt_m3n3k1 (px py pz f : nat) : option (list nat) :=
  match ln_m3n3k1 px py pz, face_place f with
  | Some [dx; dy; dz], Some (ax, sd) =>
      let '(d0, d1) := match ax with 0 => (dy, dz) | 1 => (dz, dx) | _ => (dx, dy) end in
      match at_side (of_arr d0) ax sd, at_side (of_arr d1) ax sd with Some a, Some b => Some (a ++ b) | _, _ => None end
  | _, _ => None
  end.
(** m3n3k2.py 24-64, component_wise=False, before any call with component_wise=True (see FaceMemModel.v) *)
Definition htt_m3n3k2 (px py pz f : nat) : option (list nat) :=
  match ln_m3n3k2 px py pz, face_place f with
  | Some [dydz; dzdx; dxdy], Some (ax, sd) => at_side (of_arr (match ax with 0 => dydz | 1 => dzdx | _ => dxdy end)) ax sd
  | _, _ => None
  end.

(** ** msehtt, triangles: face 0 is y-, face 1 is x+, face 2 is y+; x- is one point *)
Definition tri_place (f : nat) : option (nat * side) := match f with 0 => Some (1, Low) | 1 => Some (0, High) | 2 => Some (1, High) | _ => None end.
(** m2n2k0.py 49-81 *)
Definition htt_m2n2k0_tri (px py f : nat) : option (list nat) :=
  match tri_place f with Some (ax, sd) => at_side ([px + 1; py + 1], ln_m2n2k0_tri px py) ax sd | None => None end.
(** m2n2k1.py 66-115 *)
Definition htt_m2n2k1_outer_tri (px py f : nat) : option (list nat) :=
  match ln_m2n2k1_outer_tri px py, tri_place f with Some [dy; dx], Some (ax, sd) => at_side (of_arr (match ax with 0 => dy | _ => dx end)) ax sd | _, _ => None end.
(** m2n2k1.py 175-217 *)
Definition htt_m2n2k1_inner_tri (px py f : nat) : option (list nat) :=
  match ln_m2n2k1_inner_tri px py, tri_place f with Some [dx; dy], Some (ax, sd) => at_side (of_arr (match ax with 0 => dy | _ => dx end)) ax sd | _, _ => None end.
Definition htt_m2n2k1_outer_tri_cw (px py f : nat) : option (nat * list nat) :=
  match ln_m2n2k1_outer_tri px py, tri_place f with
  | Some [dy; dx], Some (0, sd) => option_map (pair 0) (at_side (of_arr dy) 0 sd)
  | Some [dy; dx], Some (ax, sd) => option_map (pair 1) (minus_all (max_plus_1 dy) (at_side (of_arr dx) ax sd))
  | _, _ => None
  end.
Definition htt_m2n2k1_inner_tri_cw (px py f : nat) : option (nat * list nat) :=
  match ln_m2n2k1_inner_tri px py, tri_place f with
  | Some [dx; dy], Some (0, sd) => option_map (pair 1) (minus_all (max_plus_1 dx) (at_side (of_arr dy) 0 sd))
  | Some [dx; dy], Some (ax, sd) => option_map (pair 0) (at_side (of_arr dx) ax sd)
  | _, _ => None
  end.
