(** C81: the periodic slice is a torus of equal boxes, and the forms on it are numbered so. *)
From Coq Require Import Arith ZArith QArith List Bool Lia.
From Verif Require Import LocalNumberingModel UnModel UnSpec PslModel PslSpec PslThms PslTorus PslGeom PslFaces PslExamples.
Import ListNotations.
Local Open Scope nat_scope.
Notation slice Kx Ky Kz x0 x1 y0 y1 th := (periodic_slice (Many [Z.of_nat Kx; Z.of_nat Ky]) x0 x1 y0 y1 th (Z.of_nat Kz)).

(** when it is defined; one number is used for both directions *)
Theorem psl_defined lay x0 x1 y0 y1 th levels :
  (exists m, periodic_slice lay x0 x1 y0 y1 th levels = Some m) <->
  (0 < th)%Q /\ (x0 < x1)%Q /\ (y0 < y1)%Q /\ (1 <= levels)%Z /\
  exists k0 k1, (1 <= k0)%Z /\ (1 <= k1)%Z /\ (lay = Many [k0; k1] \/ lay = One k0 /\ k0 = k1).
Proof. exact (defined_iff lay x0 x1 y0 y1 th levels). Qed.
Print Assumptions psl_defined.
Theorem psl_one k x0 x1 y0 y1 th levels : periodic_slice (One k) x0 x1 y0 y1 th levels = periodic_slice (Many [k; k]) x0 x1 y0 y1 th levels.
Proof. exact eq_refl. Qed.
Print Assumptions psl_one.

(** the elements are 0 .. Kx Ky Kz - 1, boxes of equal size that cover the slice without overlap *)
Theorem psl_boxes Kx Ky Kz x0 x1 y0 y1 th m : slice Kx Ky Kz x0 x1 y0 y1 th = Some m ->
  map fst m = seq 0 (Kx * Ky * Kz) /\
  (forall e b, In (e, b) m -> length (b_map b) = 8 /\
     (first3 (b_delta b) == (x1 - x0) / inject_Z (Z.of_nat Kx))%Q /\ (second3 (b_delta b) == (y1 - y0) / inject_Z (Z.of_nat Ky))%Q /\
     (third3 (b_delta b) == th / inject_Z (Z.of_nat Kz))%Q) /\
  (forall x y z, ((x0 <= x /\ x <= x1) /\ (y0 <= y /\ y <= y1) /\ (- th / 2 <= z /\ z <= th / 2))%Q <->
     exists e b, In (e, b) m /\ inside false b x y z) /\
  (forall e b e' b' x y z, In (e, b) m -> In (e', b') m -> inside true b x y z -> inside true b' x y z -> e = e').
Proof. exact (boxes Kx Ky Kz x0 x1 y0 y1 th m). Qed.
Print Assumptions psl_boxes.
(** two corners have one label exactly if they are the same point of the torus *)
Theorem psl_corners Kx Ky Kz x0 x1 y0 y1 th m : slice Kx Ky Kz x0 x1 y0 y1 th = Some m ->
  forall e b e' b' hx hy hz hx' hy' hz', In (e, b) m -> In (e', b') m ->
  exists v v', corner_label b hx hy hz = Some v /\ corner_label b' hx' hy' hz' = Some v' /\ v < Kx * Ky * Kz /\
  (v = v' <-> modulo (x1 - x0) (corner_at first3 b hx) (corner_at first3 b' hx') /\
              modulo (y1 - y0) (corner_at second3 b hy) (corner_at second3 b' hy') /\
              modulo th (corner_at third3 b hz) (corner_at third3 b' hz')).
Proof. exact (corners Kx Ky Kz x0 x1 y0 y1 th m). Qed.
Print Assumptions psl_corners.

(** forms of all degrees are numbered as on the torus, also with one or two elements in a direction, if at
    most one direction has a single element *)
Theorem psl_numbers Kx Ky Kz x0 x1 y0 y1 th m : slice Kx Ky Kz x0 x1 y0 y1 th = Some m -> distinct_edges Kx Ky Kz ->
  forall k px py pz, k <= 3 -> 1 <= px -> 1 <= py -> 1 <= pz -> exists g st,
    number_mesh (prog_hex px py pz k) (hexes_of m) st0 = Some (g, st) /\ torus_numbers k Kx Ky Kz px py pz g (cur st).
Proof. exact (torus Kx Ky Kz x0 x1 y0 y1 th m). Qed.
Print Assumptions psl_numbers.
(** finding: with a single element in both x and y, dofs of dx and of dy have the same number *)
Theorem psl_single_refuted : exists m g st d d' n,
  slice 1 1 3 0 1 0 1 1 = Some m /\ number_mesh (prog_hex 1 1 1 1) (hexes_of m) st0 = Some (g, st) /\
  dof_of 1 1 1 1 [0; 0; 0; 0] = Some d /\ dof_of 1 1 1 1 [1; 0; 0; 0] = Some d' /\ number_at g 0 d n /\ number_at g 0 d' n /\
  ~ torus_numbers 1 1 1 3 1 1 1 g (cur st).
Proof. exact single_merged. Qed.
Print Assumptions psl_single_refuted.

(** the check of faces warns exactly if a direction has two elements or two directions have one; otherwise
    every face belongs to exactly two positions *)
Theorem psl_warns Kx Ky Kz x0 x1 y0 y1 th m : slice Kx Ky Kz x0 x1 y0 y1 th = Some m ->
  (warns m = true <-> Kx = 2 \/ Ky = 2 \/ Kz = 2 \/ ~ distinct_edges Kx Ky Kz) /\
  (warns m = false -> forall key positions, In (key, positions) (face_pool m) -> length positions = 2).
Proof. exact (warning Kx Ky Kz x0 x1 y0 y1 th m). Qed.
Print Assumptions psl_warns.
(** finding: the default (two levels) warns although the numbering is right *)
Theorem psl_warning_refuted Kx Ky x0 x1 y0 y1 th m k px py pz : slice Kx Ky 2 x0 x1 y0 y1 th = Some m ->
  ~ (Kx = 1 /\ Ky = 1) -> k <= 3 -> 1 <= px -> 1 <= py -> 1 <= pz ->
  warns m = true /\ exists g st, number_mesh (prog_hex px py pz k) (hexes_of m) st0 = Some (g, st) /\ torus_numbers k Kx Ky 2 px py pz g (cur st).
Proof. exact (default_warns Kx Ky x0 x1 y0 y1 th m k px py pz). Qed.
Print Assumptions psl_warning_refuted.

(** a slice of 3 x 2 x 1 boxes *)
Example slice_321 : exists m, slice 3 2 1 0 3 (-1) 1 (1 # 2) = Some m /\ distinct_edges 3 2 1 /\
  map (fun eb => b_map (snd eb)) m = [[0; 1; 3; 4; 0; 1; 3; 4]; [1; 2; 4; 5; 1; 2; 4; 5]; [2; 0; 5; 3; 2; 0; 5; 3];
                                      [3; 4; 0; 1; 3; 4; 0; 1]; [4; 5; 1; 2; 4; 5; 1; 2]; [5; 3; 2; 0; 5; 3; 2; 0]] /\ warns m = true.
Proof. eexists. split; [vm_compute; reflexivity|]. split; [unfold distinct_edges; lia|]. split; vm_compute; reflexivity. Qed.
Example slice_counts : match slice 3 2 1 0 3 (-1) 1 (1 # 2) with
  | Some m => map (fun k => option_map (fun gs => cur (snd gs)) (number_mesh (prog_hex 2 1 2 k) (hexes_of m) st0)) [0; 1; 2; 3]
  | None => [] end = [Some 24; Some 72; Some 72; Some 24].
Proof. vm_compute. reflexivity. Qed.
Example slice_quiet : match slice 3 4 1 0 3 (-1) 1 (1 # 2) with Some m => warns m | None => true end = false.
Proof. vm_compute. reflexivity. Qed.
