(** Model of the predefined domains of msepy: regions, which regions are
    neighbours ([region_map]), and the mapping of each region.

    /repo/msepy/manifold/predefined/crazy.py 146-191, crazy_multi.py 111-383,
    backward_step.py 177-246, cylinder_channel.py 230-340.

    Faces are numbered x-, x+, y-, y+, z-, z+ as in the lists of the code.
    [None] in a region map is python's None.  A dictionary is the list of its
    (key, value) pairs. *)
From Coq Require Import List Arith Reals.
From Verif Require Import MappingModel.
Import ListNotations.
Local Open Scope nat_scope.

Notation rmap := (list (nat * list (option nat))).
Fixpoint lookup (d : rmap) (k : nat) : option (list (option nat)) :=
  match d with
  | [] => None
  | (j, v) :: r => if j =? k then Some v else lookup r k
  end.
(** region_map[r][f] *)
Definition neighbour (d : rmap) (r f : nat) : option nat :=
  match lookup d r with Some l => nth f l None | None => None end.

(** * crazy.py 158-165: one region *)
Definition crazy_rmap (esd : nat) (periodic : bool) : rmap :=
  [(0, map (fun _ => if periodic then Some 0 else None) (seq 0 (2 * esd)))].

(** * crazy_multi.py *)
(** the index of the neighbour before and after index i of N *)
Definition before (periodic : bool) (N i : nat) : option nat :=
  if i <? 1 then (if periodic then Some (N - 1) else None) else Some (i - 1).
Definition after (periodic : bool) (N i : nat) : option nat :=
  if N <=? i + 1 then (if periodic then Some 0 else None) else Some (i + 1).
(** region_map_nd = np.arange(num_regions).reshape(Ns, order='F') *)
Definition nd2 (Nx i j : nat) : nat := i + j * Nx.
Definition nd3 (Nx Ny i j k : nat) : nat := i + Nx * (j + Ny * k).
(** m == 1: 128-171 *)
Definition multi_rmap1 (periodic : bool) (N : nat) : rmap :=
  map (fun n => (n, [before periodic N n; after periodic N n])) (seq 0 N).
(** m == 2: 172-236 *)
Definition multi_rmap2 (periodic : bool) (Nx Ny : nat) : rmap :=
  flat_map (fun ny => map (fun nx =>
    (nx + ny * Nx,
     [option_map (fun i => nd2 Nx i ny) (before periodic Nx nx); option_map (fun i => nd2 Nx i ny) (after periodic Nx nx);
      option_map (fun j => nd2 Nx nx j) (before periodic Ny ny); option_map (fun j => nd2 Nx nx j) (after periodic Ny ny)]))
    (seq 0 Nx)) (seq 0 Ny).
(** m == 3: 237-310 *)
Definition multi_rmap3 (periodic : bool) (Nx Ny Nz : nat) : rmap :=
  flat_map (fun nz => flat_map (fun ny => map (fun nx =>
    (nx + ny * Nx + nz * Nx * Ny,
     [option_map (fun i => nd3 Nx Ny i ny nz) (before periodic Nx nx); option_map (fun i => nd3 Nx Ny i ny nz) (after periodic Nx nx);
      option_map (fun j => nd3 Nx Ny nx j nz) (before periodic Ny ny); option_map (fun j => nd3 Nx Ny nx j nz) (after periodic Ny ny);
      option_map (fun k => nd3 Nx Ny nx ny k) (before periodic Nz nz); option_map (fun k => nd3 Nx Ny nx ny k) (after periodic Nz nz)]))
    (seq 0 Nx)) (seq 0 Ny)) (seq 0 Nz).

(** _MesPyRegionCrazyMultiMapping: np.meshgrid(..., indexing='ij'), ravel('F'); 361-365 *)
Definition axis1_0 (N : nat) : list nat := seq 0 N.
Definition axis2_0 (Nx Ny : nat) : list nat := flat_map (fun _ => seq 0 Nx) (seq 0 Ny).
Definition axis2_1 (Nx Ny : nat) : list nat := flat_map (fun j => map (fun _ => j) (seq 0 Nx)) (seq 0 Ny).
Definition axis3_0 (Nx Ny Nz : nat) : list nat := flat_map (fun _ => axis2_0 Nx Ny) (seq 0 Nz).
Definition axis3_1 (Nx Ny Nz : nat) : list nat := flat_map (fun _ => axis2_1 Nx Ny) (seq 0 Nz).
Definition axis3_2 (Nx Ny Nz : nat) : list nat := flat_map (fun k => map (fun _ => k) (axis2_0 Nx Ny)) (seq 0 Nz).
(** the bounds of a region on one axis: 373-379 *)
Definition sub_lo (lb up : R) (N i : nat) : R := (lb + ((up - lb) / INR N) * INR i)%R.
Definition sub_up (lb up : R) (N i : nat) : R := (lb + ((up - lb) / INR N) * INR (i + 1))%R.
Definition multi1 (a b k : R) (N n : nat) (r : R) : R :=
  let i := nth n (axis1_0 N) 0 in
  crazy1 (sub_lo a b N i) (sub_up a b N i) k r.
Definition multi2 (a b c d k : R) (Nx Ny n : nat) (r s : R) : pt2 :=
  let i := nth n (axis2_0 Nx Ny) 0 in
  let j := nth n (axis2_1 Nx Ny) 0 in
  crazy2 (sub_lo a b Nx i) (sub_up a b Nx i) (sub_lo c d Ny j) (sub_up c d Ny j) k r s.
Definition multi3 (a b c d e f k : R) (Nx Ny Nz n : nat) (r s t : R) : pt3 :=
  let i := nth n (axis3_0 Nx Ny Nz) 0 in
  let j := nth n (axis3_1 Nx Ny Nz) 0 in
  let l := nth n (axis3_2 Nx Ny Nz) 0 in
  crazy3 (sub_lo a b Nx i) (sub_up a b Nx i) (sub_lo c d Ny j) (sub_up c d Ny j) (sub_lo e f Nz l) (sub_up e f Nz l) k r s t.

(** * backward_step.py 213-242 *)
Definition step_rmap2 : rmap :=
  [(0, [None; None; None; Some 1]); (1, [Some 2; None; Some 0; None]); (2, [None; Some 1; None; None])].
Definition step_rmap3 (periodic : bool) : rmap :=
  if periodic then
    [(0, [None; None; None; Some 1; Some 0; Some 0]); (1, [Some 2; None; Some 0; None; Some 1; Some 1]);
     (2, [None; Some 1; None; None; Some 2; Some 2])]
  else
    [(0, [None; None; None; Some 1; None; None]); (1, [Some 2; None; Some 0; None; None; None]);
     (2, [None; Some 1; None; None; None; None])].
(** 213-216 *)
Definition step2 (x0 y0 x1 x2 y1 y2 : R) (n : nat) : R -> R -> pt2 :=
  (match n with
   | 0%nat => linear2 (x0 + x1) (x0 + x1 + x2) (y0 + 0) (y0 + y1)
   | 1%nat => linear2 (x0 + x1) (x0 + x1 + x2) (y0 + y1) (y0 + y1 + y2)
   | _ => linear2 (x0 + 0) (x0 + x1) (y0 + y1) (y0 + y1 + y2)
   end)%R.
(** 217-220 *)
Definition step3 (x0 y0 x1 x2 y1 y2 z : R) (n : nat) : R -> R -> R -> pt3 :=
  (match n with
   | 0%nat => linear3 (x0 + x1) (x0 + x1 + x2) (y0 + 0) (y0 + y1) 0 z
   | 1%nat => linear3 (x0 + x1) (x0 + x1 + x2) (y0 + y1) (y0 + y1 + y2) 0 z
   | _ => linear3 (x0 + 0) (x0 + x1) (y0 + y1) (y0 + y1 + y2) 0 z
   end)%R.

(** * cylinder_channel.py, 2-d: 260-269, 299-334; the 3-d one raises NotImplementedError *)
Definition cylinder_rmap : rmap :=
  [(0, [None; Some 1; None; Some 3]); (1, [Some 0; Some 2; None; None]); (2, [Some 1; None; None; Some 4]);
   (3, [None; None; Some 0; Some 5]); (4, [None; None; Some 2; Some 7]); (5, [None; Some 6; Some 3; None]);
   (6, [Some 5; Some 7; None; None]); (7, [Some 6; None; Some 4; None])].
Definition half_r (r : R) : R := (1/2 * r * sqrt 2)%R.
(** dl, dr: distances of the left and right wall; hl the height below the x-axis, hu = h - hl above *)
Definition cylinder (r dl dr h hl : R) (n : nat) : R -> R -> pt2 :=
  (let hu := h - hl in
   let q := half_r r in
   let o := (0, 0) in
   match n with
   | 0%nat => linear2 (- dl) (- q) (- hl) (- q)
   | 1%nat => tf2 (line (- q, - hl) (- q, - q)) (line (q, - hl) (q, - q))
                  (line (- q, - hl) (q, - hl)) (arc false o (- q, - q) (q, - q))
   | 2%nat => linear2 q dr (- hl) (- q)
   | 3%nat => tf2 (line (- dl, - q) (- dl, q)) (arc true o (- q, - q) (- q, q))
                  (line (- dl, - q) (- q, - q)) (line (- dl, q) (- q, q))
   | 4%nat => tf2 (arc false o (q, - q) (q, q)) (line (dr, - q) (dr, q))
                  (line (q, - q) (dr, - q)) (line (q, q) (dr, q))
   | 5%nat => linear2 (- dl) (- q) q hu
   | 6%nat => tf2 (line (- q, q) (- q, hu)) (line (q, q) (q, hu))
                  (arc true o (- q, q) (q, q)) (line (- q, hu) (q, hu))
   | _ => linear2 q dr q hu
   end)%R.

(** * chaotic.py 84-94: (region, (node, node)) and its periodic partner; the regions are then not shifted *)
Definition chaotic_periodic : list ((nat * (nat * nat)) * (nat * (nat * nat))) :=
  [((0, (0, 1)), (6, (3, 2))); ((1, (0, 1)), (7, (3, 2))); ((2, (0, 1)), (8, (3, 2)));
   ((0, (0, 3)), (2, (1, 2))); ((3, (0, 3)), (5, (1, 2))); ((6, (0, 3)), (8, (1, 2)))].
