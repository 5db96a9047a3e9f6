(** C08-C10, C48: global numberings of msepy.  Only statements and references to proofs;
    vocabulary in GatherSpec.v, models in GatherModel.v, TopologyModel.v and MeshModel.v. *)
From Coq Require Import List Arith ZArith Relations Lia.
From Verif Require Import NdArray LocalNumberingModel IncidenceModel MeshModel MeshSpec IncidenceSpec GatherModel TopologyModel GatherSpec.
From Verif Require Import GatherInst TopologyProofs Gather0Forms GatherRefute MeshGather.
Import ListNotations.
Local Open Scope nat_scope.

(** * C08 1-D 0-forms *)

Theorem numbering_0forms_1d N mp p : 1 <= p -> consistent 1 N mp -> no_self 1 N mp ->
  exists gm, gm_m1n1k0 N mp p = Some gm /\ numbers gm N (p + 1) (shared (ln_m1n1k0 p) [p] N mp).
Proof. exact (gather_m1n1k0 N mp p). Qed.
Print Assumptions numbering_0forms_1d.

(** a single periodic element is a consistent map, but its end points are numbered -1 *)
Theorem numbering_0forms_1d_one_periodic_element_refuted p : 1 <= p -> exists gm, gm_m1n1k0 1 loop_mp p = Some gm /\ gm_at gm (0, 0) (-1)%Z.
Proof. exact (loop_m1n1k0 p). Qed.
Print Assumptions numbering_0forms_1d_one_periodic_element_refuted.

Theorem one_periodic_element_is_consistent n : consistent n 1 loop_mp.
Proof. exact (loop_consistent n). Qed.
Print Assumptions one_periodic_element_is_consistent.

Definition ring (n : nat) : emap := fun e s =>
  match s with 0 => Some (if e =? 0 then n - 1 else e - 1) | 1 => Some (if e =? n - 1 then 0 else e + 1) | _ => None end.
Example ring_meets : consistent 1 3 (ring 3) /\ no_self 1 3 (ring 3) /\
  gm_m1n1k0 3 (ring 3) 2 = Some [[0; 1; 2]; [2; 3; 4]; [4; 5; 0]]%Z.
Proof.
  split; [split|split].
  - intros [|[|[|e]]] [|a] [|[|s]] m He Ha Hs; try lia; cbv; intros [= <-]; lia.
  - intros [|a] [|[|[|e]]] [|[|[|m]]] Ha He Hm; try lia; cbv; split; intros; try discriminate; auto.
  - intros [|[|[|e]]] [|a] He Ha; try lia; cbv; discriminate.
  - reflexivity.
Qed.

(** * C09 2-D 1-forms *)

Theorem numbering_inner_1forms_2d N mp px py : 1 <= px -> 1 <= py -> consistent 2 N mp -> no_self 2 N mp ->
  exists gm, gm_m2n2k1_inner N mp px py = Some gm /\
    numbers gm N (nd_m2n2k1 px py) (shared (ln_m2n2k1_inner px py) [px; py] N mp).
Proof. exact (gather_m2n2k1_inner N mp px py). Qed.
Print Assumptions numbering_inner_1forms_2d.

Theorem numbering_outer_1forms_2d N mp px py : 1 <= px -> 1 <= py -> consistent 2 N mp -> no_self 2 N mp ->
  exists gm, gm_m2n2k1_outer N mp px py = Some gm /\
    numbers gm N (nd_m2n2k1 px py) (shared (ln_m2n2k1_outer px py) [px; py] N mp).
Proof. exact (gather_m2n2k1_outer N mp px py). Qed.
Print Assumptions numbering_outer_1forms_2d.

(** * C10 3-D 2-forms: right without boundary, wrong with it *)

Theorem numbering_2forms_3d_without_boundary N mp px py pz : 1 <= px -> 1 <= py -> 1 <= pz -> consistent 3 N mp -> no_self 3 N mp -> no_boundary 3 N mp ->
  exists gm, gm_m3n3k2 N mp px py pz = Some gm /\
    numbers gm N (nd_m3n3k2 px py pz) (shared (ln_m3n3k2 px py pz) [px; py; pz] N mp).
Proof. exact (gather_m3n3k2 N mp px py pz). Qed.
Print Assumptions numbering_2forms_3d_without_boundary.

(** two hexahedra side by side: an x face and a y face of the first get the same number *)
Theorem numbering_2forms_3d_boundary_refuted : exists gm, gm_m3n3k2 2 two_hex 1 1 1 = Some gm /\
  gm_at gm (0, 0) 0%Z /\ gm_at gm (0, 2) 0%Z /\ ~ shared (ln_m3n3k2 1 1 1) [1; 1; 1] 2 two_hex (0, 0) (0, 2).
Proof. exact (two_hex_alias). Qed.
Print Assumptions numbering_2forms_3d_boundary_refuted.

Theorem two_hexahedra_are_consistent : consistent 3 2 two_hex /\ no_self 3 2 two_hex.
Proof. exact (two_hex_ok). Qed.
Print Assumptions two_hexahedra_are_consistent.

Definition torus3 : emap := fun e s =>
  match s with 0 | 1 => Some (if Nat.even e then e + 1 else e - 1)
             | 2 | 3 => Some (if e mod 4 <? 2 then e + 2 else e - 2)
             | 4 | 5 => Some (if e <? 4 then e + 4 else e - 4) | _ => None end.
Example torus3_meets : consistent 3 8 torus3 /\ no_self 3 8 torus3 /\ no_boundary 3 8 torus3.
Proof.
  split; [split|split].
  - intros e a s m He Ha Hs. assert (a = 0 \/ a = 1 \/ a = 2) as [-> |[-> | ->]] by lia; assert (s = 0 \/ s = 1) as [-> | ->] by lia;
      all8 e ltac:(vm_compute; intros [= <-]; lia).
  - intros a e m Ha He Hm. assert (a = 0 \/ a = 1 \/ a = 2) as [-> |[-> | ->]] by lia;
      all8 e ltac:(all8 m ltac:(vm_compute; split; intros H; try discriminate H; reflexivity)).
  - intros e a He Ha. assert (a = 0 \/ a = 1 \/ a = 2) as [-> |[-> | ->]] by lia; all8 e ltac:(vm_compute; discriminate).
  - intros e s He Hs. assert (s = 0 \/ s = 1 \/ s = 2 \/ s = 3 \/ s = 4 \/ s = 5) as [-> |[-> |[-> |[-> |[-> | ->]]]]] by lia;
      discriminate.
Qed.

(** * C48 2-D 0-forms and their vertices *)

(** the corner topology lists for every corner exactly the corners of the same vertex *)
Theorem vertex_attachments_2d N mp e c : consistent 2 N mp -> regular_vertices N mp -> e < N /\ c < 4 ->
  exists l, corner_attachment mp N e c = Some l /\
    forall y, In y l <-> clos_refl_sym_trans _ (fun x y => (fst x < N /\ snd x < 4) /\ exists a, a < 2 /\ cross mp a x = Some y) (e, c) y.
Proof. exact (fun Hc Hr => @attachment_around N mp Hc Hr e c). Qed.
Print Assumptions vertex_attachments_2d.

Theorem numbering_0forms_2d N mp px py : 1 <= px -> 1 <= py -> consistent 2 N mp -> no_self 2 N mp -> regular_vertices N mp ->
  exists gm, gm_m2n2k0_mesh N mp px py = Some gm /\
    numbers gm N (nd_m2n2k0 px py) (shared (ln_m2n2k0 px py) [px; py] N mp).
Proof. exact (fun Hx Hy Hc Hs Hr => @gather_m2n2k0 N mp px py Hx Hy Hc Hs Hr). Qed.
Print Assumptions numbering_0forms_2d.

(** eight elements around a vertex: neighbours give their common vertex different numbers *)
Theorem numbering_0forms_2d_eight_elements_refuted : exists gm v w, gm_m2n2k0_mesh 8 eight 1 1 = Some gm /\
  touch (ln_m2n2k0 1 1) [1; 1] 8 eight (0, 3) (1, 2) /\ gm_at gm (0, 3) v /\ gm_at gm (1, 2) w /\ v <> w.
Proof. exact (eight_split). Qed.
Print Assumptions numbering_0forms_2d_eight_elements_refuted.

Theorem eight_elements_are_consistent : consistent 2 8 eight /\ no_self 2 8 eight.
Proof. exact (eight_ok). Qed.
Print Assumptions eight_elements_are_consistent.

(** the maps that msepy generates from regions meet these conditions *)

Theorem generated_maps_are_consistent {ndim} diss M ws : Forall (Forall (fun n => 0 < n)) diss -> check_map M = true -> gen_map ndim diss M = Some ws ->
  consistent ndim (num_elements diss) (neighbour ws).
Proof. exact (fun H1 H2 H3 => mesh_consistent H1 H2 H3). Qed.
Print Assumptions generated_maps_are_consistent.

Theorem generated_maps_have_no_self_neighbour {ndim} diss M ws : Forall (Forall (fun n => 0 < n)) diss -> check_map M = true -> gen_map ndim diss M = Some ws ->
  no_thin_periodic diss M -> no_self ndim (num_elements diss) (neighbour ws).
Proof. exact (fun H1 H2 H3 => mesh_no_self H1 H2 H3). Qed.
Print Assumptions generated_maps_have_no_self_neighbour.

Theorem generated_maps_have_regular_vertices diss M ws : Forall (Forall (fun n => 0 < n)) diss -> check_map M = true -> gen_map 2 diss M = Some ws ->
  regular_vertices (length M) (region_map M) -> regular_vertices (num_elements diss) (neighbour ws).
Proof. exact (fun H1 H2 H3 => mesh_regular H1 H2 H3). Qed.
Print Assumptions generated_maps_have_regular_vertices.

Lemma mesh_0forms diss M ws px py : Forall (Forall (fun n => 0 < n)) diss -> check_map M = true -> gen_map 2 diss M = Some ws ->
  no_thin_periodic diss M -> regular_vertices (length M) (region_map M) -> 1 <= px -> 1 <= py ->
  exists gm, gm_m2n2k0_mesh (num_elements diss) (neighbour ws) px py = Some gm /\
    numbers gm (num_elements diss) (nd_m2n2k0 px py) (shared (ln_m2n2k0 px py) [px; py] (num_elements diss) (neighbour ws)).
Proof.
  intros H1 H2 H3 H4 H5 Hx Hy. apply (@gather_m2n2k0 _ _ px py Hx Hy).
  - exact (mesh_consistent H1 H2 H3).
  - exact (mesh_no_self H1 H2 H3 H4).
  - exact (mesh_regular H1 H2 H3 H5).
Qed.
Theorem numbering_0forms_2d_on_regions diss M ws px py :
  Forall (Forall (fun n => 0 < n)) diss -> check_map M = true -> gen_map 2 diss M = Some ws ->
  no_thin_periodic diss M -> regular_vertices (length M) (region_map M) -> 1 <= px -> 1 <= py ->
  exists gm, gm_m2n2k0_mesh (num_elements diss) (neighbour ws) px py = Some gm /\
    numbers gm (num_elements diss) (nd_m2n2k0 px py) (shared (ln_m2n2k0 px py) [px; py] (num_elements diss) (neighbour ws)).
Proof. exact (mesh_0forms diss M ws px py). Qed.
Print Assumptions numbering_0forms_2d_on_regions.

(** two regions, periodic in y: meets all conditions *)
Example regions_meet :
  let diss := [[2; 2]; [3; 2]] in
  let M := [[None; Some 1; Some 0; Some 0]; [Some 0; None; Some 1; Some 1]] in
  no_thin_periodic diss M /\ regular_vertices (length M) (region_map M) /\
  exists ws gm, gen_map 2 diss M = Some ws /\ gm_m2n2k0_mesh 10 (neighbour ws) 1 1 = Some gm /\
    nth_error gm 0 = Some [0; 1; 2; 3]%Z /\ nth_error gm 2 = Some [2; 3; 0; 1]%Z.
Proof.
  cbv zeta. split; [|split].
  - intros [|[|R]] dis a; simpl; [intros [= <-]|intros [= <-]|destruct R; discriminate]; destruct a as [|[|[|a]]]; discriminate.
  - intros [|[|R]] c x HR Hc; simpl in HR; [| |lia]; do 4 (destruct c as [|c]; [vm_compute; intros H; try discriminate H; now injection H as <-|]); lia.
  - destruct (gen_map 2 _ _) as [ws|] eqn:E; [|vm_compute in E; discriminate]. vm_compute in E. injection E as <-.
    eexists. eexists. split; [reflexivity|]. vm_compute. auto.
Qed.

(** * top forms *)

Theorem numbering_top_forms N nd : numbers (gm_top N nd) N nd eq.
Proof. exact (gm_top_numbers N nd). Qed.
Print Assumptions numbering_top_forms.
