(** C44: the dofs on a face of an element.  Only statements and references to proofs; vocabulary in FaceSpec.v, models in FaceModel.v and FaceMemModel.v.
    [face_dofs no_trace nd l] says: the trace of a form on the face is zero exactly if its coefficients at [l] are zero; no number occurs twice in [l]; all
    are below [nd]; and [l] has exactly the dofs whose basis function has a trace. *)
From Coq Require Import List Arith ZArith Reals Lra Lia.
From Verif Require Import NdArray LocalNumberingModel PolyModel PolySpec TensorSpec TensorThms FaceModel FaceSpec FaceProofs FaceThms FaceThms2 FaceMemModel FaceMemProofs FaceRefute.
Import ListNotations.
Local Open Scope nat_scope.


(** * msehtt, quadrilaterals and hexahedra: faces 0 to 5 are x- x+ y- y+ z- z+ *)

Theorem face_dofs_2d_k0 sx sy f : nodes_ok sx -> nodes_ok sy -> f < 4 -> exists l, htt_m2n2k0 (degree sx) (degree sy) f = Some l /\ face_dofs (no_trace_2d_k0 sx sy (face_axis f) (face_side f)) (nd_m2n2k0 (degree sx) (degree sy)) l.
Proof. exact (htt_m2n2k0_ok sx sy f). Qed.
Print Assumptions face_dofs_2d_k0.

Theorem face_dofs_2d_outer sx sy f : nodes_ok sx -> nodes_ok sy -> f < 4 -> exists l, htt_m2n2k1_outer (degree sx) (degree sy) f = Some l /\ face_dofs (no_trace_2d_outer sx sy (face_axis f) (face_side f)) (nd_m2n2k1 (degree sx) (degree sy)) l.
Proof. exact (htt_m2n2k1_outer_ok sx sy f). Qed.
Print Assumptions face_dofs_2d_outer.

Theorem face_dofs_2d_inner sx sy f : nodes_ok sx -> nodes_ok sy -> f < 4 -> exists l, htt_m2n2k1_inner (degree sx) (degree sy) f = Some l /\ face_dofs (no_trace_2d_inner sx sy (face_axis f) (face_side f)) (nd_m2n2k1 (degree sx) (degree sy)) l.
Proof. exact (htt_m2n2k1_inner_ok sx sy f). Qed.
Print Assumptions face_dofs_2d_inner.

Theorem face_dofs_3d_k0 sx sy sz f : nodes_ok sx -> nodes_ok sy -> nodes_ok sz -> f < 6 -> exists l, htt_m3n3k0 (degree sx) (degree sy) (degree sz) f = Some l /\ face_dofs (no_trace_3d_k0 sx sy sz (face_axis f) (face_side f)) (nd_m3n3k0 (degree sx) (degree sy) (degree sz)) l.
Proof. exact (htt_m3n3k0_ok sx sy sz f). Qed.
Print Assumptions face_dofs_3d_k0.

Theorem face_dofs_3d_k1 sx sy sz f : nodes_ok sx -> nodes_ok sy -> nodes_ok sz -> f < 6 -> exists l, htt_m3n3k1 (degree sx) (degree sy) (degree sz) f = Some l /\ face_dofs (no_trace_3d_k1 sx sy sz (face_axis f) (face_side f)) (nd_m3n3k1 (degree sx) (degree sy) (degree sz)) l.
Proof. exact (htt_m3n3k1_ok sx sy sz f). Qed.
Print Assumptions face_dofs_3d_k1.

Theorem face_dofs_3d_k2 sx sy sz f : nodes_ok sx -> nodes_ok sy -> nodes_ok sz -> f < 6 -> exists l, htt_m3n3k2 (degree sx) (degree sy) (degree sz) f = Some l /\ face_dofs (no_trace_3d_k2 sx sy sz (face_axis f) (face_side f)) (nd_m3n3k2 (degree sx) (degree sy) (degree sz)) l.
Proof. exact (htt_m3n3k2_ok sx sy sz f). Qed.
Print Assumptions face_dofs_3d_k2.

(** there are no other faces *)
Theorem face_dofs_2d_other_faces px py f : 4 <= f -> htt_m2n2k0 px py f = None /\ htt_m2n2k1_outer px py f = None /\ htt_m2n2k1_inner px py f = None /\ htt_m2n2k1_outer_cw px py f = None /\ htt_m2n2k1_inner_cw px py f = None.
Proof. exact (no_face_2d px py f). Qed.
Print Assumptions face_dofs_2d_other_faces.

Theorem face_dofs_3d_other_faces px py pz f : 6 <= f -> htt_m3n3k0 px py pz f = None /\ htt_m3n3k1 px py pz f = None /\ htt_m3n3k2 px py pz f = None.
Proof. exact (no_face_3d px py pz f). Qed.
Print Assumptions face_dofs_3d_other_faces.

(** * msepy: axis m, side n *)

Theorem face_dofs_msepy_1d_k0 s n : nodes_ok s -> n < 2 -> exists l, msepy_m1n1k0 (degree s) 0 n = Some l /\ face_dofs (no_trace_1d_k0 s (mn_side n)) (nd_m1n1k0 (degree s)) l.
Proof. exact (msepy_m1n1k0_ok s n). Qed.
Print Assumptions face_dofs_msepy_1d_k0.

Theorem face_dofs_msepy_2d_k0 sx sy m n : nodes_ok sx -> nodes_ok sy -> m < 2 -> n < 2 -> exists l, msepy_m2n2k0 (degree sx) (degree sy) m n = Some l /\ face_dofs (no_trace_2d_k0 sx sy m (mn_side n)) (nd_m2n2k0 (degree sx) (degree sy)) l.
Proof. exact (msepy_m2n2k0_ok sx sy m n). Qed.
Print Assumptions face_dofs_msepy_2d_k0.

Theorem face_dofs_msepy_2d_outer sx sy m n : nodes_ok sx -> nodes_ok sy -> m < 2 -> n < 2 -> exists l, msepy_m2n2k1_outer (degree sx) (degree sy) m n = Some l /\ face_dofs (no_trace_2d_outer sx sy m (mn_side n)) (nd_m2n2k1 (degree sx) (degree sy)) l.
Proof. exact (msepy_m2n2k1_outer_ok sx sy m n). Qed.
Print Assumptions face_dofs_msepy_2d_outer.

Theorem face_dofs_msepy_2d_inner sx sy m n : nodes_ok sx -> nodes_ok sy -> m < 2 -> n < 2 -> exists l, msepy_m2n2k1_inner (degree sx) (degree sy) m n = Some l /\ face_dofs (no_trace_2d_inner sx sy m (mn_side n)) (nd_m2n2k1 (degree sx) (degree sy)) l.
Proof. exact (msepy_m2n2k1_inner_ok sx sy m n). Qed.
Print Assumptions face_dofs_msepy_2d_inner.

Theorem face_dofs_msepy_3d_k0 sx sy sz m n : nodes_ok sx -> nodes_ok sy -> nodes_ok sz -> m < 3 -> n < 2 -> exists l, msepy_m3n3k0 (degree sx) (degree sy) (degree sz) m n = Some l /\ face_dofs (no_trace_3d_k0 sx sy sz m (mn_side n)) (nd_m3n3k0 (degree sx) (degree sy) (degree sz)) l.
Proof. exact (msepy_m3n3k0_ok sx sy sz m n). Qed.
Print Assumptions face_dofs_msepy_3d_k0.

Theorem face_dofs_msepy_3d_k2 sx sy sz m n : nodes_ok sx -> nodes_ok sy -> nodes_ok sz -> m < 3 -> n < 2 -> exists l, msepy_m3n3k2 (degree sx) (degree sy) (degree sz) m n = Some l /\ face_dofs (no_trace_3d_k2 sx sy sz m (mn_side n)) (nd_m3n3k2 (degree sx) (degree sy) (degree sz)) l.
Proof. exact (msepy_m3n3k2_ok sx sy sz m n). Qed.
Print Assumptions face_dofs_msepy_3d_k2.

Theorem face_dofs_msepy_other_side a axis n : 2 <= n -> at_mn a axis n = None.
Proof. exact (mn_bad_side a axis n). Qed.
Print Assumptions face_dofs_msepy_other_side.

(** for 1-forms on hexahedra the list found is that of the edges perpendicular to the face; it never decides the trace *)

Theorem face_dofs_msepy_3d_k1_refuted sx sy sz m n : nodes_ok sx -> nodes_ok sy -> nodes_ok sz -> (m < 3)%nat -> (n < 2)%nat ->
  exists l, msepy_m3n3k1 (degree sx) (degree sy) (degree sz) m n = Some l /\ ~ decides (no_trace_3d_k1 sx sy sz m (mn_side n)) l.
Proof. exact (msepy_m3n3k1_wrong sx sy sz m n). Qed.
Print Assumptions face_dofs_msepy_3d_k1_refuted.


(** 1-forms on the boundary of a 2-D mesh: the four sides have all dofs, each once *)
Theorem face_dofs_msepy_boundary_forms nWE nNS a b c d : msepy_m2n1k1_outer nWE nNS 0 0 = Some a -> msepy_m2n1k1_outer nWE nNS 0 1 = Some b -> msepy_m2n1k1_outer nWE nNS 1 0 = Some c -> msepy_m2n1k1_outer nWE nNS 1 1 = Some d ->
  a ++ b ++ c ++ d = seq 0 (2 * (nWE + nNS)) /\ length a = nNS /\ length b = nNS /\ length c = nWE /\ length d = nWE.
Proof. exact (m2n1k1_split nWE nNS a b c d). Qed.
Print Assumptions face_dofs_msepy_boundary_forms.

(** * msehtt, triangles: faces 0, 1, 2 are y- x+ y+ *)

Theorem face_dofs_triangle_k0 sx sy f : nodes_ok sx -> nodes_ok sy -> (f < 3)%nat -> exists l, htt_m2n2k0_tri (degree sx) (degree sy) f = Some l /\ face_dofs (no_trace_tri_k0 sx sy (tri_axis f) (tri_side f)) (1 + degree sx * (degree sy + 1)) l.
Proof. exact (fun Hx Hy => tri_k0_ok sx sy Hx Hy f). Qed.
Print Assumptions face_dofs_triangle_k0.


Theorem face_dofs_triangle_outer sx sy f : nodes_ok sx -> nodes_ok sy -> (f < 3)%nat -> exists l, htt_m2n2k1_outer_tri (degree sx) (degree sy) f = Some l /\ face_dofs (no_trace_tri_outer sx sy (tri_axis f) (tri_side f)) (degree sx * degree sy + degree sx * (degree sy + 1)) l.
Proof. exact (fun Hx Hy => tri_outer_ok sx sy Hx Hy f). Qed.
Print Assumptions face_dofs_triangle_outer.


Theorem face_dofs_triangle_inner sx sy f : nodes_ok sx -> nodes_ok sy -> (f < 3)%nat -> exists l, htt_m2n2k1_inner_tri (degree sx) (degree sy) f = Some l /\ face_dofs (no_trace_tri_inner sx sy (tri_axis f) (tri_side f)) (degree sx * (degree sy + 1) + degree sx * degree sy) l.
Proof. exact (fun Hx Hy => tri_inner_ok sx sy Hx Hy f). Qed.
Print Assumptions face_dofs_triangle_inner.


Theorem face_dofs_triangle_other_faces px py f : 3 <= f -> htt_m2n2k0_tri px py f = None /\ htt_m2n2k1_outer_tri px py f = None /\ htt_m2n2k1_inner_tri px py f = None /\ htt_m2n2k1_outer_tri_cw px py f = None /\ htt_m2n2k1_inner_tri_cw px py f = None.
Proof. exact (no_face_tri px py f). Qed.
Print Assumptions face_dofs_triangle_other_faces.

(** * numbers within the component *)

(** the component normal to the face, and the same dofs counted from its first *)
Theorem face_component_outer px py f : 1 <= px -> 1 <= py -> f < 4 -> exists l lc, htt_m2n2k1_outer px py f = Some l /\
  htt_m2n2k1_outer_cw px py f = Some (face_axis f, lc) /\ within_component (match face_axis f with 0 => 0 | _ => (px + 1) * py end) (match face_axis f with 0 => (px + 1) * py | _ => px * (py + 1) end) l lc.
Proof. exact (htt_m2n2k1_outer_cw_ok px py f). Qed.
Print Assumptions face_component_outer.

Theorem face_component_inner px py f : 1 <= px -> 1 <= py -> f < 4 -> exists l lc, htt_m2n2k1_inner px py f = Some l /\
  htt_m2n2k1_inner_cw px py f = Some (1 - face_axis f, lc) /\ within_component (match face_axis f with 0 => px * (py + 1) | _ => 0 end) (match face_axis f with 0 => (px + 1) * py | _ => px * (py + 1) end) l lc.
Proof. exact (htt_m2n2k1_inner_cw_ok px py f). Qed.
Print Assumptions face_component_inner.

Theorem face_component_triangle_outer px py f : 1 <= px -> 1 <= py -> f < 3 -> exists l lc, htt_m2n2k1_outer_tri px py f = Some l /\
  htt_m2n2k1_outer_tri_cw px py f = Some (tri_axis f, lc) /\ within_component (match tri_axis f with 0 => 0 | _ => px * py end) (match tri_axis f with 0 => px * py | _ => px * (py + 1) end) l lc.
Proof. exact (outer_tri_cw_ok px py f). Qed.
Print Assumptions face_component_triangle_outer.

Theorem face_component_triangle_inner px py f : 1 <= px -> 1 <= py -> f < 3 -> exists l lc, htt_m2n2k1_inner_tri px py f = Some l /\
  htt_m2n2k1_inner_tri_cw px py f = Some (1 - tri_axis f, lc) /\ within_component (match tri_axis f with 0 => px * (py + 1) | _ => 0 end) (match tri_axis f with 0 => px * py | _ => px * (py + 1) end) l lc.
Proof. exact (inner_tri_cw_ok px py f). Qed.
Print Assumptions face_component_triangle_inner.

(** * 2-forms on hexahedra: the finder with its caches.  [calls] are calls of the finder one after the other, each with the number of the face and
    whether numbers within the component are wanted; [shares f] says whether numpy's ravel returns a view for that face *)
Theorem face_dofs_3d_k2_calls px py pz shares l : (1 <= px)%nat -> (1 <= py)%nat -> (1 <= pz)%nat -> Forall safe_call l -> Forall (fun c => (fst c < 6)%nat) l ->
  exists st vs, calls px py pz shares (fresh px py pz) l = Some (st, vs) /\ Forall2 (fun c v => right_numbers px py pz (fst c) v) l vs.
Proof. exact (fun Hx Hy Hz => safe_from_fresh px py pz shares Hx Hy Hz l). Qed.
Print Assumptions face_dofs_3d_k2_calls.
(** asking for the numbers within the component on a face y or z spoils what is found later on that face *)
Theorem face_dofs_3d_k2_after_component_refuted px py pz shares f : (1 <= px)%nat -> (1 <= py)%nat -> (1 <= pz)%nat -> (2 <= f < 6)%nat ->
  exists st v w, calls px py pz shares (fresh px py pz) [(f, true); (f, false)] = Some (st, [v; w]) /\ ~ right_numbers px py pz f w.
Proof. exact (fun Hx Hy Hz => plain_wrong px py pz shares Hx Hy Hz f). Qed.
Print Assumptions face_dofs_3d_k2_after_component_refuted.
(** and on a face z gives negative numbers *)
Theorem face_component_3d_k2_refuted px py pz shares f : (1 <= px)%nat -> (1 <= py)%nat -> (1 <= pz)%nat -> (4 <= f < 6)%nat ->
  exists st v, calls px py pz shares (fresh px py pz) [(f, true)] = Some (st, [v]) /\ exists z, In z v /\ (z < 0)%Z.
Proof. exact (fun Hx Hy Hz => cw_negative_calls px py pz shares Hx Hy Hz f). Qed.
Print Assumptions face_component_3d_k2_refuted.

(** * Examples *)
Example face_nodes3 : nodes_ok [-1; 0; 1]%R.
Proof. split; [|cbn; lia]. intros i j H. cbn in H. destruct i as [|[|[|]]], j as [|[|[|]]]; cbn; try lia; lra. Qed.
Example face_nodes2 : nodes_ok [-1; 1]%R.
Proof. split; [|cbn; lia]. intros i j H. cbn in H. destruct i as [|[|]], j as [|[|]]; cbn; try lia; lra. Qed.
Example face_found_2d : htt_m2n2k0 2 2 1 = Some [2; 5; 8] /\ htt_m2n2k1_outer 2 2 3 = Some [10; 11] /\ htt_m2n2k1_outer_cw 2 2 3 = Some (1, [4; 5]) /\ htt_m2n2k1_inner 2 2 0 = Some [6; 9].
Proof. repeat split. Qed.
Example face_found_3d : htt_m3n3k1 1 1 1 0 = Some [4; 6; 8; 10] /\ msepy_m3n3k1 1 1 1 0 0 = Some [0; 1; 2; 3] /\ htt_m3n3k2 1 1 1 5 = Some [5].
Proof. repeat split. Qed.
Example face_found_triangle : htt_m2n2k0_tri 2 2 0 = Some [0; 1; 2] /\ htt_m2n2k0_tri 2 2 1 = Some [2; 4; 6] /\ htt_m2n2k1_outer_tri 2 2 1 = Some [1; 3].
Proof. repeat split. Qed.
Example face_decided x : no_trace_2d_k0 [-1; 0; 1]%R [-1; 0; 1]%R 0 High x <-> (forall r, In r [2; 5; 8] -> x r = 0%R).
Proof. destruct (face_dofs_2d_k0 _ _ 1 face_nodes3 face_nodes3) as (l & E & D & _); [lia|]. injection E as <-. exact (D x). Qed.
Example face_calls : option_map snd (calls 1 1 1 (fun _ => true) (fresh 1 1 1) [(5, false); (2, false); (0, true); (4, false)]) = Some [[5]; [2]; [0]; [4]]%Z.
Proof. reflexivity. Qed.
Example face_calls_spoilt : option_map snd (calls 1 1 1 (fun _ => true) (fresh 1 1 1) [(5, false); (5, true); (5, false)]) = Some [[5]; [-1]; [-1]]%Z.
Proof. reflexivity. Qed.

