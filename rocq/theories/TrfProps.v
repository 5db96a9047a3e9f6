(** C79: triangular refining of quadrilateral meshes.  Statements only; the vocabulary is in TrfSpec, the model in TrfModel. *)
From Coq Require Import List ZArith QArith Qcanon Bool Lia.
From Verif Require Import TrfModel TrfSpec TrfGlue TrfLeaves TrfDynamic TrfRefine TrfTile TrfExamples.
Import ListNotations.
Local Open Scope Qc_scope.

(** any refining function, any thresholds: the refining ends without an exception and the mesh is conforming *)
Theorem C79_conforming : forall fl M bd f t ts, mesh_ok fl M -> same_directions fl M -> boundary_ok fl M bd ->
  exists els, refine fl M bd (fun x => VNum (f x)) (t :: ts) = Some els /\ conforming fl M els.
Proof. exact (fun fl M bd f t ts OK DIR BD => refine_conforming fl M OK DIR bd BD (fun x => VNum (f x)) f (fun x => eq_refl) t ts). Qed.
Print Assumptions C79_conforming.

(** the boundary faces that the msehtt version finds are the boundary *)
Theorem C79_boundary : forall M, mesh_ok Msehtt M -> boundary_ok Msehtt M (boundary_faces M).
Proof. exact boundary_faces_ok. Qed.
Print Assumptions C79_boundary.

(** the numbers of the nodes: equal iff the points are the same point of the mesh, without gaps *)
Theorem C79_numbers : forall fl M bd f t ts els, mesh_ok fl M -> same_directions fl M -> boundary_ok fl M bd ->
  refine fl M bd (fun x => VNum (f x)) (t :: ts) = Some els ->
  exists m, make_map fl M els = Some m /\ numbered fl M els m.
Proof. exact (fun fl M bd f t ts els OK DIR BD => refine_numbered fl M OK DIR bd BD (fun x => VNum (f x)) f (fun x => eq_refl) t ts els). Qed.
Print Assumptions C79_numbers.

(** whatever is refined, the elements of a quadrilateral cover it and do not overlap *)
Theorem C79_tiles : forall fl M bd val ts els, refine fl M bd val ts = Some els -> tiles M els.
Proof. exact refine_tiles. Qed.
Print Assumptions C79_tiles.

(** the first level splits the quadrilaterals whose value reaches the threshold *)
Theorem C79_first_level : forall fl M bd f t, mesh_ok fl M -> exists els, refine fl M bd (fun x => VNum (f x)) [t] = Some els /\
  forall z, In z els <-> exists e, In e (map fst M) /\
    ((z = Base e /\ ~ t <= f (Base e)) \/ (t <= f (Base e) /\ exists s, z = Tri e s [])).
Proof. exact (fun fl M bd f t OK => refine_one fl M OK bd (fun x => VNum (f x)) f (fun x => eq_refl) t). Qed.
Print Assumptions C79_first_level.

(** a further level halves exactly the chosen triangles *)
Theorem C79_next_level : forall fl M bd f t0 ts t, mesh_ok fl M -> same_directions fl M -> boundary_ok fl M bd ->
  exists els els', refine fl M bd (fun x => VNum (f x)) (t0 :: ts) = Some els /\
    refine fl M bd (fun x => VNum (f x)) (t0 :: ts ++ [t]) = Some els' /\
    forall z, In z els' <-> (In z els /\ ~ chosen fl M els f t z) \/
      exists e s p h, z = Tri e s (p ++ [h]) /\ chosen fl M els f t (Tri e s p).
Proof. exact (fun fl M bd f t0 ts t OK DIR BD => refine_snoc fl M OK DIR bd BD (fun x => VNum (f x)) f (fun x => eq_refl) t0 ts t). Qed.
Print Assumptions C79_next_level.

(** if every value reaches every threshold, the elements are all triangles of one depth *)
Theorem C79_uniform : forall fl M bd f t ts, mesh_ok fl M -> same_directions fl M -> boundary_ok fl M bd ->
  (forall t' x, In t' (t :: ts) -> t' <= f x) ->
  exists els, refine fl M bd (fun x => VNum (f x)) (t :: ts) = Some els /\ NoDup els /\
    forall x, In x els <-> exists e s p, x = Tri e s p /\ In e (map fst M) /\ length p = length ts.
Proof. exact (fun fl M bd f t ts OK DIR BD => uniform_ok fl M OK DIR bd BD (fun x => VNum (f x)) f (fun x => eq_refl) t ts). Qed.
Print Assumptions C79_uniform.

(** areas halve: n halvings after the first level a triangle has the area (1/2)^n (the reference square has 4), so it is never degenerate *)
Theorem C79_area : forall s p, match verts s p with (a, b, c) => area2 a b c = (1 + 1) * half ^ length p end.
Proof. exact area_verts. Qed.
Print Assumptions C79_area.

(** in a strictly convex quadrilateral with straight sides no triangle is inverted, at any depth *)
Theorem C79_not_inverted : forall A B C D s p, convex A B C D -> match verts s p with (v0, v1, v2) =>
  0 < area2 (bilinear A B C D v0) (bilinear A B C D v1) (bilinear A B C D v2) end.
Proof. exact not_inverted. Qed.
Print Assumptions C79_not_inverted.

(** the refining function is evaluated in the triangle; its centre is the centroid *)
Theorem C79_points : forall e s p q, In q (tri_points (verts s p)) -> in_elem (Tri e s p) q.
Proof. exact (fun e s p q => points_in s p e q). Qed.
Print Assumptions C79_points.
Theorem C79_centroid : forall v, tri_center v = at_weights v third third third.
Proof. exact center_weights. Qed.
Print Assumptions C79_centroid.

(** the map of a triangle in a curvilinear quadrilateral, in weights of the vertices *)
Theorem C79_map : forall v xi et, tct_point v xi et =
  at_weights v ((1 - xi) * half) ((1 + xi) * half * ((1 - et) * half)) ((1 + xi) * half * ((1 + et) * half)).
Proof. exact tct_weights. Qed.
Print Assumptions C79_map.

(** quadrilaterals made of triangular regions have consistent directions, whatever their nodes *)
Theorem C79_tqr_triangles : forall num rs M, (forall a b, In a (labels rs) -> In b (labels rs) -> num a = num b -> a = b) ->
  (forall r, In r rs -> exists a b c, r = RTri a b c) -> (forall e q, In (e, q) M -> In q (quads_numbered num rs)) ->
  same_directions Msehtt M.
Proof. exact triangles_same. Qed.
Print Assumptions C79_tqr_triangles.

(** findings *)
(** with a triangular region and a quadrilateral region side by side the directions are never consistent *)
Theorem C79_tqr_mixed_refuted : forall num a b c d x M,
  (forall q, In q (quads_numbered num [RTri a b x; RQuad a b c d]) -> exists e, In (e, q) M) -> ~ same_directions Msehtt M.
Proof. exact mixed_refuted. Qed.
Print Assumptions C79_tqr_mixed_refuted.
(** without consistent directions, trf = 4 gives one number to two points *)
Theorem C79_turned_refuted : exists M els m, mesh_ok Msehtt M /\
  refine Msehtt M (boundary_faces M) (fun _ => VNum 1) (thresholds 4) = Some els /\
  make_map Msehtt M els = Some m /\ ~ numbered Msehtt M els m.
Proof. exact (match turned_refuted with conj OK (ex_intro _ els (ex_intro _ m (conj E (conj Em N)))) =>
  ex_intro _ turned (ex_intro _ els (ex_intro _ m (conj OK (conj E (conj Em N))))) end). Qed.
Print Assumptions C79_turned_refuted.
(** a periodic 2 x 2 mesh: one level works, two raise *)
Theorem C79_torus_refuted :
  (exists els, refine Msehtt torus (boundary_faces torus) (fun _ => VNum 1) (thresholds 1) = Some els) /\
  refine Msehtt torus (boundary_faces torus) (fun _ => VNum 1) (thresholds 2) = None.
Proof. exact torus_refuted. Qed.
Print Assumptions C79_torus_refuted.
(** trf = 2 with the default refining function raises for 'center' and works for 'middle' *)
Theorem C79_center_refuted : refine Msehtt two (boundary_faces two) (fun _ => default_value Center) (thresholds 2) = None /\
  exists els, refine Msehtt two (boundary_faces two) (fun _ => default_value Middle) (thresholds 2) = Some els.
Proof. exact center_refuted. Qed.
Print Assumptions C79_center_refuted.
(** the boundary faces that an exception leaves behind make the refining of the next mesh raise *)
Theorem C79_cache_refuted : exists cache els, run single (fun _ => default_value Center) (thresholds 2) None = (None, cache) /\
  run two (fun _ => VNum 1) (thresholds 2) None = (Some els, None) /\ fst (run two (fun _ => VNum 1) (thresholds 2) cache) = None.
Proof. exact cache_refuted. Qed.
Print Assumptions C79_cache_refuted.

(** the hypotheses are met *)
Example two_meets : mesh_ok Msehtt two /\ same_directions Msehtt two /\ boundary_ok Msehtt two (boundary_faces two).
Proof. exact (conj two_ok (conj two_dir (boundary_faces_ok two two_ok))). Qed.
Example two_refined : exists els, refine Msehtt two (boundary_faces two) (fun x => VNum (corner_f x)) [1; 1; 1] = Some els /\ conforming Msehtt two els.
Proof. exact (C79_conforming Msehtt two (boundary_faces two) corner_f 1 [1; 1] two_ok two_dir (boundary_faces_ok two two_ok)). Qed.
(** only one of the quadrilaterals is split; its triangle next to the other quadrilateral is not halved *)
Example two_lists : refine Msehtt two (boundary_faces two) (fun x => VNum (corner_f x)) [1; 1] =
  Some [Tri 0 North [h2]; Tri 0 North [h0]; Tri 0 West [h2]; Tri 0 West [h0]; Tri 0 East []; Tri 0 South []; Base 1].
Proof. vm_compute. reflexivity. Qed.
Example two_numbers : match refine Msehtt two (boundary_faces two) (fun x => VNum (corner_f x)) [1] with
  Some els => make_map Msehtt two els | None => None end =
  Some [(Tri 0 North [], [0; 1; 2]%nat); (Tri 0 West [], [0; 2; 3]%nat); (Tri 0 East [], [0; 4; 1]%nat); (Tri 0 South [], [0; 3; 4]%nat); (Base 1, [1; 4; 5; 6]%nat)].
Proof. vm_compute. reflexivity. Qed.
Example square_convex : convex (0, 0) (1, 0) (1, 1) (0, 1).
Proof. repeat split. Qed.
(** two triangular regions with the common side 1-2 *)
Definition num2 (l : label) : Z := match l with Old n => 3 * n | Mid2 a b => 3 * (10 * a + b) + 1 | Ctr [_; _; c] => 3 * c + 2 | Ctr _ => 2 end%Z.
Definition regions2 := [RTri 0 1 2; RTri 1 2 3]%Z.
Example two_regions : (forall a b, In a (labels regions2) -> In b (labels regions2) -> num2 a = num2 b -> a = b) /\
  same_directions Msehtt (combine [0; 1; 2; 3; 4; 5]%Z (quads_numbered num2 regions2)).
Proof.
  assert (J : forall a b, In a (labels regions2) -> In b (labels regions2) -> num2 a = num2 b -> a = b).
  { assert (X : forallb (fun a => forallb (fun b => implb (Z.eqb (num2 a) (num2 b)) (match a, b with Old n, Old n' => Z.eqb n n' | Mid2 n m, Mid2 n' m' => Z.eqb n n' && Z.eqb m m'
      | Ctr l, Ctr l' => if list_eq_dec Z.eq_dec l l' then true else false | _, _ => false end)) (labels regions2)) (labels regions2) = true) by (vm_compute; reflexivity).
    intros a b A B E. rewrite forallb_forall in X. specialize (X a A). rewrite forallb_forall in X. specialize (X b B). rewrite (proj2 (Z.eqb_eq _ _) E) in X. cbn [implb] in X.
    destruct a as [n|n m|l], b as [n'|n' m'|l']; try discriminate.
    - apply Z.eqb_eq in X. congruence.
    - apply andb_true_iff in X. destruct X as [X Y]. apply Z.eqb_eq in X. apply Z.eqb_eq in Y. congruence.
    - destruct (list_eq_dec Z.eq_dec l l'); congruence. }
  split; [exact J|]. apply (C79_tqr_triangles num2 regions2).
  - exact J.
  - intros r [<- | [<- | []]]; eauto.
  - intros e q H. exact (in_combine_r _ _ _ _ H).
Qed.
