(** Small meshes for the examples and for the refutations. *)
From Coq Require Import List ZArith QArith Qcanon Bool Lia.
From Verif Require Import TrfModel TrfSpec TrfLattice TrfLattice2 TrfSide TrfGlue TrfStatic TrfConform TrfLeaves TrfPairs TrfDynamic TrfRefine TrfTile.
Import ListNotations.
Local Open Scope Z_scope.

(** two squares, one to the right of the other *)
Definition two : mesh := [(0, mkq 0 1 3 2); (1, mkq 2 3 5 4)].
(** the South side of 0 goes from node 1 to node 2, the West side of 1 goes from node 2 to node 1 *)
Definition turned : mesh := [(0, mkq 0 1 2 3); (1, mkq 2 1 4 5)].
(** a square with both pairs of opposite sides glued, 2 x 2 elements *)
Definition torus : mesh := [(0, mkq 0 2 3 1); (1, mkq 1 3 2 0); (2, mkq 2 0 1 3); (3, mkq 3 1 0 2)].
Definition single : mesh := [(0, mkq 0 1 3 2)].
Definition one : elem -> value := fun _ => VNum 1%Qc.
(** a refining function that asks for refining near one corner *)
Definition corner_f (x : elem) : Qc := match x with Base 0 => 1%Qc | Tri 0 West _ => 1%Qc | Tri 0 North [] => 1%Qc | _ => 0%Qc end.

Ltac sides H := apply undirected_shared in H; vm_compute in H; try discriminate H.
Lemma two_ok : mesh_ok Msehtt two.
Proof.
  split; [|split].
  - cbn. repeat constructor; cbn; intuition discriminate.
  - intros e q [E | [E | []]]; apply pair_equal_spec in E; destruct E as [<- <-]; cbn; (split; [repeat constructor; cbn; intuition discriminate|lia]).
  - intros e q s e1 q1 s1 e2 q2 s2 I I1 I2 H1 H2 N1 N2.
    destruct I as [E | [E | []]]; apply pair_equal_spec in E; destruct E as [<- <-];
    destruct I1 as [E | [E | []]]; apply pair_equal_spec in E; destruct E as [<- <-]; destruct s, s1; sides H1; try congruence;
    destruct I2 as [E | [E | []]]; apply pair_equal_spec in E; destruct E as [<- <-]; destruct s2; sides H2; congruence.
Qed.
Lemma two_dir : same_directions Msehtt two.
Proof.
  intros e q s e' q' s' n n' I I' F F'. apply side_face_eq in F. apply side_face_eq in F'.
  destruct I as [E | [E | []]]; apply pair_equal_spec in E; destruct E as [<- <-]; destruct I' as [E | [E | []]]; apply pair_equal_spec in E; destruct E as [<- <-];
  destruct s, s'; cbn in F, F'; congruence.
Qed.
Lemma turned_ok : mesh_ok Msehtt turned.
Proof.
  split; [|split].
  - cbn. repeat constructor; cbn; intuition discriminate.
  - intros e q [E | [E | []]]; apply pair_equal_spec in E; destruct E as [<- <-]; cbn; (split; [repeat constructor; cbn; intuition discriminate|lia]).
  - intros e q s e1 q1 s1 e2 q2 s2 I I1 I2 H1 H2 N1 N2.
    destruct I as [E | [E | []]]; apply pair_equal_spec in E; destruct E as [<- <-];
    destruct I1 as [E | [E | []]]; apply pair_equal_spec in E; destruct E as [<- <-]; destruct s, s1; sides H1; try congruence;
    destruct I2 as [E | [E | []]]; apply pair_equal_spec in E; destruct E as [<- <-]; destruct s2; sides H2; congruence.
Qed.
Definition hpt : Qc := Q2Qc (1 # 2).
(** the quarter points of the common side *)
Lemma turned_apart : ~ glued Msehtt turned 0 (1%Qc, hpt) 1 (hpt, (-(1))%Qc).
Proof.
  enough (X : forall e p e' p', glued Msehtt turned e p e' p' -> e = 0 -> e' = 1 -> p = (1%Qc, hpt) -> p' = (hpt, (-(1))%Qc) -> False) by (intros H; exact (X _ _ _ _ H eq_refl eq_refl eq_refl eq_refl)).
  intros e p e' p' H Ee Ee' Ep Ep'.
  assert (ST : forall s t, along s t = (1%Qc, hpt) -> s = South /\ t = hpt).
  { intros s t E. destruct s; cbn in E; apply pair_equal_spec in E; destruct E as [A B]; auto; exfalso; discriminate || (apply (f_equal this) in B; discriminate). }
  assert (ST' : forall s t, along s t = (hpt, (-(1))%Qc) -> s = West /\ t = hpt).
  { intros s t E. destruct s; cbn in E; apply pair_equal_spec in E; destruct E as [A B]; auto; exfalso; discriminate || (apply (f_equal this) in A; discriminate). }
  destruct H as [e p | e q e1 q' p p1 n I I' C C' | e q s e1 q' s' n n' t I I' A B F F' | e q s e1 q' s' n n' t I I' A B F F'].
  - congruence.
  - clear - C Ep. destruct C; apply pair_equal_spec in Ep; destruct Ep as [A B]; apply (f_equal this) in B; discriminate.
  - destruct (ST _ _ Ep) as [-> ->]. destruct (ST' _ _ Ep') as [-> _]. apply side_face_eq in F. apply side_face_eq in F'.
    destruct I as [E | [E | []]]; apply pair_equal_spec in E; destruct E as [<- <-]; try discriminate; destruct I' as [E | [E | []]]; apply pair_equal_spec in E; destruct E as [<- <-]; try discriminate. cbn in F, F'. congruence.
  - destruct (ST _ _ Ep) as [-> ->]. destruct (ST' _ _ Ep') as [_ E]. apply (f_equal this) in E. discriminate.
Qed.
Definition all_levels_of (M : mesh) (k : nat) : option (list elem) := refine Msehtt M (boundary_faces M) one (thresholds k).
Definition is_some {A} (o : option A) : bool := match o with Some _ => true | None => false end.
Lemma some_of {A} (o : option A) : is_some o = true -> exists a, o = Some a.
Proof. destruct o; [eauto|discriminate]. Qed.
Definition map_of (M : mesh) (k : nat) : option (list (elem * list nat)) :=
  match all_levels_of M k with Some els => make_map Msehtt M els | None => None end.
Definition has_entry (x : elem) (ns : list nat) (o : option (list (elem * list nat))) : bool :=
  match o with Some m => existsb (fun y => if elem_eq_dec (fst y) x then if list_eq_dec Nat.eq_dec (snd y) ns then true else false else false) m | None => false end.
Lemma has_entry_in x ns m : has_entry x ns (Some m) = true -> In (x, ns) m.
Proof.
  intros H. apply existsb_exists in H. destruct H as ((y & l) & I & H). cbn [fst snd] in H. destruct (elem_eq_dec y x) as [-> |]; [|discriminate].
  destruct (list_eq_dec Nat.eq_dec l ns) as [-> |]; [exact I|discriminate].
Qed.
Lemma turned_some : is_some (all_levels_of turned 4) = true. Proof. vm_compute. reflexivity. Qed.
Lemma turned_map : is_some (map_of turned 4) = true. Proof. vm_compute. reflexivity. Qed.
Lemma turned_0 : has_entry (Tri 0 South [h2; h0; h2]) [23; 20; 19]%nat (map_of turned 4) = true. Proof. vm_compute. reflexivity. Qed.
Lemma turned_1 : has_entry (Tri 1 West [h2; h0; h2]) [23; 13; 34]%nat (map_of turned 4) = true. Proof. vm_compute. reflexivity. Qed.
Lemma turned_numbers : exists els m ns ns', all_levels_of turned 4 = Some els /\ make_map Msehtt turned els = Some m /\
  In (Tri 0 South [h2; h0; h2], ns) m /\ In (Tri 1 West [h2; h0; h2], ns') m /\ nth_error ns 0 = Some 23%nat /\ nth_error ns' 0 = Some 23%nat.
Proof.
  destruct (some_of _ turned_some) as (els & E). destruct (some_of _ turned_map) as (m & Em).
  pose proof turned_0 as A. pose proof turned_1 as B. rewrite Em in A, B. apply has_entry_in in A. apply has_entry_in in B.
  unfold map_of in Em. rewrite E in Em. exists els, m, [23; 20; 19]%nat, [23; 13; 34]%nat. auto 10.
Qed.
Lemma turned_refuted : mesh_ok Msehtt turned /\ exists els m, all_levels_of turned 4 = Some els /\ make_map Msehtt turned els = Some m /\ ~ numbered Msehtt turned els m.
Proof.
  split; [exact turned_ok|]. destruct turned_numbers as (els & m & ns & ns' & E & Em & I & I' & A & B). exists els, m. split; [exact E|]. split; [exact Em|].
  intros (_ & _ & H & _). apply turned_apart.
  apply (H (Tri 0 South [h2; h0; h2]) ns (Tri 1 West [h2; h0; h2]) ns' O O 23%nat 23%nat (1%Qc, hpt) (hpt, (-(1))%Qc)); [exact I|exact I'|exact A| |exact B| |reflexivity].
  - cbn [node_points]. replace (verts South [h2; h0; h2]) with (vert0 South [h2; h0; h2], vert1 South [h2; h0; h2], vert2 South [h2; h0; h2]) by (symmetry; apply verts_eta).
    cbn [nth_error]. f_equal. apply pair_equal_spec. split; apply Qc_is_canon; reflexivity.
  - cbn [node_points]. replace (verts West [h2; h0; h2]) with (vert0 West [h2; h0; h2], vert1 West [h2; h0; h2], vert2 West [h2; h0; h2]) by (symmetry; apply verts_eta).
    cbn [nth_error]. f_equal. apply pair_equal_spec. split; apply Qc_is_canon; reflexivity.
Qed.
Lemma torus_1 : is_some (all_levels_of torus 1) = true. Proof. vm_compute. reflexivity. Qed.
Lemma torus_2 : all_levels_of torus 2 = None. Proof. vm_compute. reflexivity. Qed.
Lemma torus_refuted : (exists els, all_levels_of torus 1 = Some els) /\ all_levels_of torus 2 = None.
Proof. exact (conj (some_of _ torus_1) torus_2). Qed.
Lemma center_none : refine Msehtt two (boundary_faces two) (fun _ => default_value Center) (thresholds 2) = None. Proof. vm_compute. reflexivity. Qed.
Lemma middle_some : is_some (refine Msehtt two (boundary_faces two) (fun _ => default_value Middle) (thresholds 2)) = true. Proof. vm_compute. reflexivity. Qed.
Lemma center_refuted : refine Msehtt two (boundary_faces two) (fun _ => default_value Center) (thresholds 2) = None /\
  exists els, refine Msehtt two (boundary_faces two) (fun _ => default_value Middle) (thresholds 2) = Some els.
Proof. exact (conj center_none (some_of _ middle_some)). Qed.
Lemma cache_run : fst (run single (fun _ => default_value Center) (thresholds 2) None) = None. Proof. vm_compute. reflexivity. Qed.
Lemma cache_two : is_some (fst (run two one (thresholds 2) None)) = true. Proof. vm_compute. reflexivity. Qed.
Lemma cache_two' : snd (run two one (thresholds 2) None) = None. Proof. vm_compute. reflexivity. Qed.
Lemma cache_bad : fst (run two one (thresholds 2) (snd (run single (fun _ => default_value Center) (thresholds 2) None))) = None. Proof. vm_compute. reflexivity. Qed.
Lemma cache_refuted : exists cache els, run single (fun _ => default_value Center) (thresholds 2) None = (None, cache) /\
  run two one (thresholds 2) None = (Some els, None) /\ fst (run two one (thresholds 2) cache) = None.
Proof.
  destruct (some_of _ cache_two) as (els & E). exists (snd (run single (fun _ => default_value Center) (thresholds 2) None)), els.
  split; [rewrite <- cache_run; apply surjective_pairing|]. split; [rewrite <- E, <- cache_two'; apply surjective_pairing|exact cache_bad].
Qed.
(** a triangle and a quadrilateral region with a common side *)
Lemma mixed_refuted num a b c d x M : (forall q, In q (quads_numbered num [RTri a b x; RQuad a b c d]) -> exists e, In (e, q) M) -> ~ same_directions Msehtt M.
Proof.
  intros HM H.
  destruct (HM (mkq (num (Old b)) (num (mid2 b x)) (num (Ctr [a; b; x])) (num (mid2 a b)))) as (e & I); [cbn; auto|].
  destruct (HM (mkq (num (mid2 a b)) (num (Old b)) (num (mid2 b c)) (num (Ctr [a; b; c; d])))) as (e' & I'); [cbn; auto 10|].
  apply (H e _ North e' _ West (num (Old b)) (num (mid2 a b)) I I'); split; cbn; constructor.
Qed.
