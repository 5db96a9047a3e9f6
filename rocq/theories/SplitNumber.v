(** Proofs about the numbering of the new nodes, the names and repeated splitting. *)
From Coq Require Import List Arith ZArith Reals String Ascii Bool Lra Lia Permutation.
From Coquelicot Require Import Coquelicot.
From Verif Require Import MappingModel MappingSpec MappingProofs SplitModel SplitSpec SplitGeom SplitConf SplitParts SplitThms.
Import List ListNotations.
Local Open Scope R_scope.
Local Notation length := List.length.

(** ** the pool *)
Definition count_from (i : Z) (n : nat) : list Z := map (fun k => (i + Z.of_nat k)%Z) (seq 0 n).
Lemma count_from_S i n : count_from i (S n) = count_from i n ++ [(i + Z.of_nat n)%Z].
Proof. unfold count_from. rewrite seq_S, map_app. reflexivity. Qed.
Lemma lookup_none p t : lookup p t = None <-> ~ In t (map fst p).
Proof.
  induction p as [|[u z] p IH]; cbn; [tauto|]. unfold zlist_eqb. destruct (list_eq_dec Z.eq_dec t u) as [->|N].
  - split; [discriminate|]. intros H. exfalso. auto.
  - rewrite IH. split; [intros H [E|E]; [congruence|auto]|auto].
Qed.
Lemma lookup_nth p t k z : NoDup (map fst p) -> nth_error p k = Some (t, z) -> lookup p t = Some z.
Proof.
  revert k. induction p as [|[u y] p IH]; intros [|k] N; cbn; try discriminate.
  - intros [= -> ->]. unfold zlist_eqb. destruct (list_eq_dec Z.eq_dec t t); [reflexivity|congruence].
  - intros H. inversion N as [|? ? N1 N2]; subst. unfold zlist_eqb. destruct (list_eq_dec Z.eq_dec t u) as [->|]; [|eapply IH; eauto].
    exfalso. apply N1. apply nth_error_In in H. apply (in_map fst) in H. exact H.
Qed.
Lemma enter_all ns : forall p i i0, NoDup (map fst p) -> map snd p = count_from i0 (length p) -> i = (i0 + Z.of_nat (length p))%Z ->
  let p' := fst (fold_left enter ns (p, i)) in
  NoDup (map fst p') /\ map snd p' = count_from i0 (length p') /\ (forall t, In t (map fst p') <-> In t (map fst p) \/ In (Tup t) ns).
Proof.
  induction ns as [|n ns IH]; intros p i i0 N C I; cbn [fold_left].
  - cbn. split; auto. split; auto. intros t. tauto.
  - destruct n as [z|t]; cbn [enter fst snd].
    + destruct (IH p i i0 N C I) as (H1 & H2 & H3). split; auto. split; auto. intros t. rewrite H3. cbn [In]. intuition discriminate.
    + destruct (lookup p t) eqn:L.
      * destruct (IH p i i0 N C I) as (H1 & H2 & H3). split; auto. split; auto. intros u. rewrite H3. cbn [In]. split; [tauto|].
        intros [H|[H|H]]; auto. injection H as ->. left. destruct (in_dec (list_eq_dec Z.eq_dec) u (map fst p)) as [|NI]; auto. apply lookup_none in NI. congruence.
      * assert (NI : ~ In t (map fst p)) by (now apply lookup_none).
        destruct (IH (p ++ [(t, i)]) (i + 1)%Z i0) as (H1 & H2 & H3).
        -- rewrite map_app. cbn. apply NoDup_app_disj; auto; [repeat constructor; auto|]. intros x H [<-|[]]. auto.
        -- rewrite map_app, app_length. cbn [map snd length]. rewrite Nat.add_1_r, count_from_S, C, I. reflexivity.
        -- rewrite app_length. cbn [length]. lia.
        -- split; auto. split; auto. intros u. rewrite H3, map_app, in_app_iff. cbn [map fst In]. intuition congruence.
Qed.

Definition num (p : list (list Z * Z)) (n : node) : Z := match n with Int z => z | Tup t => match lookup p t with Some z => z | None => 0%Z end end.
Lemma sequence_map {A B} (f : A -> option B) (g : A -> B) l : (forall x, In x l -> f x = Some (g x)) -> sequence (map f l) = Some (map g l).
Proof. induction l as [|a l IH]; intros H; cbn; auto. rewrite H by (cbn; auto). rewrite IH by (intros; apply H; cbn; auto). reflexivity. Qed.
Lemma sequence_some {A B} (f : A -> option B) l l' : sequence (map f l) = Some l' -> Forall2 (fun x y => f x = Some y) l l'.
Proof.
  revert l'. induction l as [|a l IH]; intros l'; cbn; [intros [= <-]; constructor|]. destruct (f a) eqn:E; [|discriminate].
  destruct (sequence (map f l)); [|discriminate]. intros [= <-]. constructor; auto.
Qed.
Lemma zmax_spec l : match zmax l with Some mx => In mx l /\ forall z, In z l -> (z <= mx)%Z | None => l = [] end.
Proof.
  destruct l as [|x r]; cbn [zmax]; auto.
  assert (G : forall r x, (In (fold_left Z.max r x) (x :: r)) /\ forall z, In z (x :: r) -> (z <= fold_left Z.max r x)%Z).
  { clear. induction r as [|y r IH]; intros x; cbn [fold_left].
    - split; [cbn; auto|]. intros z [<-|[]]. lia.
    - destruct (IH (Z.max x y)) as [H1 H2]. split.
      + destruct H1 as [H1|H1]; [|cbn; auto]. rewrite <- H1. destruct (Z.max_spec x y) as [[_ ->]|[_ ->]]; cbn; auto.
      + intros z [<-|[<-|H]]; [specialize (H2 (Z.max x y))|specialize (H2 (Z.max x y))|apply H2; cbn; auto]; cbn in H2; specialize (H2 (or_introl eq_refl)); lia. }
  apply G.
Qed.
Lemma in_ints ns z : In z (ints ns) <-> In (Int z) ns.
Proof.
  unfold ints. rewrite in_flat_map. split.
  - intros ([y|t] & H & K); [|destruct K]. destruct K as [->|[]]. exact H.
  - intros H. exists (Int z). cbn. auto.
Qed.

(** what the numbering does *)
Definition numbering (ns : list node) (mx : Z) (tuples : list (list Z)) (f : node -> Z) : Prop :=
  (forall z, f (Int z) = z) /\ NoDup tuples /\ (forall t, In t tuples <-> In (Tup t) ns) /\
  (forall k t, nth_error tuples k = Some t -> f (Tup t) = (mx + 1 + Z.of_nat k)%Z) /\ (forall z, In (Int z) ns -> (z <= mx)%Z).
Definition rename (f : node -> Z) (ls : list (list labelled)) : list (list element) := map (map (fun q => (fst q, map f (snd q)))) ls.

Lemma split_mesh_spec mesh : match sequence (map split_all mesh) with
  | None => split_mesh mesh = None
  | Some ls => (split_mesh mesh = None /\ nodes_of mesh = []) \/
      exists mx tuples f, In mx (nodes_of mesh) /\ numbering (concat (map snd (concat ls))) mx tuples f /\ split_mesh mesh = Some (rename f ls)
  end.
Proof.
  destruct (sequence (map split_all mesh)) as [ls|] eqn:E; [|unfold split_mesh; rewrite E; reflexivity].
  set (ns := concat (map snd (concat ls))).
  assert (Old : forall z, In (Int z) ns <-> In z (nodes_of mesh)).
  { intros z. unfold nodes_of. apply old_all. apply sequence_some in E. clear -E. induction E as [|es ls0 mesh lss E1 _ IH]; [reflexivity|].
    cbn [concat]. revert ls0 E1. induction es as [|[[e s] m] es IHe]; intros ls0 E1; cbn in *.
    - injection E1 as <-. exact IH.
    - destruct (split_one s m); [|discriminate]. destruct (split_all es) as [t|] eqn:Et; [|discriminate]. injection E1 as <-. rewrite (IHe t eq_refl). rewrite app_assoc. reflexivity. }
  pose proof (zmax_spec (ints ns)) as Mx. destruct (zmax (ints ns)) as [mx|] eqn:Em.
  - right. destruct Mx as [M1 M2]. destruct (enter_all ns [] (mx + 1)%Z (mx + 1)%Z) as (P1 & P2 & P3); [constructor|reflexivity|cbn; lia|].
    set (p := fst (fold_left enter ns ([], (mx + 1)%Z))) in *.
    exists mx, (map fst p), (num p). split; [apply Old, in_ints, M1|]. split; [split; [reflexivity|split; [exact P1|split; [|split]]]|].
    + intros t. rewrite P3. cbn. tauto.
    + intros k t Hk. cbn [num]. rewrite nth_error_map in Hk. destruct (nth_error p k) as [[u z]|] eqn:Hp; [|discriminate]. injection Hk as ->.
      rewrite (lookup_nth p t k z P1 Hp). pose proof (map_nth_error snd k p Hp) as Hz. rewrite P2 in Hz. unfold count_from in Hz. rewrite nth_error_map in Hz.
      destruct (nth_error (seq 0 (length p)) k) as [k'|] eqn:Hs; [|discriminate]. injection Hz as <-.
      assert (Lk : (k < length p)%nat) by (apply nth_error_Some; congruence). 
      apply (nth_error_nth _ _ 0%nat) in Hs. rewrite seq_nth in Hs by auto. lia.
    + intros z Hz. apply M2, in_ints, Hz.
    + unfold split_mesh. rewrite E. fold ns. rewrite Em. fold p. unfold rename. apply sequence_map. intros r Hr. apply sequence_map. intros q Hq.
      unfold renumber_element. rewrite (sequence_map (renumber1 p) (num p)); auto. intros n Hn. destruct n as [z|t]; [reflexivity|]. cbn [renumber1 num].
      destruct (lookup p t) eqn:L; auto. apply lookup_none in L. exfalso. apply L, P3. right. unfold ns. apply in_concat. exists (snd q). split; auto.
      apply in_map. apply in_concat. eauto.
  - left. split; [unfold split_mesh; rewrite E; fold ns; rewrite Em; reflexivity|].
    destruct (nodes_of mesh) as [|z l] eqn:En; auto. exfalso. assert (H : In z (ints ns)) by (apply in_ints, Old; cbn; auto). rewrite Mx in H. exact H.
Qed.
Lemma numbering_inj ns mx tuples f : numbering ns mx tuples f -> forall x y, In x ns -> In y ns -> f x = f y -> x = y.
Proof.
  intros (F1 & N & T & F2 & F3) x y Hx Hy E.
  assert (G : forall t, In (Tup t) ns -> exists k, nth_error tuples k = Some t /\ f (Tup t) = (mx + 1 + Z.of_nat k)%Z).
  { intros t Ht. apply T in Ht. apply In_nth_error in Ht as [k Hk]. eauto. }
  destruct x as [a|t], y as [b|u].
  - rewrite !F1 in E. congruence.
  - destruct (G u Hy) as (k & _ & Ek). rewrite F1, Ek in E. specialize (F3 a Hx). lia.
  - destruct (G t Hx) as (k & _ & Ek). rewrite F1, Ek in E. specialize (F3 b Hy). lia.
  - destruct (G t Hx) as (k & Hk & Ek). destruct (G u Hy) as (j & Hj & Ej). rewrite Ek, Ej in E. assert (k = j) by lia. subst. congruence.
Qed.
Lemma concat_split mesh ls : sequence (map split_all mesh) = Some ls -> split_all (concat mesh) = Some (concat ls).
Proof.
  intros E. apply sequence_some in E. induction E as [|es ls0 mesh lss E1 _ IH]; [reflexivity|].
  cbn [concat]. revert ls0 E1. induction es as [|[[e s] m] es IHe]; intros ls0 E1; cbn in *.
  - injection E1 as <-. exact IH.
  - destruct (split_one s m); [|discriminate]. destruct (split_all es) as [t|] eqn:Et; [|discriminate]. injection E1 as <-. rewrite (IHe t eq_refl). rewrite app_assoc. reflexivity.
Qed.
Lemma split_mesh_some mesh mesh' : split_mesh mesh = Some mesh' ->
  exists ls mx tuples f, sequence (map split_all mesh) = Some ls /\ split_all (concat mesh) = Some (concat ls) /\ In mx (nodes_of mesh) /\
    numbering (concat (map snd (concat ls))) mx tuples f /\ mesh' = rename f ls.
Proof.
  intros H. pose proof (split_mesh_spec mesh) as S0. destruct (sequence (map split_all mesh)) as [ls|] eqn:E; [|congruence].
  destruct S0 as [[S0 _]|(mx & tuples & f & M & Nb & S0)]; [congruence|]. exists ls, mx, tuples, f. split; auto. split; [apply concat_split; auto|]. split; auto. split; auto. congruence.
Qed.
Lemma concat_rename (f : node -> Z) (ls : list (list labelled)) : concat (rename f ls) = map (fun q => (fst q, map f (snd q))) (concat ls).
Proof. unfold rename. rewrite concat_map. reflexivity. Qed.

(** ** conforming meshes stay so *)
Lemma plane_rename (f : node -> Z) (ls : list labelled) : plane_elements (map (fun q => (fst q, map f (snd q))) ls) = map (fun q => (fst q, map f (snd q))) (plane_elements ls).
Proof. unfold plane_elements. rewrite !map_map. reflexivity. Qed.
Lemma split_conforming mesh mesh' : conforming (plane_elements (concat mesh)) -> split_mesh mesh = Some mesh' -> conforming (plane_elements (concat mesh')).
Proof.
  intros Cf H. destruct (split_mesh_some mesh mesh' H) as (ls & mx & tuples & f & _ & E & _ & Nb & ->). rewrite concat_rename, plane_rename.
  apply conforming_rename; [|exact (split_all_conforming _ _ Cf E)]. replace (concat (map snd (plane_elements (concat ls)))) with (concat (map snd (concat ls))).
  - exact (numbering_inj _ _ _ _ Nb).
  - unfold plane_elements. rewrite map_map. reflexivity.
Qed.

(** ** places *)
Lemma split_placed pos mesh mesh' : placed pos mesh -> split_mesh mesh = Some mesh' ->
  exists pos', placed pos' mesh' /\ forall n, In n (nodes_of mesh) -> pos' n = pos n.
Proof.
  intros Pl H. destruct (split_mesh_some mesh mesh' H) as (ls & mx & tuples & f & _ & E & _ & Nb & ->). pose proof (numbering_inj _ _ _ _ Nb) as Inj.
  set (ns := concat (map snd (concat ls))) in *.
  set (pos' := fun z => match find (fun n => (f n =? z)%Z) ns with Some n => node_pos pos n | None => (0, 0, 0) end).
  assert (P : forall n, In n ns -> pos' (f n) = node_pos pos n).
  { intros n Hn. unfold pos'. destruct (find (fun n0 => (f n0 =? f n)%Z) ns) as [n'|] eqn:F.
    - apply find_some in F as [F1 F2]. apply Z.eqb_eq in F2. apply Inj in F2; auto. subst. reflexivity.
    - pose proof (find_none _ _ F n Hn) as K. cbn in K. rewrite Z.eqb_refl in K. discriminate. }
  exists pos'. split.
  - intros x s' m Hm. rewrite concat_rename in Hm. apply in_map_iff in Hm as ([[x0 s0] m0] & [= -> -> <-] & Hm).
    destruct (split_all_in _ _ x s' m0 E Hm) as (e & s & m & c & y & H1 & H2 & H3 & _). destruct (Pl e s m H1) as [St Cn].
    split; [exact (straight_children s m c y s' m0 St H2 H3)|]. rewrite (corner_children pos s m c y s' m0 St Cn H2 H3), map_map. apply map_ext_in. intros n Hn. symmetry. apply P.
    unfold ns. apply in_concat. exists m0. split; auto. apply in_map_snd. eauto.
  - intros n Hn. destruct Nb as (F1 & _). rewrite <- (F1 n) at 1. rewrite P; [reflexivity|]. apply (old_all _ _ n E). exact Hn.
Qed.

(** ** nodes and numbers *)
Lemma split_nodes mesh mesh' : split_mesh mesh = Some mesh' -> exists mx k, In mx (nodes_of mesh) /\ (forall z, In z (nodes_of mesh) -> (z <= mx)%Z) /\
  forall z, In z (nodes_of mesh') <-> In z (nodes_of mesh) \/ (mx + 1 <= z < mx + 1 + Z.of_nat k)%Z.
Proof.
  intros H. destruct (split_mesh_some mesh mesh' H) as (ls & mx & tuples & f & _ & E & M & (F1 & N & T & F2 & F3) & ->).
  exists mx, (length tuples). split; auto. split; [intros z Hz; apply F3; apply (old_all _ _ z E); exact Hz|].
  intros z. unfold nodes_of at 1. rewrite concat_rename, map_map. cbn [snd]. rewrite <- (map_map snd (map f)), <- concat_map, in_map_iff. split.
  - intros ([y|t] & <- & Hn).
    + left. rewrite F1. apply (old_all _ _ y E). exact Hn.
    + right. apply T in Hn. apply In_nth_error in Hn as [k Hk]. rewrite (F2 k t Hk). assert (k < length tuples)%nat by (apply nth_error_Some; congruence). lia.
  - intros [Hz|Hz].
    + exists (Int z). split; auto. apply (old_all _ _ z E). exact Hz.
    + destruct (nth_error tuples (Z.to_nat (z - mx - 1))) as [t|] eqn:Ht; [|apply nth_error_None in Ht; lia].
      exists (Tup t). split; [rewrite (F2 _ _ Ht); lia|]. apply T. eapply nth_error_In; eauto.
Qed.

(** ** measures, orientation, regions *)
Lemma total_app a b : total (a ++ b) = total a + total b.
Proof. unfold total. rewrite map_app, fold_right_app. induction (map measure a) as [|x l IH]; cbn; [lra|]. rewrite IH. lra. Qed.
Lemma split_all_total es ls : (forall e s m, In (e, s, m) es -> straight s) -> split_all es = Some ls -> total (shapes ls) = total (shapes es).
Proof.
  revert ls. induction es as [|[[e s] m] es IH]; intros ls St; cbn [split_all]; [intros [= <-]; reflexivity|].
  destruct (split_one s m) as [c|] eqn:E; [|discriminate]. destruct (split_all es) as [t|]; [|discriminate]. intros [= <-].
  unfold shapes. rewrite map_app, total_app. fold (shapes t). rewrite (IH t) by (eauto; intros; eapply St; right; eauto).
  rewrite map_map. rewrite (map_ext _ (fun q : labelled => snd (fst q))) by (intros [[? ?] ?]; reflexivity). fold (shapes c).
  rewrite (measure_children s m c (St e s m (or_introl eq_refl)) E). reflexivity.
Qed.
Lemma shapes_rename (f : node -> Z) (ls : list (list labelled)) : shapes (concat (rename f ls)) = shapes (concat ls).
Proof. rewrite concat_rename. unfold shapes. rewrite map_map. reflexivity. Qed.
Lemma split_total mesh mesh' : (forall e s m, In (e, s, m) (concat mesh) -> straight s) -> split_mesh mesh = Some mesh' ->
  total (shapes (concat mesh')) = total (shapes (concat mesh)) /\ forall e s m, In (e, s, m) (concat mesh') -> straight s.
Proof.
  intros St H. destruct (split_mesh_some mesh mesh' H) as (ls & mx & tuples & f & _ & E & _ & _ & ->). rewrite shapes_rename. split; [exact (split_all_total _ _ St E)|].
  intros x s' m Hm. rewrite concat_rename in Hm. apply in_map_iff in Hm as ([[x0 s0] m0] & [= -> -> <-] & Hm).
  destruct (split_all_in _ _ x s' m0 E Hm) as (e & s & m & c & y & H1 & H2 & H3 & _). exact (straight_children s m c y s' m0 (St e s m H1) H2 H3).
Qed.
Lemma split_oriented mesh mesh' : (forall e s m, In (e, s, m) (concat mesh) -> (sound s m \/ straight s) /\ oriented s) -> split_mesh mesh = Some mesh' ->
  forall e s m, In (e, s, m) (concat mesh') -> oriented s.
Proof.
  intros O H. destruct (split_mesh_some mesh mesh' H) as (ls & mx & tuples & f & _ & E & _ & _ & ->).
  intros x s' m Hm. rewrite concat_rename in Hm. apply in_map_iff in Hm as ([[x0 s0] m0] & [= -> -> <-] & Hm).
  destruct (split_all_in _ _ x s' m0 E Hm) as (e & s & m & c & y & H1 & H2 & H3 & _). destruct (O e s m H1) as [V Or]. exact (oriented_children s m c y s' m0 V Or H2 H3).
Qed.
Lemma split_region mesh mesh' p : (forall e s m, In (e, s, m) (concat mesh) -> sound s m) -> split_mesh mesh = Some mesh' ->
  (exists e s m, In (e, s, m) (concat mesh) /\ in_region s p) <-> (exists e s m, In (e, s, m) (concat mesh') /\ in_region s p).
Proof.
  intros So H. destruct (split_mesh_some mesh mesh' H) as (ls & mx & tuples & f & _ & E & _ & _ & ->). rewrite concat_rename. split.
  - intros (e & s & m & Hm & R0). destruct (split_all_parent _ _ e s m E Hm) as (c & H1 & H2). destruct (proj1 (region_children s m c p (So e s m Hm) H1) R0) as (y & s' & m' & I & R1).
    exists (append e y), s', (map f m'). split; auto. apply in_map_iff. exists (append e y, s', m'). split; auto.
  - intros (x & s' & m' & Hm & R0). apply in_map_iff in Hm as ([[x0 s0] m0] & [= -> -> <-] & Hm).
    destruct (split_all_in _ _ x s' m0 E Hm) as (e & s & m & c & y & H1 & H2 & H3 & _). exists e, s, m. split; auto. apply (region_children s m c p (So e s m H1) H2). eauto.
Qed.

(** ** names *)
Lemma split_one_tags s m c : split_one s m = Some c -> map (fun q => fst (fst q)) c = tags s.
Proof.
  intros E. destruct s as [P|P|o d|o d|P|f J|].
  - destruct P as [|A [|B [|C [|? ?]]]]; try discriminate. destruct (triangle_children _ _ _ _ _ E) as (n0 & n1 & n2 & -> & ->). reflexivity.
  - destruct P as [|A [|B [|C [|D [|? ?]]]]]; try discriminate. destruct (quad_children _ _ _ _ _ _ E) as (n0 & n1 & n2 & n3 & -> & ->). reflexivity.
  - destruct (rect_children _ _ _ _ E) as (n0 & n1 & n3 & n2 & -> & ->). reflexivity.
  - destruct (hex_children _ _ _ _ E) as (nA & nB & nD & nC & nK & nL & nM & nN & -> & ->). destruct o as [[ox oy] oz], d as [[dx dy] dz]. reflexivity.
  - destruct m as [|m0 [|m1 [|m2 [|m3 [|m4 [|m5 [|m6 [|m7 [|? ?]]]]]]]]]; try discriminate. cbn [split_one] in E. destruct (voxel_box P) as [[o d]|]; [|discriminate].
    assert (E' : c = split_box o d m0 m1 m2 m3 m4 m5 m6 m7) by congruence. rewrite E'. destruct o as [[ox oy] oz], d as [[dx dy] dz]. reflexivity.
  - destruct (curved_children _ _ _ _ E) as (n0 & n1 & n2 & n3 & -> & ->). reflexivity.
  - discriminate.
Qed.
Lemma split_all_names es ls : split_all es = Some ls -> map (fun q => fst (fst q)) ls = child_names es.
Proof.
  revert ls. induction es as [|[[e s] m] es IH]; intros ls; cbn [split_all]; [intros [= <-]; reflexivity|].
  destruct (split_one s m) as [c|] eqn:E; [|discriminate]. destruct (split_all es) as [t|]; [|discriminate]. intros [= <-].
  rewrite map_app, (IH t eq_refl). unfold child_names. cbn [flat_map]. f_equal. unfold name. cbn [fst snd]. rewrite <- (split_one_tags s m c E), !map_map.
  apply map_ext. intros [[? ?] ?]. reflexivity.
Qed.
Lemma split_names mesh mesh' : split_mesh mesh = Some mesh' -> map (map name) mesh' = map child_names mesh.
Proof.
  intros H. destruct (split_mesh_some mesh mesh' H) as (ls & mx & tuples & f & E & _ & _ & _ & ->). apply sequence_some in E. clear H. induction E as [|es l mesh lss E1 _ IH]; [reflexivity|].
  cbn. rewrite <- (split_all_names es l E1), map_map. f_equal. exact IH.
Qed.
Definition rs (s : string) : list ascii := rev (list_ascii_of_string s).
Lemma laos_app a b : list_ascii_of_string (append a b) = list_ascii_of_string a ++ list_ascii_of_string b.
Proof. induction a as [|x a IH]; cbn; auto. rewrite IH. reflexivity. Qed.
Lemma rs_app a b : rs (append a b) = rs b ++ rs a.
Proof. unfold rs. rewrite laos_app, rev_app_distr. reflexivity. Qed.
Lemma rs_inj a b : rs a = rs b -> a = b.
Proof. unfold rs. intros H. apply (f_equal (@rev ascii)) in H. rewrite !rev_involutive in H. apply (f_equal string_of_list_ascii) in H. rewrite !string_of_list_ascii_of_string in H. exact H. Qed.
Lemma tags_inj s s' x x' e e' : In x (tags s) -> In x' (tags s') -> append e x = append e' x' -> e = e' /\ x = x'.
Proof.
  intros Hx Hx' E. assert (G : e = e' -> e = e' /\ x = x').
  { intros <-. split; auto. clear -E. induction e as [|a e IH]; cbn in E; [exact E|]. injection E as E. auto. }
  apply (f_equal rs) in E. rewrite !rs_app in E.
  assert (All : forall u v, In u (tags v) -> In u ([":5>0"; ":5>1"; ":5>2"; ":9>0"; ":9>1"; ":9>2"; ":9>3"; ":or>0"; ":or>1"; ":or>2"; ":or>3"; ":oH>0"; ":oH>1"; ":oH>2"; ":oH>3"; ":oH>4"; ":oH>5"; ":oH>6"; ":oH>7"; ":UCQ>0"; ":UCQ>1"; ":UCQ>2"; ":UCQ>3"])%string).
  { intros u v. destruct v; cbn [tags In]; tauto. }
  apply All in Hx, Hx'. clear All. cbn [In] in Hx, Hx'.
  repeat (destruct Hx as [<-|Hx]; [repeat (destruct Hx' as [<-|Hx']; [cbn in E; first [discriminate E|injection E as E; apply G, rs_inj, E]|]); destruct Hx'|]). destruct Hx.
Qed.
Lemma tags_nodup s : NoDup (tags s).
Proof. destruct s; cbn [tags]; repeat constructor; cbn [In]; intuition discriminate. Qed.
Lemma child_names_nodup es : NoDup (map name es) -> NoDup (child_names es).
Proof.
  induction es as [|q es IH]; cbn; intros N; [constructor|]. inversion N as [|? ? N1 N2]; subst. apply NoDup_app_disj.
  - apply NoDup_map_on; [|apply tags_nodup]. intros x y Hx Hy E. exact (proj2 (tags_inj _ _ _ _ _ _ Hx Hy E)).
  - apply IH, N2.
  - intros n H H'. apply in_map_iff in H as (x & <- & Hx). apply in_flat_map in H' as (q' & Hq & H'). apply in_map_iff in H' as (x' & E & Hx').
    destruct (tags_inj _ _ _ _ _ _ Hx' Hx E) as [E1 _]. apply N1. rewrite <- E1. apply in_map, Hq.
Qed.
Lemma child_names_concat mesh : concat (map child_names mesh) = child_names (concat mesh).
Proof. induction mesh as [|r mesh IH]; cbn; auto. unfold child_names in *. rewrite flat_map_app, IH. reflexivity. Qed.
Lemma split_names_nodup mesh mesh' : split_mesh mesh = Some mesh' -> NoDup (map name (concat mesh)) -> NoDup (map name (concat mesh')).
Proof. intros H N. rewrite concat_map, (split_names mesh mesh' H), child_names_concat. apply child_names_nodup, N. Qed.

(** ** when splitting succeeds *)
Lemma splittable_one e s m : splittable (e, s, m) -> exists c, split_one s m = Some c.
Proof.
  intros [[_ So]|[St L]].
  - destruct s as [P|P|o d| | |f J|]; try (destruct So; fail).
    + destruct So as [L1 L2]. destruct P as [|A [|B [|C [|? ?]]]]; try discriminate. destruct m as [|a [|b [|c [|? ?]]]]; try discriminate. eexists; reflexivity.
    + destruct So as [L1 L2]. destruct P as [|A [|B [|C [|D [|? ?]]]]]; try discriminate. destruct m as [|a [|b [|c [|d [|? ?]]]]]; try discriminate. eexists; reflexivity.
    + destruct m as [|a [|b [|c [|d' [|? ?]]]]]; try discriminate. eexists; reflexivity.
    + destruct m as [|a [|b [|c [|d' [|? ?]]]]]; try discriminate. eexists; reflexivity.
  - destruct (straight_cases s St) as [(A & B & C & ->)|[(A & B & C & D & ->)|[(o & d & ->)|[(o & d & ->)|(o & d & ->)]]]].
    + cbn in L. destruct m as [|a [|b [|c [|? ?]]]]; try discriminate. eexists; reflexivity.
    + cbn in L. destruct m as [|a [|b [|c [|d [|? ?]]]]]; try discriminate. eexists; reflexivity.
    + cbn in L. destruct m as [|a [|b [|c [|d' [|? ?]]]]]; try discriminate. eexists; reflexivity.
    + destruct o as [[ox oy] oz], d as [[dx dy] dz]. cbn in L. destruct m as [|m0 [|m1 [|m2 [|m3 [|m4 [|m5 [|m6 [|m7 [|? ?]]]]]]]]]; try discriminate. eexists; reflexivity.
    + destruct o as [[ox oy] oz], d as [[dx dy] dz]. cbn in L. destruct m as [|m0 [|m1 [|m2 [|m3 [|m4 [|m5 [|m6 [|m7 [|? ?]]]]]]]]]; try discriminate. eexists; reflexivity.
Qed.
Lemma split_one_length s m c x s' m' : straight s -> split_one s m = Some c -> In (x, s', m') c -> length m' = length (corners s').
Proof.
  (* the corners are there for whatever positions fit; the lengths do not depend on them *)
  intros St E I. destruct (straight_cases s St) as [(A & B & C & ->)|[(A & B & C & D & ->)|[(o & d & ->)|[(o & d & ->)|(o & d & ->)]]]].
  - destruct (triangle_children _ _ _ _ _ E) as (n0 & n1 & n2 & -> & ->). unfold split_triangle in I. cbn [In] in I.
    repeat (destruct I as [I|I]; [assert (Em := f_equal (fun q : labelled => length (snd q)) I); assert (Es := f_equal (fun q : labelled => length (corners (snd (fst q)))) I); cbn in Em, Es; congruence|]). destruct I.
  - destruct (quad_children _ _ _ _ _ _ E) as (n0 & n1 & n2 & n3 & -> & ->). apply four_in in I as (k & Hs & Hm & _). apply nth_map_some in Hs as (P & HP & ->). cbn. rewrite map_length, (paras_length _ _ _ _ _ _ HP).
    destruct k as [|[|[|[|k]]]]; [| | | |destruct k; discriminate]; injection Hm as <-; reflexivity.
  - destruct (rect_children _ _ _ _ E) as (n0 & n1 & n3 & n2 & -> & ->). apply four_in in I as (k & Hs & Hm & _). apply nth_map_some in Hs as (P & HP & ->). cbn. rewrite map_length, (paras_length _ _ _ _ _ _ HP).
    destruct k as [|[|[|[|k]]]]; [| | | |destruct k; discriminate]; injection Hm as <-; reflexivity.
  - destruct (hex_children _ _ _ _ E) as (nA & nB & nD & nC & nK & nL & nM & nN & -> & ->). destruct o as [[ox oy] oz], d as [[dx dy] dz]. unfold split_box in I. cbn [In fst snd] in I.
    repeat (destruct I as [I|I]; [assert (Em := f_equal (fun q : labelled => length (snd q)) I); assert (Es := f_equal (fun q : labelled => length (corners (snd (fst q)))) I); cbn in Em, Es; congruence|]). destruct I.
  - destruct (voxel_children _ _ _ _ E) as (nA & nB & nD & nC & nK & nL & nM & nN & -> & ->). destruct o as [[ox oy] oz], d as [[dx dy] dz]. unfold split_box in I. cbn [In fst snd] in I.
    repeat (destruct I as [I|I]; [assert (Em := f_equal (fun q : labelled => length (snd q)) I); assert (Es := f_equal (fun q : labelled => length (corners (snd (fst q)))) I); cbn in Em, Es; congruence|]). destruct I.
Qed.
Lemma split_all_total_fun es : Forall splittable es -> exists ls, split_all es = Some ls.
Proof.
  induction 1 as [|[[e s] m] es H _ [t IH]]; cbn; [eauto|]. destruct (splittable_one e s m H) as [c ->]. rewrite IH. eauto.
Qed.
Lemma sequence_all {A B} (f : A -> option B) l : (forall x, In x l -> exists y, f x = Some y) -> exists l', sequence (map f l) = Some l'.
Proof.
  induction l as [|a l IH]; intros H; cbn; [eauto|]. destruct (H a (or_introl eq_refl)) as [y ->]. destruct IH as [t ->]; [intros; apply H; cbn; auto|]. eauto.
Qed.
Lemma split_succeeds mesh : Forall splittable (concat mesh) -> nodes_of mesh <> [] -> exists mesh', split_mesh mesh = Some mesh' /\ Forall splittable (concat mesh') /\ nodes_of mesh' <> [].
Proof.
  intros Sp Ne. assert (exists ls, sequence (map split_all mesh) = Some ls) as [ls E].
  { apply sequence_all. intros r Hr. apply split_all_total_fun. rewrite Forall_forall in *. intros q Hq. apply Sp. apply in_concat. eauto. }
  pose proof (split_mesh_spec mesh) as S0. rewrite E in S0. destruct S0 as [[_ S0]|(mx & tuples & f & M & Nb & S0)]; [contradiction|].
  exists (rename f ls). split; auto. split.
  - pose proof (concat_split _ _ E) as Ea. pose proof (numbering_inj _ _ _ _ Nb) as Inj. rewrite Forall_forall in *. intros [[x s'] m'] Hm.
    pose proof Hm as Hm0. rewrite concat_rename in Hm. apply in_map_iff in Hm as ([[x0 s0] m0] & [= -> -> <-] & Hm).
    destruct (split_all_in _ _ x s' m0 Ea Hm) as (e & s & m & c & y & H1 & H2 & H3 & _). destruct (Sp _ H1) as [So|[St L]].
    + left. destruct (child_sound s m c y s' m0 So H2 H3) as [[N0 S1] _]. split; [|rewrite map_length; exact S1].
      apply NoDup_map_on; auto. intros u v Hu Hv. apply Inj; apply in_concat; exists m0; (split; [apply in_map_snd; eauto|auto]).
    + right. split; [exact (straight_children s m c y s' m0 St H2 H3)|]. rewrite map_length. exact (split_one_length s m c y s' m0 St H2 H3).
  - destruct (split_nodes mesh (rename f ls) S0) as (mx' & k & M' & _ & N'). intros Em. assert (K : In mx (nodes_of (rename f ls))) by (apply N'; auto). rewrite Em in K. exact K.
Qed.

(** ** several times *)
Lemma iterate_inv (P : list (list element) -> Prop) : (forall a b, P a -> split_mesh a = Some b -> P b) -> forall k a b, P a -> iterate k a = Some b -> P b.
Proof.
  intros H. induction k as [|k IH]; intros a b Pa; cbn; [intros [= <-]; exact Pa|]. destruct (split_mesh a) as [c|] eqn:E; [|discriminate]. apply IH. eapply H; eauto.
Qed.
Lemma iterate_succeeds k mesh : Forall splittable (concat mesh) -> nodes_of mesh <> [] -> exists mesh', iterate k mesh = Some mesh'.
Proof.
  revert mesh. induction k as [|k IH]; intros mesh Sp Ne; cbn; [eauto|]. destruct (split_succeeds mesh Sp Ne) as (mesh' & -> & Sp' & Ne'). apply IH; auto.
Qed.
Lemma iterate_placed k pos mesh mesh' : placed pos mesh -> iterate k mesh = Some mesh' -> exists pos', placed pos' mesh' /\ forall n, In n (nodes_of mesh) -> pos' n = pos n.
Proof.
  revert pos mesh. induction k as [|k IH]; intros pos mesh Pl; cbn; [intros [= <-]; eauto|]. destruct (split_mesh mesh) as [c|] eqn:E; [|discriminate]. intros H.
  destruct (split_placed pos mesh c Pl E) as (pos1 & Pl1 & K1). destruct (IH pos1 c Pl1 H) as (pos2 & Pl2 & K2). exists pos2. split; auto. intros n Hn. rewrite K2, K1; auto.
  destruct (split_nodes mesh c E) as (mx & j & _ & _ & N). apply N. auto.
Qed.
Lemma iterate_conforming k mesh mesh' : conforming (plane_elements (concat mesh)) -> iterate k mesh = Some mesh' -> conforming (plane_elements (concat mesh')).
Proof. apply (iterate_inv (fun x => conforming (plane_elements (concat x)))). intros a b. apply split_conforming. Qed.
Lemma conforming_sound (es : list element) : conforming (plane_elements es) -> forall e s m, In (e, s, m) es -> sound s m.
Proof. intros (So & _) e s m H. rewrite Forall_forall in So. apply (So (s, m)). apply plane_in. eauto. Qed.
Lemma iterate_names k mesh mesh' : NoDup (map name (concat mesh)) -> iterate k mesh = Some mesh' -> NoDup (map name (concat mesh')).
Proof. apply (iterate_inv (fun x => NoDup (map name (concat x)))). intros a b N H. exact (split_names_nodup a b H N). Qed.
Lemma iterate_total k mesh mesh' : (forall e s m, In (e, s, m) (concat mesh) -> straight s) -> iterate k mesh = Some mesh' -> total (shapes (concat mesh')) = total (shapes (concat mesh)).
Proof.
  revert mesh. induction k as [|k IH]; intros mesh St; cbn; [intros [= <-]; reflexivity|]. destruct (split_mesh mesh) as [c|] eqn:E; [|discriminate]. intros H.
  destruct (split_total mesh c St E) as [T St']. rewrite (IH c St' H). exact T.
Qed.
Lemma iterate_region k mesh mesh' p : conforming (plane_elements (concat mesh)) -> iterate k mesh = Some mesh' ->
  (exists e s m, In (e, s, m) (concat mesh) /\ in_region s p) <-> (exists e s m, In (e, s, m) (concat mesh') /\ in_region s p).
Proof.
  revert mesh. induction k as [|k IH]; intros mesh Cf; cbn; [intros [= <-]; reflexivity|]. destruct (split_mesh mesh) as [c|] eqn:E; [|discriminate]. intros H.
  rewrite (split_region mesh c p (conforming_sound _ Cf) E). apply IH; auto. exact (split_conforming mesh c Cf E).
Qed.
Lemma iterate_oriented k mesh mesh' : conforming (plane_elements (concat mesh)) -> (forall e s m, In (e, s, m) (concat mesh) -> oriented s) -> iterate k mesh = Some mesh' ->
  forall e s m, In (e, s, m) (concat mesh') -> oriented s.
Proof.
  revert mesh. induction k as [|k IH]; intros mesh Cf O; cbn; [intros [= <-]; exact O|]. destruct (split_mesh mesh) as [c|] eqn:E; [|discriminate]. intros H.
  refine (IH c (split_conforming mesh c Cf E) _ H). refine (split_oriented mesh c _ E). intros e s m Hm. split; [left; exact (conforming_sound _ Cf e s m Hm)|exact (O e s m Hm)].
Qed.
Lemma iterate_oriented_straight k mesh mesh' : (forall e s m, In (e, s, m) (concat mesh) -> straight s /\ oriented s) -> iterate k mesh = Some mesh' ->
  forall e s m, In (e, s, m) (concat mesh') -> straight s /\ oriented s.
Proof.
  revert mesh. induction k as [|k IH]; intros mesh O; cbn; [intros [= <-]; exact O|]. destruct (split_mesh mesh) as [c|] eqn:E; [|discriminate]. intros H.
  refine (IH c _ H). intros e s m Hm. split.
  - refine (proj2 (split_total mesh c _ E) e s m Hm). intros e0 s0 m0 H0. exact (proj1 (O e0 s0 m0 H0)).
  - refine (split_oriented mesh c _ E e s m Hm). intros e0 s0 m0 H0. destruct (O e0 s0 m0 H0). auto.
Qed.

(** ** _parse_ts_ *)
Fixpoint trace (k : nat) (mesh : list (list element)) : option (list (list (list element)) * list (list element)) :=
  match k with
  | O => Some ([], mesh)
  | S j => match split_mesh mesh with Some m' => match trace j m' with Some (l, z) => Some (mesh :: l, z) | None => None end | None => None end
  end.
Lemma trace_spec k mesh l z : trace k mesh = Some (l, z) -> length l = k /\ iterate k mesh = Some z /\ forall j, (j < k)%nat -> nth_error l j = iterate j mesh.
Proof.
  revert mesh l. induction k as [|k IH]; intros mesh l; cbn; [intros [= <- <-]; repeat split; lia|].
  destruct (split_mesh mesh) as [m'|] eqn:E; [|discriminate]. destruct (trace k m') as [[l0 z0]|] eqn:T; [|discriminate]. intros [= <- <-].
  destruct (IH m' l0 T) as (H1 & H2 & H3). split; [cbn; lia|]. split; auto. intros [|j] Hj; cbn; [reflexivity|]. rewrite E. apply H3. lia.
Qed.
Lemma trace_iterate k mesh : trace k mesh = None <-> iterate k mesh = None.
Proof.
  revert mesh. induction k as [|k IH]; intros mesh; cbn; [split; discriminate|]. destruct (split_mesh mesh) as [m'|]; [|tauto].
  rewrite <- IH. destruct (trace k m') as [[? ?]|]; split; congruence.
Qed.
Lemma info_put_new {A} (d : list (nat * A)) k v : ~ In k (map fst d) -> info_put d k v = d ++ [(k, v)].
Proof.
  induction d as [|[k' v'] d IH]; cbn; auto. intros N. destruct (Nat.eqb_spec k k') as [->|]; [exfalso; auto|]. rewrite IH; auto.
Qed.
Lemma combine_snoc {A B} (l : list A) (l' : list B) a b : length l = length l' -> combine (l ++ [a]) (l' ++ [b]) = combine l l' ++ [(a, b)].
Proof. revert l'. induction l as [|x l IH]; intros [|y l']; cbn; try discriminate; auto. intros [= H]. rewrite IH; auto. Qed.
Definition downto (k : nat) : list nat := rev (seq 1 k).
Lemma downto_S k : downto (S k) = S k :: downto k.
Proof. unfold downto. rewrite seq_S, rev_app_distr. reflexivity. Qed.
Lemma downto_in k j : In j (downto k) <-> (1 <= j <= k)%nat.
Proof. unfold downto. rewrite <- in_rev, in_seq. lia. Qed.
Lemma parse_trace ts : forall info mesh, (forall j, In j (map fst info) -> (ts < j)%nat) ->
  parse_ts ts info mesh = match trace ts mesh with None => None | Some (l, z) => match renumber_info (info ++ combine (downto ts) l) with Some i => Some (z, i) | None => None end end.
Proof.
  induction ts as [|ts IH]; intros info mesh H; cbn [parse_ts trace]; [rewrite app_nil_r; reflexivity|].
  destruct (split_mesh mesh) as [m'|]; [|reflexivity]. rewrite info_put_new by (intros K; specialize (H _ K); lia).
  rewrite IH.
  - destruct (trace ts m') as [[l z]|]; [|reflexivity]. rewrite downto_S. cbn [combine]. rewrite <- app_assoc. reflexivity.
  - intros j. rewrite map_app, in_app_iff. cbn. intros [K|[<-|[]]]; [|lia]. specialize (H _ K). lia.
Qed.
Lemma fst_combine {A B} (l : list A) (l' : list B) : length l = length l' -> map fst (combine l l') = l.
Proof. revert l'. induction l as [|x l IH]; intros [|y l']; cbn; try discriminate; auto. intros [= H]. rewrite IH; auto. Qed.
Lemma downto_length k : length (downto k) = k.
Proof. unfold downto. rewrite rev_length, seq_length. reflexivity. Qed.
Lemma put_all {A} (e : list (nat * A)) : forall d, NoDup (map fst (d ++ e)) -> fold_left (fun acc kv => info_put acc (fst kv) (snd kv)) e d = d ++ e.
Proof.
  induction e as [|[k v] e IH]; intros d N; cbn [fold_left]; [rewrite app_nil_r; reflexivity|]. cbn [fst snd].
  rewrite info_put_new.
  - rewrite IH; rewrite <- app_assoc; auto.
  - rewrite map_app in N. cbn in N. apply NoDup_remove_2 in N. intros K. apply N. apply in_or_app. auto.
Qed.
Lemma list_max_downto k : list_max (downto k) = k.
Proof.
  apply Nat.le_antisymm.
  - apply list_max_le. apply Forall_forall. intros j H. apply downto_in in H. lia.
  - destruct k; [lia|]. assert (K : (list_max (downto (S k)) <= list_max (downto (S k)))%nat) by lia. apply list_max_le in K. rewrite Forall_forall in K. apply K. apply downto_in. lia.
Qed.
Lemma shift_downto {A} k (l : list A) mx : length l = k -> (k <= mx)%nat -> map (fun kv : nat * A => ((mx - fst kv)%nat, snd kv)) (combine (downto k) l) = combine (seq (mx - k) k) l.
Proof.
  revert l. induction k as [|k IH]; intros [|a l] L M; try discriminate; [reflexivity|]. rewrite downto_S. cbn [combine map seq fst snd]. f_equal.
  rewrite IH by (cbn in L; lia). f_equal. f_equal. lia.
Qed.
Lemma renumber_downto {A} k (l : list A) : length l = k -> renumber_info (combine (downto k) l) = Some (combine (seq 0 k) l).
Proof.
  intros L. destruct k as [|k]; [destruct l; [reflexivity|discriminate]|].
  unfold renumber_info. rewrite downto_S. destruct l as [|a l]; [discriminate|]. cbn [combine]. change ((S k, a) :: combine (downto k) l) with (combine (S k :: downto k) (a :: l)). rewrite <- downto_S.
  rewrite fst_combine by (rewrite downto_length; auto). rewrite list_max_downto.
  rewrite (sequence_map _ (fun kv : nat * A => ((S k - fst kv)%nat, snd kv))).
  - unfold option_map. rewrite (shift_downto (S k) (a :: l) (S k) L) by lia. rewrite Nat.sub_diag. f_equal. rewrite put_all; [reflexivity|]. cbn [app]. rewrite fst_combine by (rewrite seq_length; auto). apply seq_NoDup.
  - intros [j v] H. cbn [fst snd]. apply in_combine_l in H. apply downto_in in H. destruct (Nat.leb_spec 1 j); [|lia]. destruct (Nat.leb_spec j (S k)); [reflexivity|lia].
Qed.
Lemma info_get_seq {A} k (l : list A) : forall s j, length l = k -> info_get (combine (seq s k) l) j = if (s <=? j)%nat then nth_error l (j - s) else None.
Proof.
  revert l. induction k as [|k IH]; intros [|a l] s j L; try discriminate; cbn [seq combine info_get].
  - destruct (s <=? j)%nat; auto. destruct (j - s)%nat; reflexivity.
  - destruct (Nat.eqb_spec j s) as [->|N].
    + rewrite Nat.leb_refl, Nat.sub_diag. reflexivity.
    + rewrite IH by (cbn in L; lia). destruct (Nat.leb_spec (S s) j), (Nat.leb_spec s j); try lia; auto. replace (j - s)%nat with (S (j - S s)) by lia. reflexivity.
Qed.
Lemma parse_ts_spec k mesh : match iterate k mesh with
  | None => parse_ts k [] mesh = None
  | Some mesh' => exists info, parse_ts k [] mesh = Some (mesh', info) /\ forall j, info_get info j = if (j <? k)%nat then iterate j mesh else None
  end.
Proof.
  pose proof (parse_trace k [] mesh (fun j H => match H with end)) as P. destruct (iterate k mesh) as [mesh'|] eqn:I.
  - destruct (trace k mesh) as [[l z]|] eqn:T; [|apply trace_iterate in T; congruence]. destruct (trace_spec k mesh l z T) as (H1 & H2 & H3).
    assert (z = mesh') by congruence. subst z. cbn [app] in P. rewrite (renumber_downto k l H1) in P. exists (combine (seq 0 k) l). split; auto.
    intros j. rewrite (info_get_seq k l 0 j H1). cbn [Nat.leb]. rewrite Nat.sub_0_r. destruct (Nat.ltb_spec j k); [apply H3; auto|]. apply nth_error_None. lia.
  - apply trace_iterate in I. rewrite I in P. exact P.
Qed.
