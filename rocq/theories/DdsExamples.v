(** Concrete regions and data sets. *)
From Coq Require Import List ZArith QArith Qcanon Bool Lia Permutation.
From Verif Require Import DdsModel DdsSpec DdsThms DdsOps.
Import ListNotations.
Local Open Scope Qc_scope.

Definition z (n : Z) : Qc := qc_of n.
Definition nat_z (n : nat) : Qc := qc_of (Z.of_nat n).
(** nodes x0 + i, y = j with the velocity of f *)
Definition grid (n : Z) (x0 : Qc) (a b : nat) (u v : Qc -> Qc -> Qc) : region :=
  let gx := fun i (_ : nat) => x0 + nat_z i in
  let gy := fun (_ j : nat) => nat_z j in
  mkr n a b gx gy (fun i j => u (gx i j) (gy i j)) (fun i j => v (gx i j) (gy i j)).

(** two regions with a common side, the velocity (x, -y) of the stream function x y *)
Definition ru (x y : Qc) : Qc := x.
Definition rv (x y : Qc) : Qc := - y.
Definition left_region := grid 0 0 1 2 ru rv.
Definition right_region := grid 1 1 2 2 ru rv.
Definition pair := [right_region; left_region].
Definition point_eqb (p q : Qc * Qc) : bool := Qeq_bool (fst p) (fst q) && Qeq_bool (snd p) (snd q).
Definition all_corners := [MM; PM; MP; PP].
Definition keqb (a b : pkey) : bool := if pkey_eq_dec a b then true else false.
Definition faithfulb (rs : list region) : bool :=
  forallb (fun r => forallb (fun c => forallb (fun r' => forallb (fun c' =>
    implb (keqb (corner_key r c) (corner_key r' c')) (point_eqb (corner_point r c) (corner_point r' c'))) all_corners) rs) all_corners) rs.
Lemma faithful_by rs : faithfulb rs = true -> faithful rs.
Proof.
  intros H r c r' c' I I' E. unfold faithfulb in H. rewrite forallb_forall in H. specialize (H r I). rewrite forallb_forall in H.
  specialize (H c ltac:(destruct c; cbn; auto)). rewrite forallb_forall in H. specialize (H r' I'). rewrite forallb_forall in H.
  specialize (H c' ltac:(destruct c'; cbn; auto)). unfold keqb in H. destruct (pkey_eq_dec _ _) as [_|N]; [|contradiction]. cbn [implb] in H.
  unfold point_eqb in H. apply andb_true_iff in H. destruct H as [H1 H2]. apply Qeq_bool_iff in H1. apply Qeq_bool_iff in H2.
  destruct (corner_point r c), (corner_point r' c'). cbn [fst snd] in *. f_equal; apply Qc_is_canon; assumption.
Qed.
Lemma pair_faithful : faithful pair. Proof. apply faithful_by. vm_compute. reflexivity. Qed.
Lemma pair_names : NoDup (map name pair). Proof. repeat constructor; cbn; intuition discriminate. Qed.
Lemma pair_flow r : In r pair -> linear_flow 0 0 0 0 1 0 r.
Proof. intros [<- | [<- | []]] i j; cbn [U V X Y right_region left_region grid]; unfold ru, rv; split; ring. Qed.
Definition check (o : option sfs) (n : Z) (i j : nat) : option Qc :=
  match o with Some d => match find (fun x => Z.eqb (fst x) n) d with Some x => Some (snd x i j) | None => None end | None => None end.
Lemma pair_value : option_map this (check (streamfunction pair None 0) 1 2 2) = Some (6 # 1)%Q.
Proof. vm_compute. reflexivity. Qed.

(** the velocity of x^3 y^3 is not linear: the values at the common side differ *)
Definition cu (x y : Qc) : Qc := z 3 * x * x * x * y * y.
Definition cv (x y : Qc) : Qc := - (z 3 * x * x * y * y * y).
Definition cubic := [grid 0 0 1 2 cu cv; grid 1 1 1 2 cu cv].
Lemma cubic_values : option_map this (check (streamfunction cubic None 0) 0 1 2) = Some (12 # 1)%Q /\ option_map this (check (streamfunction cubic None 0) 1 0 2) = Some (9 # 1)%Q.
Proof. split; vm_compute; reflexivity. Qed.
Lemma check_in o n i j q : option_map this (check o n i j) = Some q -> exists d f, o = Some d /\ In (n, f) d /\ this (f i j) = q.
Proof.
  unfold check. destruct o as [d|]; [|discriminate]. destruct (find _ d) as [[n' f]|] eqn:E; [|discriminate]. cbn. intro H. injection H as <-.
  apply find_some in E. destruct E as [I E]. cbn in E. apply Z.eqb_eq in E. subst n'. exists d, f. auto.
Qed.
Lemma cubic_jump : exists d f g, streamfunction cubic None 0 = Some d /\ In (0%Z, f) d /\ In (1%Z, g) d /\ f 1%nat 2%nat <> g 0%nat 2%nat.
Proof.
  destruct cubic_values as [A B]. apply check_in in A. destruct A as (d & f & E & If & Hf). rewrite E in B. apply check_in in B. destruct B as (d' & g & E' & Ig & Hg).
  injection E' as <-. exists d, f, g. repeat split; auto. intro K. rewrite K, Hg in Hf. discriminate.
Qed.

(** corners at the distance 1e-9, on both sides of zero *)
Definition tiny : Qc := Q2Qc (1 # 1000000000).
Definition one_u (x y : Qc) : Qc := 1.
Definition zero_v (x y : Qc) : Qc := 0.
Definition near_zero := [grid 0 (- (1) - tiny) 1 1 one_u zero_v; grid 1 0 1 1 one_u zero_v].
Definition near_zero' := [grid 0 (- (1) + tiny) 1 1 one_u zero_v; grid 1 0 1 1 one_u zero_v].
Definition isnone {A} (o : option A) : bool := match o with None => true | _ => false end.
Lemma near_zero_none : streamfunction near_zero None 0 = None.
Proof. assert (H : isnone (streamfunction near_zero None 0) = true) by (vm_compute; reflexivity). destruct (streamfunction _ _ _); [discriminate|reflexivity]. Qed.
Lemma near_zero_some : exists d, streamfunction near_zero' None 0 = Some d.
Proof. assert (H : isnone (streamfunction near_zero' None 0) = false) by (vm_compute; reflexivity). destruct (streamfunction _ _ _); [eauto|discriminate]. Qed.

(** data sets *)
Definition one_block (c : Qc) : dds := [mkb 0 [1%nat] [[c]] [[z 5]]].
Definition far : Qc := 1 + atol + rtol + Q2Qc (1 # 100000000000).
Lemma order_some : exists c, sub (one_block 1) (one_block far) = Some c.
Proof. assert (H : isnone (sub (one_block 1) (one_block far)) = false) by (vm_compute; reflexivity). destruct (sub _ _); [eauto|discriminate]. Qed.
Lemma order_none : sub (one_block far) (one_block 1) = None.
Proof. assert (H : isnone (sub (one_block far) (one_block 1)) = true) by (vm_compute; reflexivity). destruct (sub _ _); [discriminate|reflexivity]. Qed.

(** the unit square with arrays of shape (m, n), with the value 1 *)
Definition square_block (m n : nat) : block :=
  mkb 0 [m; n] [flat_map (fun i => map (fun _ => nat_z i / nat_z (m - 1)) (seq 0 n)) (seq 0 m);
                flat_map (fun _ => map (fun j => nat_z j / nat_z (n - 1)) (seq 0 n)) (seq 0 m)] [repeat 1 (m * n)].
Lemma square_box m n : existsb (Nat.eqb m) [2; 3]%nat = true -> existsb (Nat.eqb n) [2; 3; 4]%nat = true -> box_area (square_block m n) 1.
Proof.
  assert (T : forall l a, fold1 minq l = Some a -> is_min l a) by (intros; apply fold1_min; assumption).
  assert (S : forall l a, fold1 maxq l = Some a -> is_max l a) by (intros; apply fold1_max; assumption).
  assert (Q : forall o a, option_map this o = Some a -> forall b : Qc, this b = a -> o = Some b).
  { intros [x|] a E b Hb; [|discriminate]. cbn in E. injection E as <-. f_equal. apply Qc_is_canon. rewrite Hb. reflexivity. }
  intros Hm Hn. apply existsb_exists in Hm. destruct Hm as (m' & Im & Em). apply Nat.eqb_eq in Em. subst m'.
  apply existsb_exists in Hn. destruct Hn as (n' & In' & En). apply Nat.eqb_eq in En. subst n'.
  unfold box_area. do 2 eexists. exists 0, 1, 0, 1. split; [reflexivity|].
  destruct Im as [<- | [<- | []]]; destruct In' as [<- | [<- | [<- | []]]];
    (split; [apply T; eapply Q; [vm_compute; reflexivity|reflexivity]|]); (split; [apply S; eapply Q; [vm_compute; reflexivity|reflexivity]|]);
    (split; [apply T; eapply Q; [vm_compute; reflexivity|reflexivity]|]); (split; [apply S; eapply Q; [vm_compute; reflexivity|reflexivity]|]); ring.
Qed.
Lemma square_l2 : option_map this (l2_square [square_block 2 4] 0) = Some (2 # 1)%Q.
Proof. vm_compute. reflexivity. Qed.
