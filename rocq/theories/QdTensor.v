(** Proofs about quadratures: custom nodes and tensor products. *)
From Coq Require Import Reals List Arith Lia Lra Psatz.
From Verif Require Import QdModel QdSpec.
Import ListNotations.
Local Open Scope R_scope.

(** ** tensor products *)
Fixpoint prodw (axes : list axis) (I : list nat) : R :=
  match axes, I with ax :: r, i :: t => nth i (snd ax) 0 * prodw r t | _, _ => 1 end.
Fixpoint pt (axes : list axis) (I : list nat) : list R :=
  match axes, I with ax :: r, i :: t => nth i (fst ax) 0 :: pt r t | _, _ => [] end.
Lemma rsum_app a b : rsum (a ++ b) = rsum a + rsum b.
Proof. unfold rsum. induction a as [|x a IH]; cbn; [ring|rewrite IH; ring]. Qed.
Lemma rsum_ext {A} (f g : A -> R) l : (forall x, In x l -> f x = g x) -> rsum (map f l) = rsum (map g l).
Proof. intros H. f_equal. apply map_ext_in. exact H. Qed.
Lemma rsum_flat {A B} (g : B -> R) (h : A -> list B) l : rsum (map g (flat_map h l)) = rsum (map (fun a => rsum (map g (h a))) l).
Proof. induction l as [|a l IH]; [reflexivity|]. cbn [flat_map]. rewrite map_app, rsum_app, IH. reflexivity. Qed.
Lemma rsum_plus {A} (f g : A -> R) l : rsum (map (fun x => f x + g x) l) = rsum (map f l) + rsum (map g l).
Proof. unfold rsum. induction l as [|x l IH]; cbn; [ring|rewrite IH; ring]. Qed.
Lemma rsum_scal {A} c (f : A -> R) l : rsum (map (fun x => c * f x) l) = c * rsum (map f l).
Proof. unfold rsum. induction l as [|x l IH]; cbn; [ring|rewrite IH; ring]. Qed.
Lemma rsum_swap {A B} (f : A -> B -> R) l m : rsum (map (fun a => rsum (map (f a) m)) l) = rsum (map (fun b => rsum (map (fun a => f a b) l)) m).
Proof.
  induction l as [|a l IH].
  - cbn. induction m as [|b m IH]; [reflexivity|]. cbn. unfold rsum in *. rewrite <- IH. cbn. ring.
  - rewrite (rsum_ext (fun b => rsum (map (fun a0 => f a0 b) (a :: l))) (fun b => f a b + rsum (map (fun a0 => f a0 b) l)) m) by reflexivity.
    rewrite rsum_plus, <- IH. reflexivity.
Qed.
Lemma quad1_idx ns ws g : length ns = length ws -> quad1 ns ws g = rsum (map (fun i => nth i ws 0 * g (nth i ns 0)) (seq 0 (length ns))).
Proof.
  unfold quad1. revert ws. induction ns as [|x ns IH]; intros [|w ws] H; try discriminate H; [reflexivity|].
  cbn [combine map length seq]. rewrite <- seq_shift, map_map. change (rsum (?x :: ?y)) with (x + rsum y). cbn [fst snd nth]. f_equal.
  apply IH. injection H as H. exact H.
Qed.
Lemma sum_indices axes : Forall (fun ax : axis => length (fst ax) = length (snd ax)) axes ->
  forall f, rsum (map (fun I => prodw axes I * f (pt axes I)) (indices (shape axes))) = nested axes f.
Proof.
  induction 1 as [|ax r L _ IH]; intros f; [cbn; ring|].
  cbn [shape map indices]. fold (shape r). rewrite rsum_flat. cbn [nested]. rewrite quad1_idx by exact L.
  erewrite rsum_ext; [|intros t _; rewrite map_map; cbn [prodw pt]; reflexivity].
  rewrite rsum_swap. apply rsum_ext. intros i _. rewrite <- IH, <- rsum_scal. apply rsum_ext. intros t _. ring.
Qed.
Lemma tensor_prod axes : forall I acc, tensor acc axes I = acc * prodw axes I.
Proof. induction axes as [|ax r IH]; intros [|i t] acc; cbn; try ring. rewrite IH. ring. Qed.
Lemma temp_prod axes I : axes <> [] -> length I = length axes -> temp_weights axes I = prodw axes I.
Proof. destruct axes as [|ax r]; [intros H; now elim H|]. destruct I as [|i t]; [discriminate|]. intros _ _. cbn. apply tensor_prod. Qed.
Lemma indices_length dims : forall I, In I (indices dims) -> length I = length dims.
Proof.
  induction dims as [|n r IH]; intros I; [intros [<-|[]]; reflexivity|]. cbn [indices]. rewrite in_flat_map. intros (t & Ht & H).
  apply in_map_iff in H. destruct H as (i & <- & _). cbn. f_equal. auto.
Qed.
Lemma mesh_pt axes : forall I, length I = length axes -> map (fun k => meshgrid axes k I) (seq 0 (length axes)) = pt axes I.
Proof.
  induction axes as [|ax r IH]; intros [|i t] H; try discriminate H; [reflexivity|].
  cbn [length seq map pt]. f_equal. rewrite <- seq_shift, map_map. rewrite <- IH by (injection H; auto). reflexivity.
Qed.
Lemma map_nth_seq {A B} (g : A -> B) (l : list A) d : map (fun m => g (nth m l d)) (seq 0 (length l)) = map g l.
Proof. induction l as [|a l IH]; [reflexivity|]. cbn [length seq map nth]. f_equal. rewrite <- seq_shift, map_map. exact IH. Qed.

Lemma ravel_quadrature axes f : axes <> [] -> Forall (fun ax : axis => length (fst ax) = length (snd ax)) axes ->
  weighted (fst (quad_ndim_ravel axes)) (snd (quad_ndim_ravel axes)) f = nested axes f.
Proof.
  intros NE F. destruct axes as [|ax [|bx r]]; [now elim NE| |].
  - cbn [quad_ndim_ravel fst snd nested]. apply Forall_inv in F. rewrite quad1_idx by exact F. unfold weighted. rewrite F. reflexivity.
  - set (axes := ax :: bx :: r) in *. change (quad_ndim_ravel axes) with
      (map (fun k => ravel_F (shape axes) (meshgrid axes k)) (seq 0 (length axes)), ravel_F (shape axes) (temp_weights axes)).
    cbn [fst snd]. rewrite <- (sum_indices axes F f). unfold weighted, ravel_F. rewrite map_length.
    rewrite <- (map_nth_seq (fun I => prodw axes I * f (pt axes I)) (indices (shape axes)) []). apply rsum_ext.
    intros m Hm. apply in_seq in Hm. assert (In (nth m (indices (shape axes)) []) (indices (shape axes))) as Hin by (apply nth_In; lia).
    assert (length (nth m (indices (shape axes)) []) = length axes) as L.
    { rewrite (indices_length _ _ Hin). unfold shape. apply map_length. }
    f_equal.
    + rewrite (nth_indep _ 0 (temp_weights axes [])) by (rewrite map_length; lia). rewrite map_nth. apply temp_prod; [exact NE|exact L].
    + f_equal. rewrite <- (mesh_pt axes _ L). unfold point. rewrite map_map. apply map_ext. intros k.
      rewrite (nth_indep _ 0 (meshgrid axes k [])) by (rewrite map_length; lia). apply (map_nth (meshgrid axes k)).
Qed.
Lemma ravel_weights axes : axes <> [] -> Forall (fun ax : axis => length (fst ax) = length (snd ax)) axes ->
  quad_weights_ravel axes = snd (quad_ndim_ravel axes).
Proof.
  intros NE F. assert (S1 : map (fun ax : axis => length (snd ax)) axes = shape axes).
  { unfold shape. induction F as [|? ? E _ IH]; [reflexivity|]. cbn. rewrite E. f_equal. destruct l; [reflexivity|]. apply IH. discriminate. }
  destruct axes as [|ax [|bx r]]; [now elim NE|reflexivity|]. unfold quad_weights_ravel. rewrite S1. reflexivity.
Qed.

(** the place of an index *)
Fixpoint place (dims I : list nat) : nat :=
  match dims, I with n :: r, i :: t => (i + n * place r t)%nat | _, _ => 0%nat end.
Lemma flat_nth {A} (n : nat) (h : A -> list (list nat)) (l : list A) d e : (forall a, length (h a) = n) ->
  forall q i, (i < n)%nat -> (q < length l)%nat -> nth (i + n * q) (flat_map h l) e = nth i (h (nth q l d)) e.
Proof.
  intros H. induction l as [|a l IH]; intros q i Hi Hq; [cbn in Hq; lia|]. cbn [flat_map]. destruct q as [|q].
  - rewrite Nat.mul_0_r, Nat.add_0_r. rewrite app_nth1 by (rewrite H; exact Hi). reflexivity.
  - rewrite app_nth2 by (rewrite H; nia). rewrite H. replace (i + n * S q - n)%nat with (i + n * q)%nat by nia. cbn [length] in Hq. apply IH; lia.
Qed.
Lemma place_lt dims : forall I, Forall2 lt I dims -> (place dims I < length (indices dims))%nat.
Proof.
  induction dims as [|n r IH]; intros I F; inversion F; subst; [cbn; lia|]. cbn [place indices].
  assert (Lf : length (flat_map (fun t => map (fun i => i :: t) (seq 0 n)) (indices r)) = (n * length (indices r))%nat).
  { clear. induction (indices r) as [|t l IH]; [cbn; lia|]. cbn [flat_map]. rewrite app_length, map_length, seq_length, IH. cbn. lia. }
  rewrite Lf. pose proof (IH _ H3). nia.
Qed.
Lemma indices_place dims : forall I, Forall2 lt I dims -> nth (place dims I) (indices dims) [] = I.
Proof.
  induction dims as [|n r IH]; intros I F; inversion F; subst; [reflexivity|]. cbn [place indices].
  rewrite (flat_nth n (fun t => map (fun i => i :: t) (seq 0 n)) (indices r) []); [|intros; rewrite map_length, seq_length; reflexivity|assumption|apply place_lt; assumption].
  rewrite (IH _ H3). rewrite (nth_indep _ [] (x :: l)) by (rewrite map_length, seq_length; assumption).
  rewrite (nth_indep _ (x :: l) ((fun i => i :: l) 0%nat)) by (rewrite map_length, seq_length; assumption).
  rewrite (map_nth (fun i => i :: l)). rewrite seq_nth by assumption. reflexivity.
Qed.
Lemma place2 (a b : axis) i j : (i < length (fst a))%nat -> (j < length (fst b))%nat ->
  let q := quad_ndim_ravel [a; b] in let m := (i + length (fst a) * j)%nat in
  (m < length (snd q))%nat /\ point (fst q) m = [nth i (fst a) 0; nth j (fst b) 0] /\ nth m (snd q) 0 = nth i (snd a) 0 * nth j (snd b) 0.
Proof.
  intros Hi Hj q m. assert (F : Forall2 lt [i; j] (shape [a; b])) by (repeat constructor; assumption).
  assert (M : m = place (shape [a; b]) [i; j]) by (unfold m; cbn; lia).
  pose proof (place_lt _ _ F) as L. pose proof (indices_place _ _ F) as N. rewrite <- M in *.
  unfold q, quad_ndim_ravel, ravel_F. cbn [fst snd]. rewrite map_length. split; [exact L|]. split.
  - cbn [length seq map point]. unfold point. cbn [map].
    rewrite !(fun g => nth_indep (map g (indices (shape [a; b]))) 0 (g []) ltac:(rewrite map_length; exact L)).
    rewrite !map_nth, N. reflexivity.
  - rewrite (nth_indep _ 0 (temp_weights [a; b] [])) by (rewrite map_length; exact L). rewrite map_nth, N. reflexivity.
Qed.
Lemma place3 (a b c : axis) i j k : (i < length (fst a))%nat -> (j < length (fst b))%nat -> (k < length (fst c))%nat ->
  let q := quad_ndim_ravel [a; b; c] in let m := (i + length (fst a) * (j + length (fst b) * k))%nat in
  (m < length (snd q))%nat /\ point (fst q) m = [nth i (fst a) 0; nth j (fst b) 0; nth k (fst c) 0] /\
  nth m (snd q) 0 = nth i (snd a) 0 * nth j (snd b) 0 * nth k (snd c) 0.
Proof.
  intros Hi Hj Hk q m. assert (F : Forall2 lt [i; j; k] (shape [a; b; c])) by (repeat constructor; assumption).
  assert (M : m = place (shape [a; b; c]) [i; j; k]) by (unfold m; cbn; lia).
  pose proof (place_lt _ _ F) as L. pose proof (indices_place _ _ F) as N. rewrite <- M in *.
  unfold q, quad_ndim_ravel, ravel_F. cbn [fst snd]. rewrite map_length. split; [exact L|]. split.
  - cbn [length seq map point]. unfold point. cbn [map].
    rewrite !(fun g => nth_indep (map g (indices (shape [a; b; c]))) 0 (g []) ltac:(rewrite map_length; exact L)).
    rewrite !map_nth, N. reflexivity.
  - rewrite (nth_indep _ 0 (temp_weights [a; b; c] [])) by (rewrite map_length; exact L). rewrite map_nth, N. reflexivity.
Qed.

(** ** custom nodes *)
Lemma fold_rsum l : forall a, fold_left Rplus l a = a + rsum l.
Proof. unfold rsum. induction l as [|x l IH]; intros a; cbn; [ring|]. rewrite IH. ring. Qed.
Lemma total_rsum l : total l = rsum l.
Proof. unfold total. rewrite fold_rsum. ring. Qed.
Lemma walk_length l : forall a, length (fst (walk a l)) = length l.
Proof. induction l as [|x l IH]; intros a; [reflexivity|]. cbn. f_equal. apply IH. Qed.
Lemma walk_nth l : forall a i, (i <= length l)%nat -> nth i (a :: fst (walk a l)) 0 = a + 2 * rsum (firstn i l).
Proof.
  induction l as [|x l IH]; intros a [|i] H; try (cbn; ring); [cbn in H; lia|].
  change (nth (S i) (a :: fst (walk a (x :: l))) 0) with (nth i (a + 2 * x :: fst (walk (a + 2 * x) l)) 0).
  cbn [length] in H. rewrite (IH (a + 2 * x) i) by lia. unfold rsum. cbn. ring.
Qed.
Lemma walk_end l : forall a, snd (walk a l) = a + 2 * rsum l.
Proof. induction l as [|x l IH]; intros a; cbn; [unfold rsum; cbn; ring|]. rewrite IH. unfold rsum. cbn. ring. Qed.
Lemma removelast_nth {A} (l : list A) d i : (i < length l - 1)%nat -> nth i (removelast l) d = nth i l d.
Proof.
  revert i. induction l as [|x l IH]; intros i H; [cbn in H; lia|]. destruct l as [|y l]; [cbn in H; lia|].
  change (removelast (x :: y :: l)) with (x :: removelast (y :: l)). destruct i as [|i]; [reflexivity|]. cbn [nth]. apply IH. cbn [length] in *. lia.
Qed.
Lemma removelast_len {A} (l : list A) : length (removelast l) = (length l - 1)%nat.
Proof. induction l as [|x [|y l] IH]; [reflexivity|reflexivity|]. change (removelast (x :: y :: l)) with (x :: removelast (y :: l)). cbn [length] in *. lia. Qed.

Lemma cus_spec l n : cus_nodes l = Some n ->
  length n = S (length l) /\ (1 <= length l)%nat /\ (forall i, (i < length l)%nat -> nth i n 0 = after l i) /\ nth (length l) n 0 = 1 /\
  Rabs (rsum l - 1) <= 6 / 10 ^ 10.
Proof.
  unfold cus_nodes. destruct (isclose_dec (total l) 1 tol) as [C1|]; [|discriminate]. destruct (isclose_dec (snd (walk (-1) l)) 1 tol) as [C2|]; [|discriminate].
  intros H. assert (set_last (-1 :: fst (walk (-1) l)) 1 = n) as <- by congruence. clear H. rewrite total_rsum in C1. rewrite walk_end in C2.
  assert (Bd : Rabs (rsum l - 1) <= 6 / 10 ^ 10).
  { unfold isclose, tol in C2. revert C2. unfold Rmax, Rabs. repeat destruct (Rle_dec _ _); repeat destruct (Rcase_abs _); lra. }
  assert (Ne : (1 <= length l)%nat).
  { destruct l; [|cbn; lia]. exfalso. revert Bd. unfold rsum. cbn. unfold Rabs. destruct (Rcase_abs _); lra. }
  set (w := -1 :: fst (walk (-1) l)). assert (Lw : length w = S (length l)) by (unfold w; cbn [length]; rewrite walk_length; reflexivity).
  unfold set_last. split; [rewrite app_length, removelast_len, Lw; cbn; lia|]. split; [exact Ne|]. split; [|split; [|exact Bd]].
  - intros i Hi. rewrite app_nth1 by (rewrite removelast_len, Lw; lia). rewrite removelast_nth by (rewrite Lw; lia). unfold w. apply walk_nth. lia.
  - rewrite app_nth2 by (rewrite removelast_len, Lw; lia). rewrite removelast_len, Lw. replace (length l - (S (length l) - 1))%nat with 0%nat by lia. reflexivity.
Qed.
Lemma cus_defined l : Rabs (rsum l - 1) <= 4 / 10 ^ 10 -> exists n, cus_nodes l = Some n.
Proof.
  intros H. unfold cus_nodes. destruct (isclose_dec (total l) 1 tol) as [C1|C1].
  - destruct (isclose_dec (snd (walk (-1) l)) 1 tol) as [C2|C2]; [eexists; reflexivity|]. exfalso. apply C2. rewrite walk_end. unfold isclose, tol.
    revert H. unfold Rmax, Rabs. repeat destruct (Rle_dec _ _); repeat destruct (Rcase_abs _); lra.
  - exfalso. apply C1. rewrite total_rsum. unfold isclose, tol. revert H. unfold Rmax, Rabs. repeat destruct (Rle_dec _ _); repeat destruct (Rcase_abs _); lra.
Qed.
Lemma rsum_firstn_S l : forall i, (i < length l)%nat -> rsum (firstn (S i) l) = rsum (firstn i l) + nth i l 0.
Proof.
  induction l as [|x l IH]; intros [|i] H; try (cbn in H; lia); [unfold rsum; cbn; ring|]. cbn [length] in H.
  change (firstn (S (S i)) (x :: l)) with (x :: firstn (S i) l). change (firstn (S i) (x :: l)) with (x :: firstn i l).
  change (rsum (x :: ?y)) with (x + rsum y). cbn [nth]. rewrite IH by lia. ring.
Qed.
Lemma cus_exact l : rsum l = 1 -> exists n, cus_nodes l = Some n /\ length n = S (length l) /\ nth 0 n 0 = -1 /\ nth (length l) n 0 = 1 /\
  forall i, (i < length l)%nat -> nth (S i) n 0 - nth i n 0 = 2 * nth i l 0.
Proof.
  intros H. destruct (cus_defined l) as [n Hn]; [rewrite H; replace (1 - 1) with 0 by ring; rewrite Rabs_R0; lra|].
  exists n. destruct (cus_spec l n Hn) as (L & Ne & V & E & _). split; [exact Hn|]. split; [exact L|].
  split; [rewrite V by lia; unfold after, rsum; cbn; ring|]. split; [exact E|]. intros i Hi.
  assert (nth (S i) n 0 = after l (S i)) as ->.
  { destruct (Nat.eq_dec (S i) (length l)) as [Q|Q]; [|apply V; lia]. rewrite Q, E. unfold after. rewrite firstn_all, H. ring. }
  rewrite (V i Hi). unfold after. rewrite rsum_firstn_S by exact Hi. ring.
Qed.
