From Coq Require Import List Arith Bool Reals Lra Lia.
From Verif Require Import MappingModel RegionModel RegionSpec.
Import ListNotations.
Local Open Scope R_scope.

(** * tables *)
Lemma lookup_in d k v : NoDup (map fst d) -> In (k, v) d -> lookup d k = Some v.
Proof.
  induction d as [| [j w] d IH]; intros N H; [destruct H |]. cbn in *. inversion N as [| ? ? N1 N2]; subst.
  destruct H as [[= -> ->] | H].
  - now rewrite Nat.eqb_refl.
  - destruct (Nat.eqb_spec j k) as [-> | _]; [| now apply IH].
    exfalso. apply N1. apply in_map_iff. exists (k, v). auto.
Qed.
Lemma map_add_seq m o n : map (fun i => (i + o)%nat) (seq m n) = seq (m + o) n.
Proof. revert m. induction n; intros m; cbn; [reflexivity |]. now rewrite IHn. Qed.
Lemma grid_seq Nx Ny : flat_map (fun ny => map (fun nx => (nx + ny * Nx)%nat) (seq 0 Nx)) (seq 0 Ny) = seq 0 (Nx * Ny).
Proof.
  induction Ny as [| Ny IH]; [now rewrite Nat.mul_0_r |].
  rewrite seq_S, flat_map_app, IH. cbn [flat_map]. rewrite app_nil_r.
  rewrite (map_add_seq 0 (_ * Nx) Nx). replace (Nx * S Ny)%nat with (Nx * Ny + Nx)%nat by lia.
  rewrite seq_app. f_equal. f_equal. lia.
Qed.
Lemma map_flat_map {A B C} (f : B -> C) (g : A -> list B) l : map f (flat_map g l) = flat_map (fun x => map f (g x)) l.
Proof. induction l; cbn; [reflexivity |]. now rewrite map_app, IHl. Qed.
Lemma flat_map_ext_in {A B} (f g : A -> list B) l : (forall x, In x l -> f x = g x) -> flat_map f l = flat_map g l.
Proof. induction l; intros H; cbn; [reflexivity |]. rewrite H, IHl; [reflexivity | intros; apply H; now right | now left]. Qed.

Lemma keys1 p N : map fst (multi_rmap1 p N) = seq 0 N.
Proof. unfold multi_rmap1. rewrite map_map. cbn. apply map_id. Qed.
Lemma keys2 p Nx Ny : map fst (multi_rmap2 p Nx Ny) = seq 0 (Nx * Ny).
Proof.
  unfold multi_rmap2. rewrite map_flat_map, <- grid_seq. apply flat_map_ext_in. intros. now rewrite map_map.
Qed.
Lemma keys3 p Nx Ny Nz : map fst (multi_rmap3 p Nx Ny Nz) = seq 0 (Nx * Ny * Nz).
Proof.
  unfold multi_rmap3. rewrite map_flat_map, <- grid_seq. apply flat_map_ext_in. intros nz _.
  rewrite map_flat_map, <- (grid_seq Nx Ny), map_flat_map. apply flat_map_ext_in. intros ny _. rewrite !map_map. apply map_ext. intros nx. cbn. lia.
Qed.
Lemma nb1 p N n f : (n < N)%nat -> neighbour (multi_rmap1 p N) n f = nth f [before p N n; after p N n] None.
Proof.
  intros H. unfold neighbour. rewrite (lookup_in _ n [before p N n; after p N n]); [reflexivity | rewrite keys1; apply seq_NoDup |].
  unfold multi_rmap1. apply in_map_iff. exists n. split; [reflexivity | apply in_seq; lia].
Qed.
Lemma nb2 p Nx Ny i j f : (i < Nx)%nat -> (j < Ny)%nat ->
  neighbour (multi_rmap2 p Nx Ny) (nd2 Nx i j) f =
  nth f [option_map (fun i => nd2 Nx i j) (before p Nx i); option_map (fun i => nd2 Nx i j) (after p Nx i);
         option_map (fun j => nd2 Nx i j) (before p Ny j); option_map (fun j => nd2 Nx i j) (after p Ny j)] None.
Proof.
  intros Hi Hj. unfold neighbour. erewrite lookup_in; [reflexivity | rewrite keys2; apply seq_NoDup |].
  unfold multi_rmap2. apply in_flat_map. exists j. split; [apply in_seq; lia |].
  apply in_map_iff. exists i. split; [reflexivity | apply in_seq; lia].
Qed.
Lemma nb3 p Nx Ny Nz i j k f : (i < Nx)%nat -> (j < Ny)%nat -> (k < Nz)%nat ->
  neighbour (multi_rmap3 p Nx Ny Nz) (nd3 Nx Ny i j k) f =
  nth f [option_map (fun i => nd3 Nx Ny i j k) (before p Nx i); option_map (fun i => nd3 Nx Ny i j k) (after p Nx i);
         option_map (fun j => nd3 Nx Ny i j k) (before p Ny j); option_map (fun j => nd3 Nx Ny i j k) (after p Ny j);
         option_map (fun k => nd3 Nx Ny i j k) (before p Nz k); option_map (fun k => nd3 Nx Ny i j k) (after p Nz k)] None.
Proof.
  intros Hi Hj Hk. unfold neighbour. erewrite lookup_in; [reflexivity | rewrite keys3; apply seq_NoDup |].
  unfold multi_rmap3. apply in_flat_map. exists k. split; [apply in_seq; lia |].
  apply in_flat_map. exists j. split; [apply in_seq; lia |].
  apply in_map_iff. exists i. split; [| apply in_seq; lia]. f_equal. unfold nd3. nia.
Qed.

(** the indices of a region *)
Lemma split2 Nx Ny n : (n < Nx * Ny)%nat -> exists i j, (i < Nx)%nat /\ (j < Ny)%nat /\ n = nd2 Nx i j.
Proof.
  intros H. assert (Nx <> 0)%nat by (intros ->; lia). exists (n mod Nx)%nat, (n / Nx)%nat.
  split; [now apply Nat.mod_upper_bound |]. split; [apply Nat.div_lt_upper_bound; lia |].
  unfold nd2. pose proof (Nat.div_mod n Nx). lia.
Qed.
Lemma split3 Nx Ny Nz n : (n < Nx * Ny * Nz)%nat -> exists i j k, (i < Nx)%nat /\ (j < Ny)%nat /\ (k < Nz)%nat /\ n = nd3 Nx Ny i j k.
Proof.
  intros H. destruct (split2 Nx (Ny * Nz) n) as [i [m [Hi [Hm ->]]]]; [lia |].
  destruct (split2 Ny Nz m Hm) as [j [k [Hj [Hk ->]]]]. exists i, j, k. repeat split; auto. unfold nd3, nd2. lia.
Qed.
Lemma nd2_lt Nx Ny i j : (i < Nx)%nat -> (j < Ny)%nat -> (nd2 Nx i j < Nx * Ny)%nat.
Proof. unfold nd2. nia. Qed.
Lemma nd3_lt Nx Ny Nz i j k : (i < Nx)%nat -> (j < Ny)%nat -> (k < Nz)%nat -> (nd3 Nx Ny i j k < Nx * Ny * Nz)%nat.
Proof.
  intros Hi Hj Hk. pose proof (nd2_lt Ny Nz j k Hj Hk). pose proof (nd2_lt Nx (Ny * Nz) i (nd2 Ny j k) Hi H). unfold nd3, nd2 in *. nia.
Qed.
Lemma nth_blocks {A} (g : nat -> list A) Nx Ny i j d : (i < Nx)%nat -> (j < Ny)%nat -> (forall y, length (g y) = Nx) ->
  nth (i + j * Nx) (flat_map g (seq 0 Ny)) d = nth i (g j) d.
Proof.
  intros Hi Hj L. assert (G : forall m, nth (i + (j - m) * Nx) (flat_map g (seq m (Ny - m))) d = nth i (g j) d \/ (j < m)%nat).
  { intros m. destruct (Nat.lt_ge_cases j m) as [? | Hm]; [now right |]. left.
    remember (j - m)%nat as e eqn:E. revert m Hm E. induction e as [| e IH]; intros m Hm E.
    - replace (Ny - m)%nat with (S (Ny - m - 1)) by lia. cbn [seq flat_map]. rewrite app_nth1 by (rewrite L; lia).
      replace m with j by lia. f_equal. lia.
    - replace (Ny - m)%nat with (S (Ny - S m)) by lia. cbn [seq flat_map]. rewrite app_nth2 by (rewrite L; lia). rewrite L.
      replace (i + S e * Nx - Nx)%nat with (i + e * Nx)%nat by lia. apply IH; lia. }
  destruct (G 0%nat) as [E | E]; [| lia]. rewrite !Nat.sub_0_r in E. exact E.
Qed.
Lemma axis2_0_at Nx Ny i j : (i < Nx)%nat -> (j < Ny)%nat -> nth (nd2 Nx i j) (axis2_0 Nx Ny) 0%nat = i.
Proof.
  intros Hi Hj. unfold axis2_0, nd2. rewrite (nth_blocks (fun _ => seq 0 Nx)); auto; [now rewrite seq_nth | intros; apply seq_length].
Qed.
Lemma axis2_1_at Nx Ny i j : (i < Nx)%nat -> (j < Ny)%nat -> nth (nd2 Nx i j) (axis2_1 Nx Ny) 0%nat = j.
Proof.
  intros Hi Hj. unfold axis2_1, nd2. rewrite (nth_blocks (fun j => map (fun _ => j) (seq 0 Nx))); auto.
  - rewrite (nth_indep _ _ ((fun _ => j) 0%nat)) by now rewrite map_length, seq_length. now rewrite (map_nth (fun _ => j)).
  - intros. now rewrite map_length, seq_length.
Qed.
Lemma axis2_0_len Nx Ny : length (axis2_0 Nx Ny) = (Nx * Ny)%nat.
Proof.
  unfold axis2_0. assert (forall m, length (flat_map (fun _ : nat => seq 0 Nx) (seq m Ny)) = (Nx * Ny)%nat); [| auto].
  induction Ny; intros m; cbn; [lia |]. rewrite app_length, seq_length, IHNy. lia.
Qed.
Lemma axis2_1_len Nx Ny : length (axis2_1 Nx Ny) = (Nx * Ny)%nat.
Proof.
  unfold axis2_1. assert (forall m, length (flat_map (fun j : nat => map (fun _ => j) (seq 0 Nx)) (seq m Ny)) = (Nx * Ny)%nat); [| auto].
  induction Ny; intros m; cbn; [lia |]. rewrite app_length, map_length, seq_length, IHNy. lia.
Qed.
Lemma nd3_nd2 Nx Ny i j k : nd3 Nx Ny i j k = (nd2 Nx i j + k * (Nx * Ny))%nat.
Proof. unfold nd3, nd2. nia. Qed.
Lemma axis3_0_at Nx Ny Nz i j k : (i < Nx)%nat -> (j < Ny)%nat -> (k < Nz)%nat -> nth (nd3 Nx Ny i j k) (axis3_0 Nx Ny Nz) 0%nat = i.
Proof.
  intros Hi Hj Hk. unfold axis3_0. rewrite nd3_nd2, (nth_blocks (fun _ => axis2_0 Nx Ny)); [now apply axis2_0_at | now apply nd2_lt | assumption |].
  intros. apply axis2_0_len.
Qed.
Lemma axis3_1_at Nx Ny Nz i j k : (i < Nx)%nat -> (j < Ny)%nat -> (k < Nz)%nat -> nth (nd3 Nx Ny i j k) (axis3_1 Nx Ny Nz) 0%nat = j.
Proof.
  intros Hi Hj Hk. unfold axis3_1. rewrite nd3_nd2, (nth_blocks (fun _ => axis2_1 Nx Ny)); [now apply axis2_1_at | now apply nd2_lt | assumption |].
  intros. apply axis2_1_len.
Qed.
Lemma axis3_2_at Nx Ny Nz i j k : (i < Nx)%nat -> (j < Ny)%nat -> (k < Nz)%nat -> nth (nd3 Nx Ny i j k) (axis3_2 Nx Ny Nz) 0%nat = k.
Proof.
  intros Hi Hj Hk. unfold axis3_2. rewrite nd3_nd2, (nth_blocks (fun k => map (fun _ => k) (axis2_0 Nx Ny))); [| now apply nd2_lt | assumption |].
  - rewrite (nth_indep _ _ ((fun _ => k) 0%nat)) by (rewrite map_length, axis2_0_len; now apply nd2_lt). now rewrite (map_nth (fun _ => k)).
  - intros. now rewrite map_length, axis2_0_len.
Qed.

(** * crazy mappings on faces *)
Lemma sin_tau_0 : sin (tau 0) = 0. Proof. unfold tau. rewrite Rmult_0_r. apply sin_0. Qed.
Lemma sin_tau_1 : sin (tau 1) = 0. Proof. unfold tau. rewrite Rmult_1_r. apply sin_2PI. Qed.
Lemma crazy1_0 a b k : crazy1 a b k 0 = a. Proof. unfold crazy1. rewrite sin_tau_0. ring. Qed.
Lemma crazy1_1 a b k : crazy1 a b k 1 = b. Proof. unfold crazy1. rewrite sin_tau_1. ring. Qed.
Lemma crazy2_face a b c d k f t : crazy2 a b c d k (fst (side2 f t)) (snd (side2 f t)) =
  match f with 0%nat => (a, (d - c) * t + c) | 1%nat => (b, (d - c) * t + c) | 2%nat => ((b - a) * t + a, c) | _ => ((b - a) * t + a, d) end.
Proof.
  unfold crazy2, side2. destruct (Req_EM_T k 0); destruct f as [| [| [| f]]]; cbn [fst snd]; try rewrite sin_tau_0; try rewrite sin_tau_1; f_equal; ring.
Qed.
Lemma crazy3_face a b c d e g k f t u (p := side3 f t u) : crazy3 a b c d e g k (fst (fst p)) (snd (fst p)) (snd p) =
  match f with
  | 0%nat => (a, (d - c) * t + c, (g - e) * u + e) | 1%nat => (b, (d - c) * t + c, (g - e) * u + e)
  | 2%nat => ((b - a) * t + a, c, (g - e) * u + e) | 3%nat => ((b - a) * t + a, d, (g - e) * u + e)
  | 4%nat => ((b - a) * t + a, (d - c) * u + c, e) | _ => ((b - a) * t + a, (d - c) * u + c, g)
  end.
Proof.
  subst p. unfold crazy3, side3.
  destruct (Req_EM_T k 0); destruct f as [| [| [| [| [| f]]]]]; cbn [fst snd]; try rewrite sin_tau_0; try rewrite sin_tau_1; repeat f_equal; ring.
Qed.

(** bounds of neighbouring regions *)
Lemma sub_first lb up N : sub_lo lb up N 0 = lb. Proof. unfold sub_lo. cbn [INR]. ring. Qed.
Lemma sub_last lb up N i : (i + 1 = N)%nat -> sub_up lb up N i = up.
Proof. intros H. unfold sub_up. rewrite H. field. apply not_0_INR. lia. Qed.
Lemma sub_next lb up N i : sub_up lb up N i = sub_lo lb up N (i + 1). Proof. reflexivity. Qed.
Definition per (p : bool) (ws : list R) : nat -> R := fun m => if p then nth m ws 0 else 0.

Lemma before_spec p N i i' : before p N i = Some i' -> (i < N)%nat ->
  (i' < N)%nat /\ after p N i' = Some i /\ ((i = i' + 1)%nat \/ (p = true /\ i = 0%nat /\ (i' + 1 = N)%nat)).
Proof.
  unfold before, after. intros H Hi. destruct (Nat.ltb_spec i 1).
  - destruct p; [| discriminate]. injection H as <-. destruct (Nat.leb_spec N (N - 1 + 1)); [| lia].
    split; [lia |]. split; [f_equal; lia |]. right. lia.
  - injection H as <-. destruct (Nat.leb_spec N (i - 1 + 1)); [lia |]. split; [lia |]. split; [f_equal; lia | lia].
Qed.
Lemma after_spec p N i i' : after p N i = Some i' -> (i < N)%nat ->
  (i' < N)%nat /\ before p N i' = Some i /\ ((i' = i + 1)%nat \/ (p = true /\ i' = 0%nat /\ (i + 1 = N)%nat)).
Proof.
  unfold before, after. intros H Hi. destruct (Nat.leb_spec N (i + 1)).
  - destruct p; [| discriminate]. injection H as <-. cbn. split; [lia |]. split; [f_equal; lia |]. right. lia.
  - injection H as <-. destruct (Nat.ltb_spec (i + 1) 1); [lia |]. split; [lia |]. split; [f_equal; lia | lia].
Qed.
Lemma before_none p N i : before p N i = None -> p = false /\ i = 0%nat.
Proof. unfold before. destruct (Nat.ltb_spec i 1); [| discriminate]. destruct p; [discriminate |]. lia. Qed.
Lemma after_none p N i : (i < N)%nat -> after p N i = None -> p = false /\ (i + 1 = N)%nat.
Proof. unfold after. intros Hi. destruct (Nat.leb_spec N (i + 1)); [| discriminate]. destruct p; [discriminate |]. lia. Qed.
Lemma meet_before p N i i' lb up : before p N i = Some i' -> (i < N)%nat ->
  exists z, (z = 0 \/ z = -1 * (if p then up - lb else 0)) /\ sub_lo lb up N i = sub_up lb up N i' + z.
Proof.
  intros H Hi. destruct (before_spec p N i i' H Hi) as [_ [_ [-> | [-> [-> L]]]]].
  - exists 0. split; [now left |]. rewrite sub_next. ring.
  - exists (-1 * (up - lb)). split; [now right |]. rewrite sub_first, (sub_last lb up N i' L). ring.
Qed.
Lemma meet_after p N i i' lb up : after p N i = Some i' -> (i < N)%nat ->
  exists z, (z = 0 \/ z = 1 * (if p then up - lb else 0)) /\ sub_up lb up N i = sub_lo lb up N i' + z.
Proof.
  intros H Hi. destruct (after_spec p N i i' H Hi) as [_ [_ [-> | [-> [-> L]]]]].
  - exists 0. split; [now left |]. rewrite sub_next. ring.
  - exists (1 * (up - lb)). split; [now right |]. rewrite sub_first, (sub_last lb up N i L). ring.
Qed.

(** * crazy_multi, one axis *)
Lemma multi1_glued p a b k N : glued1 N (neighbour (multi_rmap1 p N)) (multi1 a b k N) (per p [b - a]).
Proof.
  intros r f r' Hr Hf H. rewrite nb1 in H by exact Hr. destruct f as [| [| f]]; cbn [nth] in H; [| | lia].
  - destruct (before_spec _ _ _ _ H Hr) as [Hr' [A _]]. split; [exact Hr' |].
    split; [rewrite nb1 by exact Hr'; exact A |].
    destruct (meet_before p N r r' a b H Hr) as [z [Hz E]]. exists z. split; [unfold shift_of, per; cbn; destruct p; exact Hz |].
    unfold multi1, axis1_0. rewrite !seq_nth by assumption. cbn [side1 opposite Nat.even Nat.add]. now rewrite crazy1_0, crazy1_1.
  - destruct (after_spec _ _ _ _ H Hr) as [Hr' [A _]]. split; [exact Hr' |].
    split; [rewrite nb1 by exact Hr'; exact A |].
    destruct (meet_after p N r r' a b H Hr) as [z [Hz E]]. exists z. split; [unfold shift_of, per; cbn; destruct p; exact Hz |].
    unfold multi1, axis1_0. rewrite !seq_nth by assumption. cbn [side1 opposite Nat.even Nat.pred Nat.add]. now rewrite crazy1_0, crazy1_1.
Qed.
Lemma multi1_walls p a b k N : walls1 N (neighbour (multi_rmap1 p N)) (multi1 a b k N) (fun x => p = false /\ (x = a \/ x = b)).
Proof.
  intros r f Hr Hf H. rewrite nb1 in H by exact Hr. unfold multi1, axis1_0. rewrite !seq_nth by assumption. cbn [Nat.add].
  destruct f as [| [| f]]; cbn [nth side1] in *; [| | lia].
  - destruct (before_none _ _ _ H) as [-> ->]. split; [reflexivity |]. left. now rewrite crazy1_0, sub_first.
  - destruct (after_none _ _ _ Hr H) as [-> L]. split; [reflexivity |]. right. now rewrite crazy1_1, sub_last.
Qed.

(** * two axes *)
Lemma multi2_at a b c d k Nx Ny i j r s : (i < Nx)%nat -> (j < Ny)%nat -> multi2 a b c d k Nx Ny (nd2 Nx i j) r s =
  crazy2 (sub_lo a b Nx i) (sub_up a b Nx i) (sub_lo c d Ny j) (sub_up c d Ny j) k r s.
Proof. intros Hi Hj. unfold multi2. now rewrite axis2_0_at, axis2_1_at. Qed.
Ltac glue_step Hspec Hmeet H Hi i' A z Hz E :=
  destruct (Hspec _ _ _ _ H Hi) as [? [A _]]; destruct (Hmeet _ _ _ _ _ _ H Hi) as [z [Hz E]].
Lemma multi2_glued p a b c d k Nx Ny :
  glued2 (Nx * Ny) (neighbour (multi_rmap2 p Nx Ny)) (multi2 a b c d k Nx Ny) (per p [b - a; d - c]).
Proof.
  intros r f r' Hr Hf H. destruct (split2 Nx Ny r Hr) as [i [j [Hi [Hj ->]]]]. rewrite nb2 in H by assumption.
  destruct f as [| [| [| [| f]]]]; cbn [nth] in H; [| | | | lia].
  - destruct (before p Nx i) as [i' |] eqn:B; [| discriminate]. injection H as <-.
    destruct (before_spec _ _ _ _ B Hi) as [Hi' [A _]]. split; [now apply nd2_lt |].
    split; [rewrite nb2 by assumption; cbn [opposite Nat.even nth]; now rewrite A |].
    destruct (meet_before p Nx i i' a b B Hi) as [z [Hz E]]. exists z. split; [unfold shift_of, per; cbn; destruct p; exact Hz |].
    intros t. unfold at2. rewrite !multi2_at by assumption. rewrite !crazy2_face. cbn. now rewrite E.
  - destruct (after p Nx i) as [i' |] eqn:B; [| discriminate]. injection H as <-.
    destruct (after_spec _ _ _ _ B Hi) as [Hi' [A _]]. split; [now apply nd2_lt |].
    split; [rewrite nb2 by assumption; cbn [opposite Nat.even Nat.pred nth]; now rewrite A |].
    destruct (meet_after p Nx i i' a b B Hi) as [z [Hz E]]. exists z. split; [unfold shift_of, per; cbn; destruct p; exact Hz |].
    intros t. unfold at2. rewrite !multi2_at by assumption. rewrite !crazy2_face. cbn. now rewrite E.
  - destruct (before p Ny j) as [i' |] eqn:B; [| discriminate]. injection H as <-.
    destruct (before_spec _ _ _ _ B Hj) as [Hi' [A _]]. split; [now apply nd2_lt |].
    split; [rewrite nb2 by assumption; cbn [opposite Nat.even nth]; now rewrite A |].
    destruct (meet_before p Ny j i' c d B Hj) as [z [Hz E]]. exists z. split; [unfold shift_of, per; cbn; destruct p; exact Hz |].
    intros t. unfold at2. rewrite !multi2_at by assumption. rewrite !crazy2_face. cbn. now rewrite E.
  - destruct (after p Ny j) as [i' |] eqn:B; [| discriminate]. injection H as <-.
    destruct (after_spec _ _ _ _ B Hj) as [Hi' [A _]]. split; [now apply nd2_lt |].
    split; [rewrite nb2 by assumption; cbn [opposite Nat.even Nat.pred nth]; now rewrite A |].
    destruct (meet_after p Ny j i' c d B Hj) as [z [Hz E]]. exists z. split; [unfold shift_of, per; cbn; destruct p; exact Hz |].
    intros t. unfold at2. rewrite !multi2_at by assumption. rewrite !crazy2_face. cbn. now rewrite E.
Qed.
Lemma multi2_walls p a b c d k Nx Ny :
  walls2 (Nx * Ny) (neighbour (multi_rmap2 p Nx Ny)) (multi2 a b c d k Nx Ny) (fun _ f q => p = false /\ box2 a b c d f q).
Proof.
  intros r f Hr Hf H t. destruct (split2 Nx Ny r Hr) as [i [j [Hi [Hj ->]]]]. rewrite nb2 in H by assumption.
  unfold at2. rewrite !multi2_at by assumption. rewrite !crazy2_face.
  destruct f as [| [| [| [| f]]]]; cbn [nth] in H; [| | | | lia]; cbn [box2 fst snd].
  - destruct (before p Nx i) eqn:B; [discriminate |]. destruct (before_none _ _ _ B) as [-> ->]. split; [reflexivity | apply sub_first].
  - destruct (after p Nx i) eqn:B; [discriminate |]. destruct (after_none _ _ _ Hi B) as [-> L]. split; [reflexivity | now apply sub_last].
  - destruct (before p Ny j) eqn:B; [discriminate |]. destruct (before_none _ _ _ B) as [-> ->]. split; [reflexivity | apply sub_first].
  - destruct (after p Ny j) eqn:B; [discriminate |]. destruct (after_none _ _ _ Hj B) as [-> L]. split; [reflexivity | now apply sub_last].
Qed.

(** * three axes *)
Lemma multi3_at a b c d e g k Nx Ny Nz i j l r s t : (i < Nx)%nat -> (j < Ny)%nat -> (l < Nz)%nat ->
  multi3 a b c d e g k Nx Ny Nz (nd3 Nx Ny i j l) r s t =
  crazy3 (sub_lo a b Nx i) (sub_up a b Nx i) (sub_lo c d Ny j) (sub_up c d Ny j) (sub_lo e g Nz l) (sub_up e g Nz l) k r s t.
Proof. intros Hi Hj Hl. unfold multi3. now rewrite axis3_0_at, axis3_1_at, axis3_2_at. Qed.
Ltac glue3 spec meet B p N i i' lo up Hi :=
  destruct (spec p N i i' B Hi) as [Hi' [A _]]; split; [now apply nd3_lt |];
  split; [rewrite nb3 by assumption; cbn [opposite Nat.even Nat.pred nth]; now rewrite A |];
  destruct (meet p N i i' lo up B Hi) as [z [Hz E]]; exists z; split; [unfold shift_of, per; cbn; destruct p; exact Hz |];
  intros t u; unfold at3; rewrite !multi3_at by assumption; rewrite !crazy3_face; cbn; now rewrite E.
Lemma multi3_glued p a b c d e g k Nx Ny Nz :
  glued3 (Nx * Ny * Nz) (neighbour (multi_rmap3 p Nx Ny Nz)) (multi3 a b c d e g k Nx Ny Nz) (per p [b - a; d - c; g - e]).
Proof.
  intros r f r' Hr Hf H. destruct (split3 Nx Ny Nz r Hr) as [i [j [l [Hi [Hj [Hl ->]]]]]]. rewrite nb3 in H by assumption.
  destruct f as [| [| [| [| [| [| f]]]]]]; cbn [nth] in H; [| | | | | | lia].
  - destruct (before p Nx i) as [i' |] eqn:B; [| discriminate]. injection H as <-. glue3 before_spec meet_before B p Nx i i' a b Hi.
  - destruct (after p Nx i) as [i' |] eqn:B; [| discriminate]. injection H as <-. glue3 after_spec meet_after B p Nx i i' a b Hi.
  - destruct (before p Ny j) as [i' |] eqn:B; [| discriminate]. injection H as <-. glue3 before_spec meet_before B p Ny j i' c d Hj.
  - destruct (after p Ny j) as [i' |] eqn:B; [| discriminate]. injection H as <-. glue3 after_spec meet_after B p Ny j i' c d Hj.
  - destruct (before p Nz l) as [i' |] eqn:B; [| discriminate]. injection H as <-. glue3 before_spec meet_before B p Nz l i' e g Hl.
  - destruct (after p Nz l) as [i' |] eqn:B; [| discriminate]. injection H as <-. glue3 after_spec meet_after B p Nz l i' e g Hl.
Qed.
Lemma multi3_walls p a b c d e g k Nx Ny Nz :
  walls3 (Nx * Ny * Nz) (neighbour (multi_rmap3 p Nx Ny Nz)) (multi3 a b c d e g k Nx Ny Nz) (fun _ f q => p = false /\ box3 a b c d e g f q).
Proof.
  intros r f Hr Hf H t u. destruct (split3 Nx Ny Nz r Hr) as [i [j [l [Hi [Hj [Hl ->]]]]]]. rewrite nb3 in H by assumption.
  unfold at3. rewrite !multi3_at by assumption. rewrite !crazy3_face.
  destruct f as [| [| [| [| [| [| f]]]]]]; cbn [nth] in H; [| | | | | | lia]; cbn [box3 fst snd].
  - destruct (before p Nx i) eqn:B; [discriminate |]. destruct (before_none _ _ _ B) as [-> ->]. split; [reflexivity | apply sub_first].
  - destruct (after p Nx i) eqn:B; [discriminate |]. destruct (after_none _ _ _ Hi B) as [-> L]. split; [reflexivity | now apply sub_last].
  - destruct (before p Ny j) eqn:B; [discriminate |]. destruct (before_none _ _ _ B) as [-> ->]. split; [reflexivity | apply sub_first].
  - destruct (after p Ny j) eqn:B; [discriminate |]. destruct (after_none _ _ _ Hj B) as [-> L]. split; [reflexivity | now apply sub_last].
  - destruct (before p Nz l) eqn:B; [discriminate |]. destruct (before_none _ _ _ B) as [-> ->]. split; [reflexivity | apply sub_first].
  - destruct (after p Nz l) eqn:B; [discriminate |]. destruct (after_none _ _ _ Hl B) as [-> L]. split; [reflexivity | now apply sub_last].
Qed.

(** * one region: crazy *)
Lemma crazy2_glued p a b c d k : glued2 1 (neighbour (crazy_rmap 2 p)) (fun _ => crazy2 a b c d k) (per p [b - a; d - c]).
Proof.
  intros r f r' Hr Hf H. replace r with 0%nat in * by lia.
  assert (E : p = true /\ r' = 0%nat).
  { destruct f as [| [| [| [| f]]]]; [| | | | lia]; destruct p; cbn in H; try discriminate; now injection H as <-. }
  destruct E as [-> ->]. split; [lia |]. split; [destruct f as [| [| [| [| f]]]]; [| | | | lia]; reflexivity |].
  exists ((if Nat.even f then -1 else 1) * per true [b - a; d - c] (f / 2)). split; [now right |].
  intros t. unfold at2. rewrite !crazy2_face. destruct f as [| [| [| [| f]]]]; [| | | | lia]; cbn; f_equal; ring.
Qed.
Lemma crazy3_glued p a b c d e g k : glued3 1 (neighbour (crazy_rmap 3 p)) (fun _ => crazy3 a b c d e g k) (per p [b - a; d - c; g - e]).
Proof.
  intros r f r' Hr Hf H. replace r with 0%nat in * by lia.
  assert (E : p = true /\ r' = 0%nat).
  { destruct f as [| [| [| [| [| [| f]]]]]]; [| | | | | | lia]; destruct p; cbn in H; try discriminate; now injection H as <-. }
  destruct E as [-> ->]. split; [lia |]. split; [destruct f as [| [| [| [| [| [| f]]]]]]; [| | | | | | lia]; reflexivity |].
  exists ((if Nat.even f then -1 else 1) * per true [b - a; d - c; g - e] (f / 2)). split; [now right |].
  intros t u. unfold at3. rewrite !crazy3_face. destruct f as [| [| [| [| [| [| f]]]]]]; [| | | | | | lia]; cbn; repeat f_equal; ring.
Qed.
Lemma crazy2_walls p a b c d k : walls2 1 (neighbour (crazy_rmap 2 p)) (fun _ => crazy2 a b c d k) (fun _ f q => p = false /\ box2 a b c d f q).
Proof.
  intros r f Hr Hf H t. replace r with 0%nat in * by lia. unfold at2. rewrite crazy2_face.
  destruct f as [| [| [| [| f]]]]; [| | | | lia]; destruct p; cbn in *; try discriminate; auto.
Qed.
Lemma crazy3_walls p a b c d e g k : walls3 1 (neighbour (crazy_rmap 3 p)) (fun _ => crazy3 a b c d e g k) (fun _ f q => p = false /\ box3 a b c d e g f q).
Proof.
  intros r f Hr Hf H t u. replace r with 0%nat in * by lia. unfold at3. rewrite crazy3_face.
  destruct f as [| [| [| [| [| [| f]]]]]]; [| | | | | | lia]; destruct p; cbn in *; try discriminate; auto.
Qed.

(** * backward step *)
Ltac regions3 r := destruct r as [| [| [| ?]]]; [| | | lia].
Ltac faces4 f := destruct f as [| [| [| [| ?]]]]; [| | | | lia].
Lemma step2_glued x0 y0 x1 x2 y1 y2 : glued2 3 (neighbour step_rmap2) (step2 x0 y0 x1 x2 y1 y2) (fun _ => 0).
Proof.
  intros r f r' Hr Hf H. regions3 r; faces4 f; cbn in H; try discriminate; injection H as <-;
    (split; [lia |]; split; [reflexivity |]; exists 0; split; [now left |]; intros t; unfold at2, step2, linear2, moved2; cbn; f_equal; ring).
Qed.
Definition step_walls (x0 y0 x1 x2 y1 y2 : R) (r f : nat) (q : R * R) : Prop :=
  match r, f with
  | 0%nat, 0%nat => fst q = x0 + x1                    (* the step *)
  | 2%nat, 2%nat => snd q = y0 + y1
  | 2%nat, 0%nat => fst q = x0                         (* inlet *)
  | 0%nat, 1%nat => fst q = x0 + x1 + x2 | 1%nat, 1%nat => fst q = x0 + x1 + x2   (* outlet *)
  | 0%nat, 2%nat => snd q = y0
  | 1%nat, 3%nat => snd q = y0 + y1 + y2 | 2%nat, 3%nat => snd q = y0 + y1 + y2
  | _, _ => False
  end.
Lemma step2_walls x0 y0 x1 x2 y1 y2 : walls2 3 (neighbour step_rmap2) (step2 x0 y0 x1 x2 y1 y2) (step_walls x0 y0 x1 x2 y1 y2).
Proof.
  intros r f Hr Hf H t. regions3 r; faces4 f; cbn in H; try discriminate; unfold at2, step2, linear2; cbn; ring.
Qed.
Lemma step3_glued p x0 y0 x1 x2 y1 y2 z : glued3 3 (neighbour (step_rmap3 p)) (step3 x0 y0 x1 x2 y1 y2 z) (per p [0; 0; z]).
Proof.
  intros r f r' Hr Hf H. regions3 r; destruct f as [| [| [| [| [| [| f]]]]]]; try lia; destruct p; cbn in H; try discriminate; injection H as <-;
    (split; [lia |]; split; [reflexivity |];
     first [ exists 0; split; [now left |]; intros t u; unfold at3, step3, linear3, moved3; cbn; (apply f_equal2; [apply f_equal2 |]); ring
           | eexists; split; [right; reflexivity |]; intros t u; unfold at3, step3, linear3, moved3, per; cbn; (apply f_equal2; [apply f_equal2 |]); ring ]).
Qed.
(** the regions cover the step-shaped domain and do not overlap *)
Lemma linear2_range x0 x1 y0 y1 X Y : x0 < x1 -> y0 < y1 ->
  (exists r s, 0 < r < 1 /\ 0 < s < 1 /\ linear2 x0 x1 y0 y1 r s = (X, Y)) <-> x0 < X < x1 /\ y0 < Y < y1.
Proof.
  intros Hx Hy. unfold linear2. split.
  - intros [r [s [Hr [Hs [= <- <-]]]]]. split; nra.
  - intros [HX HY]. exists ((X - x0) / (x1 - x0)), ((Y - y0) / (y1 - y0)).
    assert (P : forall u v w, u < w < v -> 0 < (w - u) / (v - u) < 1).
    { intros u v w H. split.
      - apply Rdiv_lt_0_compat; lra.
      - apply Rmult_lt_reg_r with (v - u); [lra |]. unfold Rdiv. rewrite Rmult_assoc, Rinv_l by lra. lra. }
    split; [apply P; lra |]. split; [apply P; lra |]. f_equal; field; lra.
Qed.
Lemma step2_cover x0 y0 x1 x2 y1 y2 X Y : 0 < x1 -> 0 < x2 -> 0 < y1 -> 0 < y2 ->
  X <> x0 + x1 -> Y <> y0 + y1 ->
  ((exists n r s, (n < 3)%nat /\ 0 < r < 1 /\ 0 < s < 1 /\ step2 x0 y0 x1 x2 y1 y2 n r s = (X, Y)) <->
   (x0 < X < x0 + x1 + x2 /\ y0 < Y < y0 + y1 + y2 /\ ~ (X < x0 + x1 /\ Y < y0 + y1))).
Proof.
  intros P1 P2 P3 P4 NX NY. split.
  - intros [n [r [s [Hn [Hr [Hs E]]]]]]. regions3 n; cbn [step2] in E.
    + destruct (proj1 (linear2_range (x0 + x1) (x0 + x1 + x2) (y0 + 0) (y0 + y1) X Y ltac:(lra) ltac:(lra)) (ex_intro _ r (ex_intro _ s (conj Hr (conj Hs E))))). lra.
    + destruct (proj1 (linear2_range (x0 + x1) (x0 + x1 + x2) (y0 + y1) (y0 + y1 + y2) X Y ltac:(lra) ltac:(lra)) (ex_intro _ r (ex_intro _ s (conj Hr (conj Hs E))))). lra.
    + destruct (proj1 (linear2_range (x0 + 0) (x0 + x1) (y0 + y1) (y0 + y1 + y2) X Y ltac:(lra) ltac:(lra)) (ex_intro _ r (ex_intro _ s (conj Hr (conj Hs E))))). lra.
  - intros [HX [HY N]]. destruct (Rlt_le_dec X (x0 + x1)) as [L | L].
    + assert (y0 + y1 < Y) by (destruct (Rlt_le_dec Y (y0 + y1)); [tauto | lra]).
      destruct (proj2 (linear2_range (x0 + 0) (x0 + x1) (y0 + y1) (y0 + y1 + y2) X Y ltac:(lra) ltac:(lra)) ltac:(lra)) as [r [s [Hr [Hs E]]]].
      exists 2%nat, r, s. repeat split; try lra; try lia. exact E.
    + destruct (Rlt_le_dec Y (y0 + y1)) as [L2 | L2].
      * destruct (proj2 (linear2_range (x0 + x1) (x0 + x1 + x2) (y0 + 0) (y0 + y1) X Y ltac:(lra) ltac:(lra)) ltac:(lra)) as [r [s [Hr [Hs E]]]].
        exists 0%nat, r, s. repeat split; try lra; try lia. exact E.
      * destruct (proj2 (linear2_range (x0 + x1) (x0 + x1 + x2) (y0 + y1) (y0 + y1 + y2) X Y ltac:(lra) ltac:(lra)) ltac:(lra)) as [r [s [Hr [Hs E]]]].
        exists 1%nat, r, s. repeat split; try lra; try lia. exact E.
Qed.
Lemma step2_apart x0 y0 x1 x2 y1 y2 n m r s u v : 0 < x1 -> 0 < x2 -> 0 < y1 -> 0 < y2 ->
  (n < 3)%nat -> (m < 3)%nat -> 0 < r < 1 -> 0 < s < 1 -> 0 < u < 1 -> 0 < v < 1 ->
  step2 x0 y0 x1 x2 y1 y2 n r s = step2 x0 y0 x1 x2 y1 y2 m u v -> n = m /\ r = u /\ s = v.
Proof.
  intros P1 P2 P3 P4 Hn Hm Hr Hs Hu Hv E.
  assert (C : forall d, d <> 0 -> forall p q w, p * d + w = q * d + w -> p = q) by (intros d Hd p q w K; apply Rmult_eq_reg_r with d; lra).
  regions3 n; regions3 m; unfold step2, linear2 in E; injection E as EX EY; try (exfalso; nra);
    (split; [reflexivity |]; split; [eapply C; [| exact EX]; lra | eapply C; [| exact EY]; lra]).
Qed.
