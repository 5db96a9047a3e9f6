(** Proofs about assembling vectors *)
From Coq Require Import List Arith ZArith QArith Qcanon Bool Lia.
From Verif Require Import Dict GmModel GmSpec GmProofs GmChain QSums LmModel LmSpec LmProofs.
Import ListNotations.
Local Open Scope nat_scope.

Lemma setnth_ok {A} (v : A) l : forall i, i < length l -> exists l', setnth i v l = Some l' /\ length l' = length l /\
  forall d r, nth r l' d = if r =? i then v else nth r l d.
Proof.
  induction l as [|a l IH]; intros i Hi; simpl in Hi; [lia|]. destruct i as [|i]; cbn [setnth].
  - eexists. split; [reflexivity|]. split; auto. intros d [|r]; auto.
  - destruct (IH i) as (l' & E & Hl & H); [lia|]. rewrite E. cbn [option_map]. eexists. split; [reflexivity|].
    split; [simpl; lia|]. intros d [|r]; auto. simpl. apply H.
Qed.
(** the value written for [r]: the last one *)
Fixpoint written {A} (ix : list nat) (vs : list A) (r : nat) (old : A) : A :=
  match ix, vs with i :: ix', v :: vs' => written ix' vs' r (if r =? i then v else old) | _, _ => old end.
Lemma set_all_ok {A} (ix : list nat) : forall (vs l : list A), length vs = length ix -> (forall i, In i ix -> i < length l) ->
  exists l', set_all ix vs l = Some l' /\ length l' = length l /\ forall d r, nth r l' d = written ix vs r (nth r l d).
Proof.
  induction ix as [|i ix IH]; intros [|v vs] l Hl Hi; try discriminate; cbn [set_all].
  - eexists. split; [reflexivity|]. auto.
  - destruct (setnth_ok v l i) as (l1 & E & H1 & H2); [apply Hi; now left|]. rewrite E.
    destruct (IH vs l1) as (l2 & E2 & H3 & H4); [simpl in Hl; lia|intros; rewrite H1; apply Hi; now right|]. exists l2. rewrite E2.
    split; auto. split; [lia|]. intros d r. rewrite H4, H2. reflexivity.
Qed.
Lemma written_out {A} (ix : list nat) : forall (vs : list A) r old, ~ In r ix -> written ix vs r old = old.
Proof.
  induction ix as [|i ix IH]; intros [|v vs] r old H; simpl; auto. simpl in H. rewrite IH by tauto. destruct (Nat.eqb_spec r i); auto. subst. tauto.
Qed.
Lemma written_add ix : forall d r v, NoDup ix -> length d = length ix ->
  written ix (map (fun ab => (fst ab + snd ab)%Qc) (combine (map (fun i => nth i v 0%Qc) ix) d)) r (nth r v 0%Qc) =
  (nth r v 0 + sumq (length ix) (fun a => if nth a ix 0%nat =? r then nth a d 0 else 0))%Qc.
Proof.
  induction ix as [|i ix IH]; intros [|x d] r v Hn Hl; try discriminate.
  - rewrite sumq_0. simpl. ring.
  - inversion Hn; subst. cbn [map combine written fst snd length]. rewrite sumq_shift. cbn [nth]. rewrite (Nat.eqb_sym i r).
    destruct (Nat.eqb_spec r i) as [->|Hr].
    + rewrite written_out by auto. rewrite sumq_zero; [ring|]. intros a Ha. destruct (Nat.eqb_spec (nth a ix 0) i) as [E|]; auto.
      exfalso. apply H1. rewrite <- E. now apply nth_In.
    + rewrite IH; auto. ring.
Qed.
Lemma add_at_ok v ix d : NoDup ix -> length d = length ix -> (forall i, In i ix -> i < length v) ->
  exists v', add_at v ix d = Some v' /\ length v' = length v /\
    forall r, nth r v' 0%Qc = (nth r v 0 + sumq (length ix) (fun a => if nth a ix 0%nat =? r then nth a d 0 else 0))%Qc.
Proof.
  intros Hn Hl Hi. unfold add_at. rewrite (obind_map_some _ (fun i => nth i v 0%Qc)).
  2:{ intros i H. apply nth_nth_error. auto. }
  rewrite (proj2 (Nat.eqb_eq _ _) Hl).
  destruct (set_all_ok ix (map (fun ab => (fst ab + snd ab)%Qc) (combine (map (fun i => nth i v 0%Qc) ix) d)) v) as (v' & E & H1 & H2); auto.
  { rewrite map_length, combine_length, map_length. lia. }
  exists v'. split; auto. split; auto. intros r. rewrite H2. now apply written_add.
Qed.
(** one element *)
Definition vdense (g : list nat) (b : nat -> Qc) (r : nat) : Qc := sumq (length g) (fun a => if nth a g 0 =? r then b a else 0%Qc).
Definition vrank_ok (n : nat) (ng : nat -> list nat) (bf : nat -> nat -> Qc) (x : rgm * lvec) : Prop :=
  forall e, In e (keys (fst x)) -> nget (fst x) e = Some (ng e) /\ NoDup (ng e) /\ (forall i, In i (ng e) -> i < n) /\
    exists d, nget (snd x) e = Some d /\ (forall a, nth a d 0%Qc = bf e a) /\ length d = length (ng e).
Lemma rank_vector_ok n ng bf g b : vrank_ok n ng bf (g, b) ->
  exists v, rank_vector n g b = Some v /\ length v = n /\ forall r, nth r v 0%Qc = qsum (map (fun e => vdense (ng e) (bf e) r) (keys g)).
Proof.
  intros H. unfold vrank_ok in H. cbn [fst snd] in H. unfold rank_vector.
  assert (G : forall l v, (forall e, In e l -> In e (keys g)) -> length v = n ->
     exists v', fold_left (fun acc e => match acc, nget g e, nget b e with Some v, Some ix, Some d => add_at v ix d | _, _, _ => None end) l (Some v) = Some v' /\
       length v' = n /\ forall r, nth r v' 0%Qc = (nth r v 0 + qsum (map (fun e => vdense (ng e) (bf e) r) l))%Qc).
  { induction l as [|e l IH]; intros v Hl Hv; cbn [fold_left].
    - exists v. split; auto. split; auto. intros r. simpl. ring.
    - destruct (H e) as (E1 & Hn & Hi & d & E2 & Hd & Hld); [apply Hl; now left|]. rewrite E1, E2.
      destruct (add_at_ok v (ng e) d) as (v1 & E3 & H1 & H2); auto; [intros; rewrite Hv; auto|]. rewrite E3.
      destruct (IH v1) as (v2 & E4 & H3 & H4); [intros; apply Hl; now right|lia|]. exists v2. split; auto. split; auto.
      intros r. rewrite H4, H2. cbn [map qsum fold_right]. fold (qsum (map (fun e0 => vdense (ng e0) (bf e0) r) l)).
      unfold vdense at 2. rewrite (sumq_ext _ (fun a => if nth a (ng e) 0 =? r then nth a d 0%Qc else 0%Qc) (fun a => if nth a (ng e) 0 =? r then bf e a else 0%Qc)); [ring|].
      intros a _. now rewrite Hd. }
  destruct (G (keys g) (repeat 0%Qc n)) as (v & E & H1 & H2); auto; [apply repeat_length|]. exists v. split; auto. split; auto.
  intros r. rewrite H2, nth_repeat. ring.
Qed.
Lemma vranks_ok n ng bf g : forall bs, length g = length bs -> Forall (vrank_ok n ng bf) (combine g bs) ->
  exists V, obind (combine g bs) (fun gb => rank_vector n (fst gb) (snd gb)) = Some V /\ length V = length g /\ Forall (fun v => length v = n) V /\
    forall r, vec_at V r = qsum (map (fun e => vdense (ng e) (bf e) r) (concat (map keys g))).
Proof.
  induction g as [|x g IH]; intros [|b bs] Hl H; try discriminate.
  - exists []. repeat split; auto.
  - cbn [combine] in H. inversion H as [|? ? Hx H']; subst. destruct (rank_vector_ok _ _ _ _ _ Hx) as (v & E & Hv & HV).
    destruct (IH bs) as (V & EV & HlV & HlV' & HVV); auto. exists (v :: V). cbn [combine obind fst snd]. rewrite E, EV.
    repeat split; auto; [simpl; lia|]. intros r. unfold vec_at in *. cbn [map qsum fold_right concat].
    fold (qsum (map (fun v0 => nth r v0 0%Qc) V)). rewrite HV, HVV, map_app, qsum_app. reflexivity.
Qed.
Lemma num_dofs_bound (g : dgm) d : used g d -> d < num_dofs g.
Proof.
  intros (e & row & (r & Hr & Hrow) & Hd). unfold num_dofs.
  assert (In d (concat (map snd (concat g)))).
  { apply in_concat. exists row. split; auto. apply in_map_iff. exists (e, row). split; auto. apply in_concat. eauto. }
  pose proof (proj1 (list_max_le (map S (concat (map snd (concat g)))) _) (le_n _)) as HF. rewrite Forall_forall in HF.
  specialize (HF (S d)). apply HF. now apply in_map.
Qed.
Lemma numbers_used (g : dgm) e d : wf_numbering g -> In e (elements g) -> In d (numbers g e) -> used g d.
Proof.
  intros Hw He Hd. rewrite elements_keys in He. apply row_at_key in He as [row Hrow]. exists e, row. split; auto.
  destruct Hrow as (x & Hx & Hrow). rewrite (numbers_in g e row) in Hd; auto. apply in_concat; eauto.
Qed.
(** no dof twice in one element *)
Definition rows_nodup (g : dgm) : Prop := forall e row, row_at g e row -> NoDup row.
Lemma vfits_ranks g bs : vfits g bs -> rows_nodup g -> length g = length bs /\ Forall (vrank_ok (num_dofs g) (numbers g) (vec_of bs)) (combine g bs).
Proof.
  intros (Hw & Hk & Hs) Hn.
  assert (L : length g = length bs) by (now rewrite <- (map_length keys g), <- Hk, map_length). split; auto.
  apply Forall_forall. intros [x b] Hin e Hx. cbn [fst snd] in *. apply In_nth_error in Hin as [k Hnk].
  assert (Hn1 : nth_error g k = Some x /\ nth_error bs k = Some b).
  { clear - Hnk. revert g bs Hnk. induction k as [|k IH]; intros [|a g] [|c bs] H; simpl in *; try discriminate; [injection H as -> ->; auto|eauto]. }
  destruct Hn1 as (N1 & N2). pose proof (nth_error_In _ _ N1) as I1. pose proof (nth_error_In _ _ N2) as I2.
  assert (Hb : In e (keys b)).
  { assert (E : nth_error (map keys bs) k = nth_error (map keys g) k) by now rewrite Hk.
    rewrite (map_nth_error keys k bs N2), (map_nth_error keys k g N1) in E. injection E as ->. auto. }
  assert (He : In e (elements g)) by (rewrite elements_keys; apply in_concat; exists (keys x); split; auto; now apply in_map).
  split; [now apply (rank_numbers g x)|]. split.
  - pose proof (rank_numbers g x e Hw I1 Hx) as E. apply (Hn e). exists x. split; auto. now apply (get_in Nat.eqb Nat_eqb_spec).
  - split; [intros i Hi; apply num_dofs_bound; eapply numbers_used; eauto|].
    assert (ND : NoDup (concat (map keys bs))) by (rewrite Hk; unfold wf_numbering in Hw; now rewrite map_fst_keys in Hw).
    pose proof (rank_get bs b e ND I2 Hb) as E. apply (get_keys Nat.eqb Nat_eqb_spec) in Hb as [d Hd]. exists d. split; auto. split.
    + intros a. unfold vec_of. now rewrite <- E, Hd.
    + apply Hs. apply in_concat. exists b. split; auto. now apply (get_in Nat.eqb Nat_eqb_spec).
Qed.
Lemma assemble_vector_ok g bs : vfits g bs -> rows_nodup g ->
  exists V, assemble_vector g bs = Some V /\ length V = length g /\ Forall (fun v => length v = num_dofs g) V /\
    forall r, vec_at V r = global_value g (vec_of bs) r.
Proof.
  intros H Hn. apply vfits_ranks in H as (L & H); auto. destruct (vranks_ok _ _ _ g bs L H) as (V & E & HV). exists V. split; auto.
  unfold global_value. now rewrite elements_keys.
Qed.
(** a dof twice in one element: one contribution is lost *)
Lemma vector_duplicate_lost : exists V, let g := [[(0, [0; 1; 0])]] in let bs := [[(0, map qz [1; 2; 3]%Z)]] in
  vfits g bs /\ assemble_vector g bs = Some V /\ vec_at V 0 = qz 3 /\ global_value g (vec_of bs) 0 = qz 4.
Proof.
  eexists. split; [|split; [vm_compute; reflexivity|split; vm_compute; reflexivity]].
  split; [repeat constructor; simpl; tauto|]. split; [reflexivity|]. intros e d [[= <- <-]|[]]. reflexivity.
Qed.
