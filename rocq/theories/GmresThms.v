(** What a round of the serial solver computes: an orthonormal basis and the smallest residual. *)
From Coq Require Import List Arith ZArith Bool Reals Lia Lra FunctionalExtensionality.
From Verif Require Import GmresModel GmresSpec GmresSums GmresSerial.
Import ListNotations.
Local Open Scope R_scope.

(** ** combinations *)
Definition spn (k : nat) (B : nat -> vec) (d : vec) : Prop := exists c, forall l, d l = rsum k (fun j => c j * B j l).
Lemma spn_ext k B d d' : (forall l, d l = d' l) -> spn k B d -> spn k B d'.
Proof. intros E [c H]. exists c. intros l. rewrite <- E. apply H. Qed.
Lemma spn_add k B d e : spn k B d -> spn k B e -> spn k B (fun l => d l + e l).
Proof. intros [c H] [c' H']. exists (fun j => c j + c' j). intros l. rewrite H, H', <- rsum_add. apply rsum_ext. intros. lra. Qed.
Lemma spn_scale k B a d : spn k B d -> spn k B (fun l => a * d l).
Proof. intros [c H]. exists (fun j => a * c j). intros l. rewrite H, <- rsum_mul. apply rsum_ext. intros. lra. Qed.
Lemma spn_zero k B : spn k B (fun _ => 0).
Proof. exists (fun _ => 0). intros l. symmetry. apply rsum_zero. intros. lra. Qed.
Lemma spn_sum k B p (D : nat -> vec) e : (forall i, (i < p)%nat -> spn k B (D i)) -> spn k B (fun l => rsum p (fun i => e i * D i l)).
Proof.
  induction p as [|p IH]; intros H; cbn [rsum]; [apply spn_zero|].
  apply (spn_add k B (fun l => rsum p (fun i => e i * D i l)) (fun l => e p * D p l)); [apply IH; intros; apply H; lia|].
  apply spn_scale, H. lia.
Qed.
Lemma spn_mem k B j : (j < k)%nat -> spn k B (B j).
Proof.
  intros J. exists (fun i => if (i =? j)%nat then 1 else 0). intros l. rewrite (rsum_one k _ j J).
  - rewrite Nat.eqb_refl. lra.
  - intros i _ N. apply Nat.eqb_neq in N. rewrite N. lra.
Qed.
Lemma spn_trans k B k' C d : (forall j, (j < k)%nat -> spn k' C (B j)) -> spn k B d -> spn k' C d.
Proof. intros H [c E]. apply (spn_ext k' C (fun l => rsum k (fun j => c j * B j l))); [intros; symmetry; apply E|]. apply spn_sum, H. Qed.
Lemma spn_mono k k' B d : (k <= k')%nat -> spn k B d -> spn k' B d.
Proof. intros L. apply spn_trans. intros j J. apply spn_mem. lia. Qed.
Lemma spn_mv n A k B d : spn k B d -> spn k (fun j => mv n A (B j)) (mv n A d).
Proof.
  intros [c H]. exists c. intros l. rewrite <- mv_comb. apply rsum_ext. intros j J. rewrite H. reflexivity.
Qed.

Section Round.
  Variable n : nat.
  Variable A : mat.
  Variable R m : nat.
  Variable Z : nat -> vec.
  Definition im (V : nat -> vec) (j : nat) : vec := mv n A (dir m Z V j).
  Definition orth (k : nat) (V : nat -> vec) : Prop :=
    forall i j, (i < k)%nat -> (j < k)%nat -> dot n (V i) (V j) = if (i =? j)%nat then 1 else 0.
  Definition upper (H : mat) : Prop := forall i k, (S k < i)%nat -> H i k = 0.

  (** before step j *)
  Definition arn (j : nat) (V : nat -> vec) (H : mat) : Prop :=
    orth (S j) V /\ upper H /\
    (forall k, (k < j)%nat -> H (S k) k <> 0) /\
    (forall k, (k < j)%nat -> forall l, im V k l = rsum (S (S k)) (fun i => H i k * V i l)).
  (** after all steps *)
  Definition fin (V : nat -> vec) (H : mat) (hat : vec) : Prop :=
    orth R V /\ upper H /\
    (forall k, (k < R - 1)%nat -> H (S k) k <> 0) /\
    (forall j, (j < R)%nat -> forall l, im V j l = rsum R (fun i => H i j * V i l) + (if (j =? R - 1)%nat then hat l else 0)) /\
    (forall i, (i < R)%nat -> dot n hat (V i) = 0) /\ H R (R - 1)%nat * H R (R - 1)%nat = dot n hat hat.

  Lemma hat_orth j a V i : orth (S j) V -> (i <= j)%nat -> dot n (hatv n j a V) (V i) = 0.
  Proof.
    intros O I. unfold hatv. rewrite dot_sub_l, dot_comb_l. rewrite (rsum_one (S j) _ i) by
      (try lia; intros k K N; rewrite O by lia; apply Nat.eqb_neq in N; rewrite N; lra).
    rewrite O, Nat.eqb_refl by lia. lra.
  Qed.
  Lemma upper_newH j a V H : upper H -> upper (newH n j a V H).
  Proof.
    intros U i k L. unfold newH. destruct (Nat.eqb_spec k j) as [->|N]; [|apply U, L].
    replace (i <=? j)%nat with false by (symmetry; apply Nat.leb_gt; lia). replace (i =? S j)%nat with false by (symmetry; apply Nat.eqb_neq; lia).
    apply U, L.
  Qed.
  Lemma newV_old j a V i : (i <= j)%nat -> newV n j a V i = V i.
  Proof. intros L. unfold newV. replace (i =? S j)%nat with false by (symmetry; apply Nat.eqb_neq; lia). reflexivity. Qed.
  Lemma newV_new j a V : newV n j a V (S j) = fun l => hatv n j a V l / norm n (hatv n j a V).
  Proof. unfold newV. rewrite Nat.eqb_refl. reflexivity. Qed.
  Lemma im_newV j a V k : (k <= j)%nat -> im (newV n j a V) k = im V k.
  Proof. intros L. unfold im, dir. rewrite newV_old by exact L. reflexivity. Qed.

  Lemma arn_step j V H : arn j V H -> norm n (hatv n j (im V j) V) <> 0 ->
    arn (S j) (newV n j (im V j) V) (newH n j (im V j) V H).
  Proof.
    intros (O & U & NZ & D) HN. set (a := im V j) in *. set (h := norm n (hatv n j a V)) in *.
    assert (NEW : forall i, (i <= j)%nat -> dot n (newV n j a V (S j)) (V i) = 0).
    { intros i I. rewrite newV_new. rewrite (dot_ext n _ (V i) (fun l => / h * hatv n j a V l) (V i)) by (intros; fold h; lra).
      rewrite dot_scale_l, hat_orth by assumption. lra. }
    split; [|split; [apply upper_newH, U|split]].
    - intros i k I K. destruct (Nat.eq_dec i (S j)) as [->|Ni]; destruct (Nat.eq_dec k (S j)) as [->|Nk].
      + rewrite Nat.eqb_refl, newV_new. fold h.
        rewrite (dot_ext n _ _ (fun l => / h * hatv n j a V l) (fun l => / h * hatv n j a V l)) by (intros; lra).
        rewrite dot_scale_l, dot_comm, dot_scale_l, <- norm_sq. fold h. field. exact HN.
      + replace (S j =? k)%nat with false by (symmetry; apply Nat.eqb_neq; lia). rewrite (newV_old j a V k) by lia. apply NEW. lia.
      + replace (i =? S j)%nat with false by (symmetry; apply Nat.eqb_neq; lia). rewrite (newV_old j a V i), dot_comm by lia. apply NEW. lia.
      + rewrite !newV_old by lia. apply O; lia.
    - intros k K. unfold newH. destruct (Nat.eqb_spec k j) as [->|N].
      + replace (S j <=? j)%nat with false by (symmetry; apply Nat.leb_gt; lia). rewrite Nat.eqb_refl. exact HN.
      + apply NZ. lia.
    - intros k K l. rewrite im_newV by lia. destruct (Nat.eq_dec k j) as [->|N].
      + change (rsum (S (S j)) (fun i => newH n j a V H i j * newV n j a V i l))
          with (rsum (S j) (fun i => newH n j a V H i j * newV n j a V i l) + newH n j a V H (S j) j * newV n j a V (S j) l).
        rewrite newV_new. unfold newH at 2. rewrite Nat.eqb_refl. replace (S j <=? j)%nat with false by (symmetry; apply Nat.leb_gt; lia).
        rewrite Nat.eqb_refl. fold h. replace (h * (hatv n j a V l / h)) with (hatv n j a V l) by (field; exact HN).
        unfold hatv. rewrite (rsum_ext (S j) (fun i => newH n j a V H i j * newV n j a V i l) (fun i => dot n a (V i) * V i l)).
        * fold a. lra.
        * intros i I. unfold newH. rewrite Nat.eqb_refl. replace (i <=? j)%nat with true by (symmetry; apply Nat.leb_le; lia).
          rewrite newV_old by lia. reflexivity.
      + rewrite D by lia. apply rsum_ext. intros i I. unfold newH. replace (k =? j)%nat with false by (symmetry; apply Nat.eqb_neq; lia).
        rewrite newV_old by lia. reflexivity.
  Qed.

  Lemma arn_last V H : (0 < R)%nat -> arn (R - 1) V H ->
    fin V (newH n (R - 1) (im V (R - 1)) V H) (hatv n (R - 1) (im V (R - 1)) V).
  Proof.
    intros R0 (O & U & NZ & D). set (a := im V (R - 1)). set (hat := hatv n (R - 1) a V). replace (S (R - 1)) with R in O by lia.
    split; [exact O|]. split; [apply upper_newH, U|]. split; [|split; [|split]].
    - intros k K. unfold newH. replace (k =? R - 1)%nat with false by (symmetry; apply Nat.eqb_neq; lia). apply NZ, K.
    - intros j J l. destruct (Nat.eqb_spec j (R - 1)) as [->|N].
      + unfold hat, hatv. replace (S (R - 1)) with R by lia. fold a.
        rewrite (rsum_ext R (fun i => newH n (R - 1) a V H i (R - 1) * V i l) (fun i => dot n a (V i) * V i l)); [lra|].
        intros i I. unfold newH. rewrite Nat.eqb_refl. replace (i <=? R - 1)%nat with true by (symmetry; apply Nat.leb_le; lia). reflexivity.
      + rewrite D, Rplus_0_r by lia. symmetry.
        rewrite (rsum_ext R _ (fun i => H i j * V i l)).
        * apply rsum_more; [|lia]. intros i I. rewrite U by lia. lra.
        * intros i I. unfold newH. replace (j =? R - 1)%nat with false by (symmetry; apply Nat.eqb_neq; lia). reflexivity.
    - intros i I. apply hat_orth; [|lia]. replace (S (R - 1)) with R by lia. exact O.
    - unfold newH. rewrite Nat.eqb_refl. replace (R <=? R - 1)%nat with false by (symmetry; apply Nat.leb_gt; lia).
      replace (R =? S (R - 1))%nat with true by (symmetry; apply Nat.eqb_eq; lia). fold hat. apply norm_sq.
  Qed.

  (** all steps *)
  Lemma ssteps_fin c : forall j V H V' H', (j + c = R)%nat -> (0 < c)%nat -> arn j V H ->
    ssteps n A R m Z (seq j c) (V, H) = Some (V', H') ->
    exists hat, fin V' H' hat /\ (forall i, (i <= j)%nat -> V' i = V i) /\ (2 <= R)%nat.
  Proof.
    induction c as [|c IH]; intros j V H V' H' E C AR; [lia|]. cbn [seq ssteps fst sstep].
    change (mv n A (dir m Z V j)) with (im V j).
    destruct (Nat.ltb_spec j (R - 1)) as [L|L].
    - destruct (Req_EM_T (norm n (hatv n j (im V j) V)) 0) as [Z0|Z0]; [discriminate|]. intros ST.
      destruct (IH (S j) _ _ V' H' ltac:(lia) ltac:(lia) (arn_step j V H AR Z0) ST) as (hat & F & G & R2).
      exists hat. split; [exact F|]. split; [|exact R2]. intros i I. rewrite G by lia. apply newV_old, I.
    - assert (j = R - 1)%nat as -> by lia. assert (c = 0)%nat as -> by lia. destruct (Nat.eqb_spec (R - 1) 0) as [N|N]; [discriminate|].
      cbn [seq ssteps]. intros ST. injection ST as <- <-. eexists. split; [apply arn_last; [lia|exact AR]|]. split; [reflexivity|lia].
  Qed.

  (** ** consequences *)
  Section Fin.
    Variable V : nat -> vec.
    Variable H : mat.
    Variable hat : vec.
    Hypothesis F : fin V H hat.

    Lemma im_V j i : (j < R)%nat -> (i < R)%nat -> dot n (im V j) (V i) = H i j.
    Proof.
      destruct F as (O & U & NZ & D & HO & HH). intros J I.
      rewrite (dot_ext n (im V j) (V i) (fun l => rsum R (fun p => H p j * V p l) + (if (j =? R - 1)%nat then hat l else 0)) (V i))
        by (intros; auto).
      rewrite dot_add_l, dot_comb_l. rewrite (rsum_one R _ i I) by (intros p P N; rewrite O by lia; apply Nat.eqb_neq in N; rewrite N; lra).
      rewrite O, Nat.eqb_refl by lia. destruct (j =? R - 1)%nat.
      - rewrite HO by exact I. lra.
      - unfold dot at 1. rewrite rsum_zero by (intros; lra). lra.
    Qed.
    Lemma im_hat j : (j < R)%nat -> dot n hat (im V j) = if (j =? R - 1)%nat then dot n hat hat else 0.
    Proof.
      destruct F as (O & U & NZ & D & HO & HH). intros J. rewrite dot_comm.
      rewrite (dot_ext n (im V j) hat (fun l => rsum R (fun p => H p j * V p l) + (if (j =? R - 1)%nat then hat l else 0)) hat)
        by (intros; auto).
      rewrite dot_add_l, dot_comb_l. rewrite rsum_zero by (intros p P; rewrite dot_comm, HO by exact P; lra).
      destruct (j =? R - 1)%nat; [change (dot n (fun i => hat i) hat) with (dot n hat hat); lra|]. unfold dot. rewrite rsum_zero by (intros; lra). lra.
    Qed.
    Lemma H_last j : (j < R)%nat -> (j =? R - 1)%nat = false -> H R j = 0.
    Proof. destruct F as (O & U & _). intros J N. apply Nat.eqb_neq in N. apply U. lia. Qed.
    Lemma gram j k : (j < R)%nat -> (k < R)%nat -> dot n (im V j) (im V k) = rsum (S R) (fun l => H l j * H l k).
    Proof.
      intros J K. destruct F as (O & U & NZ & D & HO & HH).
      rewrite (dot_ext n (im V j) (im V k) (fun l => rsum R (fun p => H p j * V p l) + (if (j =? R - 1)%nat then hat l else 0)) (im V k))
        by (intros; auto).
      rewrite dot_add_l, dot_comb_l. cbn [rsum]. f_equal.
      - apply rsum_ext. intros p P. rewrite dot_comm, im_V by assumption. reflexivity.
      - destruct (j =? R - 1)%nat eqn:EJ.
        + change (dot n (fun i => hat i) (im V k)) with (dot n hat (im V k)). rewrite im_hat by exact K. destruct (k =? R - 1)%nat eqn:EK.
          * apply Nat.eqb_eq in EJ, EK. subst j k. symmetry. exact HH.
          * rewrite (H_last k K EK). lra.
        + unfold dot. rewrite rsum_zero by (intros; lra). rewrite (H_last j J EJ). lra.
    Qed.
  End Fin.

  (** least squares *)
  Lemma least (r : vec) (a : nat -> vec) k e : (forall j, (j < k)%nat -> dot n r (a j) = 0) ->
    dot n r r <= dot n (fun l => r l - rsum k (fun j => e j * a j l)) (fun l => r l - rsum k (fun j => e j * a j l)).
  Proof.
    intros P. set (w := fun l => rsum k (fun j => e j * a j l)).
    assert (dot n w r = 0) as W0.
    { unfold w. rewrite dot_comb_l. apply rsum_zero. intros j J. rewrite dot_comm, P by exact J. lra. }
    change (dot n r r <= dot n (fun l => r l - w l) (fun l => r l - w l)).
    rewrite dot_diff_sq, W0. pose proof (dot_self n w). lra.
  Qed.
End Round.
