From Coq Require Import Arith List ZArith Bool Lia Relations.
From Verif Require Import NdArray LocalNumberingModel IncidenceModel IncidenceSpec MeshSpec GatherCore GatherModel GatherProofs GatherSpec TopologyModel.
From Verif Require Import IncidenceProofs IncidenceThms.
Import ListNotations.

Lemma pair_eqb_eq a b : pair_eqb a b = true <-> a = b.
Proof.
  destruct a as [a1 a2], b as [b1 b2]. unfold pair_eqb. simpl. rewrite andb_true_iff, !Nat.eqb_eq. split; [intros []; congruence|intros [=]; auto].
Qed.

Fixpoint visited (mp : emap) (i : nat) (ss : list (nat * nat)) : list (nat * nat) :=
  match ss with
  | [] => []
  | (side, corner) :: r => match mp i side with None => [] | Some j => (j, corner) :: visited mp j r end
  end.
Lemma seek_in mp ss : forall i out y, In y (seek mp i ss out) <-> In y out \/ In y (visited mp i ss).
Proof.
  induction ss as [|[side corner] ss IH]; intros i out y; simpl; [tauto|].
  destruct (mp i side) as [j|]; [|simpl; tauto]. rewrite IH. simpl.
  destruct (existsb (pair_eqb (j, corner)) out) eqn:E.
  - apply existsb_exists in E as (z & Hz & Ez). apply pair_eqb_eq in Ez. subst z. split; [tauto|]. intros [H|[<-|H]]; auto.
  - rewrite in_app_iff. simpl. tauto.
Qed.
Fixpoint steps (mp : emap) (axes : list nat) (x : nat * nat) : list (nat * nat) :=
  match axes with
  | [] => []
  | a :: r => match cross mp a x with Some y => y :: steps mp r y | None => [] end
  end.
Ltac walk := cbv; repeat (match goal with |- context [match ?mp ?i ?s with _ => _ end] => destruct (mp i s) end); reflexivity.
Lemma sharing_in mp e c y : c < 4 -> In y (sharing_corner mp e c) <->
  y = (e, c) \/ In y (steps mp [1; 0; 1] (e, c)) \/ In y (steps mp [0; 1; 0] (e, c)).
Proof.
  intros Hc. unfold sharing_corner. rewrite !seek_in.
  assert ((visited mp e (seek1 c) = steps mp [1; 0; 1] (e, c) /\ visited mp e (seek2 c) = steps mp [0; 1; 0] (e, c)) \/
          (visited mp e (seek2 c) = steps mp [1; 0; 1] (e, c) /\ visited mp e (seek1 c) = steps mp [0; 1; 0] (e, c))) as H.
  { do 4 (destruct c as [|c]; [solve [left; split; walk | right; split; walk]|]). lia. }
  destruct H as [[-> ->]|[-> ->]]; simpl In at 1; intuition.
Qed.

Section Vertices.
  Context {N : nat} {mp : emap} (Hc : consistent 2 N mp).
  Definition okc (x : nat * nat) : Prop := fst x < N /\ snd x < 4.

  Lemma flip_facts a c : a < 2 -> c < 4 -> flip a c < 4 /\ flip a (flip a c) = c /\ corner_bit a c < 2 /\
    corner_bit a (flip a c) = 1 - corner_bit a c.
  Proof.
    intros Ha H. destruct a as [|[|a]]; [| |lia]; do 4 (destruct c as [|c]; [cbv; repeat split; auto; lia|]); lia.
  Qed.
  Lemma cross_back a x y : a < 2 -> okc x -> cross mp a x = Some y -> okc y /\ cross mp a y = Some x.
  Proof.
    intros Ha [Hx Hcx] H. destruct x as [e c]. unfold cross in H. simpl in *.
    destruct (mp e (a + (a + 0) + corner_bit a c)) as [m|] eqn:E; [|discriminate]. injection H as <-.
    destruct (flip_facts a c Ha Hcx) as (F1 & F2 & F3 & F4). destruct Hc as [C1 C2].
    change (a + (a + 0)) with (2 * a) in E.
    assert (m < N) as Hm by (eapply (C1 e a (corner_bit a c)); eauto).
    split; [split; auto|]. unfold cross. cbn [fst snd]. rewrite F4, F2.
    destruct (corner_bit a c) as [|[|]] eqn:Eb; [| |lia].
    - rewrite Nat.add_0_r in E. simpl Nat.sub. rewrite (proj2 (C2 a m e Ha Hm Hx) E). reflexivity.
    - simpl Nat.sub. rewrite Nat.add_0_r. rewrite (proj1 (C2 a e m Ha Hx Hm) E). reflexivity.
  Qed.

  Definition adjacent (x y : nat * nat) : Prop := okc x /\ exists a, a < 2 /\ cross mp a x = Some y.
  Definition around : nat * nat -> nat * nat -> Prop := clos_refl_sym_trans _ adjacent.

  Lemma adjacent_sym x y : adjacent x y -> adjacent y x.
  Proof. intros (Hx & a & Ha & H). destruct (cross_back a x y Ha Hx H) as [Hy H']. split; eauto. Qed.
  Lemma around_ok x y : around x y -> (okc x <-> okc y).
  Proof.
    induction 1; try tauto. pose proof (adjacent_sym _ _ H) as H'. destruct H as [? _], H' as [? _]. tauto.
  Qed.

  Lemma steps_around axes : Forall (fun a => a < 2) axes -> forall x, okc x -> forall y, In y (steps mp axes x) -> around x y.
  Proof.
    induction 1 as [|a r Ha Hr IH]; intros x Hx y; simpl; [tauto|].
    destruct (cross mp a x) as [z|] eqn:E; [|simpl; tauto]. destruct (cross_back a x z Ha Hx E) as [Hz _].
    intros [<-|H].
    - apply rst_step. split; eauto.
    - eapply rst_trans; [apply rst_step; split; eauto|]. eapply IH; eauto.
  Qed.

  Lemma closed_around (S : nat * nat -> Prop) : (forall z z', S z -> adjacent z z' -> S z') -> forall u v, around u v -> (S u <-> S v).
  Proof.
    intros Hcl u v H. induction H as [u v H|u|u v H IH|u v z H IH H' IH']; try tauto.
    split; intros Hs; eapply Hcl; eauto. now apply adjacent_sym.
  Qed.

  Context (Hreg : regular_vertices N mp).
  Lemma turn4 e c z1 z2 z3 z4 : okc (e, c) -> cross mp 1 (e, c) = Some z1 -> cross mp 0 z1 = Some z2 -> cross mp 1 z2 = Some z3 ->
    cross mp 0 z3 = Some z4 -> z4 = (e, c).
  Proof. intros [He Hcc] H1 H2 H3 H4. apply Hreg; auto. cbn [turn]. rewrite H1, H2, H3, H4. reflexivity. Qed.

  Lemma sharing_around e c y : okc (e, c) -> (In y (sharing_corner mp e c) <-> around (e, c) y).
  Proof.
    intros Hok. pose proof Hok as [He Hcc]. simpl in He, Hcc. rewrite (sharing_in mp e c y Hcc). split.
    - assert (Forall (fun a => a < 2) [1; 0; 1] /\ Forall (fun a => a < 2) [0; 1; 0]) as [F1 F2] by (split; repeat constructor; lia).
      intros [->|[H|H]]; [apply rst_refl| |]; [exact (steps_around _ F1 _ Hok _ H)|exact (steps_around _ F2 _ Hok _ H)].
    - set (x := (e, c)) in *.
      assert (forall z z', z = x \/ In z (steps mp [1; 0; 1] x) \/ In z (steps mp [0; 1; 0] x) -> adjacent z z' ->
              z' = x \/ In z' (steps mp [1; 0; 1] x) \/ In z' (steps mp [0; 1; 0] x)) as Hcl.
      { intros z z' Hz (Hzok & a & Ha & Hcr). cbn [steps] in *.
        pose proof (cross_back 1 x) as B1. pose proof (cross_back 0 x) as B0.
        assert (a = 0 \/ a = 1) as Ha' by lia. clear Ha.
        destruct Hz as [->|[Hz|Hz]].
        - destruct Ha' as [-> | ->]; rewrite Hcr; cbn [In]; clear; tauto.
        - destruct (cross mp 1 x) as [w1|] eqn:E1; [|destruct Hz].
          destruct (cross_back 1 x w1 ltac:(lia) Hok E1) as [K1 R1].
          destruct Hz as [<-|Hz].
          + destruct Ha' as [-> | ->]; [rewrite Hcr; cbn [In]; clear; tauto|]. left. congruence.
          + destruct (cross mp 0 w1) as [w2|] eqn:E2; [|destruct Hz].
            destruct (cross_back 0 w1 w2 ltac:(lia) K1 E2) as [K2 R2].
            destruct Hz as [<-|Hz].
            * destruct Ha' as [-> | ->]; [|rewrite Hcr; cbn [In]; clear; tauto]. right. left. simpl. left. congruence.
            * destruct (cross mp 1 w2) as [w3|] eqn:E3; [|destruct Hz].
              destruct (cross_back 1 w2 w3 ltac:(lia) K2 E3) as [K3 R3].
              destruct Hz as [<-|[]].
              destruct Ha' as [-> | ->].
              -- left. eapply (turn4 e c); eauto.
              -- right. left. simpl. right. left. congruence.
        - destruct (cross mp 0 x) as [w1|] eqn:E1; [|destruct Hz].
          destruct (cross_back 0 x w1 ltac:(lia) Hok E1) as [K1 R1].
          destruct Hz as [<-|Hz].
          + destruct Ha' as [-> | ->]; [left; congruence|]. rewrite Hcr; cbn [In]; clear; tauto.
          + destruct (cross mp 1 w1) as [w2|] eqn:E2; [|destruct Hz].
            destruct (cross_back 1 w1 w2 ltac:(lia) K1 E2) as [K2 R2].
            destruct Hz as [<-|Hz].
            * destruct Ha' as [-> | ->]; [rewrite Hcr; cbn [In]; clear; tauto|]. right. right. simpl. left. congruence.
            * destruct (cross mp 0 w2) as [w3|] eqn:E3; [|destruct Hz].
              destruct (cross_back 0 w2 w3 ltac:(lia) K2 E3) as [K3 R3].
              destruct Hz as [<-|[]].
              destruct Ha' as [-> | ->].
              -- right. right. simpl. right. left. congruence.
              -- left. destruct z' as [e4 c4]. destruct (cross_back 1 w3 (e4, c4) ltac:(lia) K3 Hcr) as [K4 R4].
                 symmetry. eapply (turn4 e4 c4); eauto. }
      intros H. apply (closed_around _ Hcl _ _ H). auto.
  Qed.

  (** ** the numbering of the corners *)
  Definition cbs (k : nat) : list slot := [[k]].
  Definition cts : list task := [Group 0; Group 1; Group 2; Group 3].
  Definition ceqv := @eqv N mp no_groups op_side cbs (sharing_corner mp) cts.

  Lemma in_cts g : In (Group g) cts <-> g < 4.
  Proof.
    unfold cts. simpl. split; [intuition (try discriminate); match goal with H : Group _ = Group _ |- _ => injection H as <-; lia end|].
    intros H. do 4 (destruct g as [|g]; [auto 6|]). lia.
  Qed.

  Lemma corners_ok : @loop_ok N (-1)%Z mp rule_id no_groups op_side cbs (sharing_corner mp) cts.
  Proof.
    constructor.
    - simpl. repeat constructor; simpl; intuition discriminate.
    - intros e s _ H. simpl in H. intuition discriminate.
    - intros e s m _ H. simpl in H. intuition discriminate.
    - auto.
    - intros e g He Hg. apply in_cts in Hg. assert (okc (e, g)) as Hok by (split; auto). split.
      + apply sharing_around; auto. apply rst_refl.
      + intros e' g' Hin. apply (sharing_around e g _ Hok) in Hin.
        assert (okc (e', g')) as Hok' by (apply (around_ok _ _ Hin); auto).
        split; [apply Hok'|]. split; [apply in_cts, Hok'|]. split; [reflexivity|].
        intros x. rewrite !sharing_around by auto. split; intros H; [eapply rst_trans; eauto|].
        eapply rst_trans; [apply rst_sym; eauto|auto].
  Qed.

  (** ** attachments: the number of a corner points at an attachment that contains it *)
  Definition att_ok (t : topo) : Prop :=
    forall e c, look (-1) (fst t) e [c] = (-1)%Z \/
      exists k e0 c0, look (-1) (fst t) e [c] = Z.of_nat k /\ nth_error (snd t) k = Some (sharing_corner mp e0 c0) /\
        In (e, c) (sharing_corner mp e0 c0) /\ okc (e0, c0).

  Lemma do_corner_att i k t : okc (i, k) -> att_ok t -> att_ok (do_corner mp i k t).
  Proof.
    intros Hok H. destruct t as [w att]. unfold do_corner. destruct (look (-1) w i [k] =? -1)%Z; auto.
    set (out := sharing_corner mp i k). intros e c. simpl fst. simpl snd.
    pose proof (look_writes (-1)%Z cbs (length att) out w (e, [c])) as Hlw. simpl fst in Hlw. simpl snd in Hlw.
    assert (forall l w0, fold_left (fun w (ec : nat * nat) => write w (fst ec) [([snd ec], Z.of_nat (length att))]) l w0 =
            fold_left (fun w (eg : nat * nat) => write w (fst eg) (fresh (cbs (snd eg)) (length att))) l w0) as Ef.
    { induction l as [|a l IH]; intros w0; simpl; auto. }
    rewrite Ef. destruct Hlw as [([e1 c1] & j & H1 & H2 & H3 & H4)|(H1 & _)].
    - simpl in H2, H3. subst e1. destruct j as [|[|j]]; simpl in H3; try discriminate. injection H3 as <-.
      right. exists (length att), i, k. simpl snd in H4. rewrite H4, Nat.add_0_r. split; auto. split; [|split; auto].
      rewrite nth_error_app2 by lia. now rewrite Nat.sub_diag.
    - rewrite H1. destruct (H e c) as [H5|(k' & e0 & c0 & H5 & H6 & H7 & H8)]; auto. right. exists k', e0, c0.
      repeat split; auto; try apply H8. simpl in H6. rewrite nth_error_app1; auto. apply nth_error_Some. congruence.
  Qed.
  Lemma do_corner_sim i k w att : 
    do_task (-1) mp rule_id no_groups op_side cbs (sharing_corner mp) i (Group k) (w, length att) =
    Some (fst (do_corner mp i k (w, att)), length (snd (do_corner mp i k (w, att)))).
  Proof.
    simpl. destruct (look (-1) w i [k] =? -1)%Z; auto. simpl. rewrite app_length. simpl. do 3 f_equal.
  Qed.
  Lemma corners_inv n : forall s t, s + n <= N -> att_ok t ->
    att_ok (fold_left (fun t i => fold_left (fun t k => do_corner mp i k t) [0; 1; 2; 3] t) (seq s n) t).
  Proof.
    induction n as [|n IH]; intros s t Hs Ht; auto. cbn [seq fold_left]. apply IH; [lia|].
    repeat (apply do_corner_att; [split; simpl; lia|]). auto.
  Qed.
  Lemma corners_sim n : forall s t,
    do_elements (-1) mp rule_id no_groups op_side cbs (sharing_corner mp) (seq s n) cts (fst t, length (snd t)) =
    let t' := fold_left (fun t i => fold_left (fun t k => do_corner mp i k t) [0; 1; 2; 3] t) (seq s n) t in
    Some (fst t', length (snd t')).
  Proof.
    induction n as [|n IH]; intros s t; auto. cbn [seq fold_left do_elements]. unfold cts at 1. cbn [do_tasks].
    destruct t as [w att]. simpl fst at 1. simpl snd at 1.
    rewrite do_corner_sim. destruct (do_corner mp s 0 (w, att)) as [w0 a0]. cbn [fst snd].
    rewrite do_corner_sim. destruct (do_corner mp s 1 (w0, a0)) as [w1 a1]. cbn [fst snd].
    rewrite do_corner_sim. destruct (do_corner mp s 2 (w1, a1)) as [w2 a2]. cbn [fst snd].
    rewrite do_corner_sim. destruct (do_corner mp s 3 (w2, a2)) as [w3 a3]. cbn [fst snd].
    apply (IH (S s) (w3, a3)).
  Qed.

  Lemma attachment_around e c : okc (e, c) -> exists l, corner_attachment mp N e c = Some l /\
    forall y, In y l <-> around (e, c) y.
  Proof.
    intros Hok. unfold corner_attachment, corners. pose proof (corners_inv N 0 ([], []) ltac:(lia)) as Ha.
    pose proof (corners_sim N 0 ([], [])) as Hs. cbv zeta in Hs.
    
    destruct (fold_left (fun (t : topo) (i : nat) => fold_left (fun (t0 : topo) (k : nat) => do_corner mp i k t0) [0; 1; 2; 3] t) (seq 0 N) ([], [])) as [w att] eqn:E. simpl fst in *. simpl snd in *. simpl length in Hs.
    destruct (loop_correct corners_ok) as (w' & cur & E' & HI). pose proof (eq_trans (eq_sym E') Hs) as Hw. injection Hw as -> ->.
    destruct (inv_num _ _ _ _ _ HI (e, [c])) as (k & Hk & Ek).
    { split; [apply Hok|]. simpl. destruct Hok as [_ Hcc]. simpl in Hcc. do 4 (destruct c as [|c]; [auto 6|]). lia. }
    simpl in Ek. rewrite Ek. destruct (Z.ltb_spec (Z.of_nat k) 0); [lia|]. rewrite Nat2Z.id.
    destruct Ha with (e := e) (c := c) as [H1|(k' & e0 & c0 & H1 & H2 & H3 & H4)].
    { intros e1 c1. simpl. auto. }
    - simpl in H1. lia.
    - simpl in H1, H2. assert (k' = k) as -> by lia. exists (sharing_corner mp e0 c0). split; auto.
      apply (sharing_around e0 c0 _ H4) in H3. intros y. rewrite (sharing_around e0 c0 y H4).
      split; intros H5; [eapply rst_trans; [apply rst_sym; eauto|auto]|eapply rst_trans; eauto].
  Qed.
End Vertices.
