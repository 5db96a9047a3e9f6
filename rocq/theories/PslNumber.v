(** The numberings of UnModel on a periodic slice. *)
From Coq Require Import Arith ZArith QArith List Bool Lia.
From Verif Require Import NdArray LocalNumberingModel Dict GmModel UnModel UnSpec UnSlices UnPrograms UnThms PslModel PslSpec PslThms.
Import ListNotations.
Local Open Scope nat_scope.

(** ** counting *)
Lemma rel_le {A B} (R : A -> B -> Prop) l (l' : list B) : NoDup l -> (forall a, In a l -> exists b, In b l' /\ R a b) ->
  (forall a a' b, In a l -> In a' l -> R a b -> R a' b -> a = a') -> length l <= length l'.
Proof.
  intros Hn Ht Hi.
  assert (exists l2, length l2 = length l /\ NoDup l2 /\ incl l2 l' /\ forall b, In b l2 -> exists a, In a l /\ R a b) as (l2 & <- & N & I & _).
  { induction Hn as [|a l Ha Hn IH]; [exists []; repeat split; auto; try constructor; intros ? []|].
    destruct IH as (l2 & L & N & I & F); [intros; apply Ht; simpl; auto|intros; eapply Hi; simpl; eauto|].
    destruct (Ht a (or_introl eq_refl)) as (b & Hb & Rb). exists (b :: l2). split; [simpl; lia|]. split; [|split].
    - constructor; auto. intros C. apply F in C as (a' & Ha' & Ra'). assert (a = a') as -> by (eapply Hi; simpl; eauto). contradiction.
    - intros ? [<-|C]; auto.
    - intros ? [<-|C]; [exists a; simpl; auto|]. apply F in C as (a' & ? & ?). exists a'. simpl. auto. }
  now apply NoDup_incl_length.
Qed.
Lemma NoDup_prod {A B} (l : list A) (l' : list B) : NoDup l -> NoDup l' -> NoDup (list_prod l l').
Proof.
  induction 1 as [|a l Ha Hn IH]; intros H'; simpl; [constructor|].
  assert (forall (u v : list (A * B)), NoDup u -> NoDup v -> (forall x, In x u -> ~ In x v) -> NoDup (u ++ v)) as App.
  { induction u as [|x u IHu]; intros v Hu Hv D; simpl; auto. inversion Hu; subst. constructor.
    - rewrite in_app_iff. intros [C|C]; auto. eapply D; simpl; eauto.
    - apply IHu; auto. intros y Hy. apply D. simpl. auto. }
  apply App; auto.
  - clear -H'. induction H'; simpl; constructor; auto. rewrite in_map_iff. intros (? & [= ->] & ?). auto.
  - intros [x y] Hx C. apply in_map_iff in Hx as (? & [= -> ->] & _). apply in_prod_iff in C. tauto.
Qed.

(** ** places on one axis *)
Section Axis.
  Context (K p a : nat) (HK : 1 <= K) (Hp : 1 <= p) (Ha : a < K).
  Lemma fine_in i : i < p -> fine K p a i = p * a + i.
  Proof. intros Hi. unfold fine. rewrite Nat.mod_small; [lia|nia]. Qed.
  Lemma fine_end (h : bool) : fine K p a (if h then p else 0) = p * ((a + Nat.b2n h) mod K).
  Proof.
    unfold fine. replace (a * p + (if h then p else 0)) with (p * (a + Nat.b2n h)) by (destruct h; simpl; lia).
    rewrite (Nat.mul_comm K p). now rewrite Nat.mul_mod_distr_l by lia.
  Qed.
  Lemma axis_cases i : i < p + 1 ->
    (exists h, end_of (side_of i p) = Some h /\ fine K p a i = p * ((a + Nat.b2n h) mod K)) \/
    (end_of (side_of i p) = None /\ fine K p a i = p * a + i /\ 1 <= i < p).
  Proof.
    intros Hi. unfold side_of. destruct (Nat.eqb_spec i 0) as [->|N]; [left; exists false; split; [reflexivity|apply (fine_end false)]|].
    destruct (Nat.eqb_spec i p) as [->|N']; [left; exists true; split; [reflexivity|apply (fine_end true)]|].
    right. split; [reflexivity|]. split; [apply fine_in; lia|lia].
  Qed.
End Axis.
Lemma ends_eq p u v : 1 <= p -> p * u = p * v -> u = v.
Proof. intros H E. apply Nat.mul_cancel_l in E; lia. Qed.
Lemma mid_eq p a i a' i' : i < p -> i' < p -> p * a + i = p * a' + i' -> a = a' /\ i = i'.
Proof. intros H H' E. rewrite (Nat.add_comm _ i), (Nat.add_comm _ i'), !(Nat.mul_comm p) in E. apply mix in E as [? ?]; auto. Qed.
Lemma end_mid p u a i : 1 <= i < p -> p * u = p * a + i -> False.
Proof. intros H E. destruct (mid_eq p u 0 a i) as [? ?]; lia. Qed.

Section Dofs.
  Context (px py pz : nat) (Hx : 1 <= px) (Hy : 1 <= py) (Hz : 1 <= pz).
  (** the range of local dofs *)
  Definition shapes (k : nat) : list (list nat) :=
    match k with
    | 0 => [[px + 1; py + 1; pz + 1]]
    | 1 => [[px; py + 1; pz + 1]; [px + 1; py; pz + 1]; [px + 1; py + 1; pz]]
    | 2 => [[px + 1; py; pz]; [px; py + 1; pz]; [px; py; pz + 1]]
    | _ => [[px; py; pz]]
    end.
  Lemma dof_shapes k s : dof_of k px py pz s = in_arrays (Some (arrs 0 (shapes k))) s.
  Proof.
    unfold dof_of. f_equal. destruct k as [|[|[|k]]]; unfold ln_m3n3k0, ln_m3n3k1, ln_m3n3k2, ln_m3n3k3; cbv zeta; cbn [shapes];
    rewrite !ar_eq by (simpl; nia); arrs_eq.
  Qed.
  Lemma dof_in k s : (exists d, dof_of k px py pz s = Some d) <-> In s (outs 0 (shapes k)).
  Proof.
    split.
    - intros [d H]. rewrite dof_shapes in H. apply in_arrays_outs in H. eapply nth_error_In; eauto.
    - intros H. apply In_nth_error in H as [d H]. exists d. rewrite dof_shapes. now apply in_arrays_outs.
  Qed.
  Lemma dof_range k s : (exists d, dof_of k px py pz s = Some d) -> exists q i j l, s = [q; i; j; l] /\
    match k with
    | 0 => q = 0 /\ i < px + 1 /\ j < py + 1 /\ l < pz + 1
    | 1 => (q = 0 /\ i < px /\ j < py + 1 /\ l < pz + 1) \/ (q = 1 /\ i < px + 1 /\ j < py /\ l < pz + 1) \/ (q = 2 /\ i < px + 1 /\ j < py + 1 /\ l < pz)
    | 2 => (q = 0 /\ i < px + 1 /\ j < py /\ l < pz) \/ (q = 1 /\ i < px /\ j < py + 1 /\ l < pz) \/ (q = 2 /\ i < px /\ j < py /\ l < pz + 1)
    | _ => q = 0 /\ i < px /\ j < py /\ l < pz
    end.
  Proof.
    rewrite dof_in. destruct k as [|[|[|k]]]; cbn [shapes outs]; rewrite ?in_app_iff; intros H;
    repeat match type of H with _ \/ _ => destruct H as [H|H] end; try contradiction;
    apply whole3 in H as (i & j & l & -> & ? & ? & ?); eexists _, i, j, l; (split; [reflexivity|]); lia.
  Qed.
  Lemma dof_has k q i j l : k <= 3 -> q < components k -> i < px -> j < py -> l < pz -> exists d, dof_of k px py pz [q; i; j; l] = Some d.
  Proof.
    intros Hk Hq Hi Hj Hl. apply dof_in. destruct k as [|[|[|k]]]; cbn [shapes outs components] in *; rewrite ?in_app_iff;
    (destruct q as [|[|[|q]]]; [| | |lia]); try lia;
    repeat match goal with
    | |- In [?q; _; _; _] (whole ?q _) => apply whole3; exists i, j, l; repeat split; lia
    | |- In [?q; _; _; _] (whole ?q _) \/ _ => left
    | |- _ \/ _ => right
    end.
  Qed.
End Dofs.

Section Slice.
  Context (Kx Ky Kz : nat) (Kxp : 1 <= Kx) (Kyp : 1 <= Ky) (Kzp : 1 <= Kz).
  Context (px py pz : nat) (Hx : 1 <= px) (Hy : 1 <= py) (Hz : 1 <= pz).
  Notation lab := (lab Kx Ky Kz).
  Notation labs := (labs Kx Ky Kz).
  Notation num := (num Kx Ky).
  Definition el (a b c : nat) : elem := {| e_type := EOrthHex; e_map := labs a b c; e_in := true |}.
  Lemma vertex_lab a b c hx hy hz : vertex3 (el a b c) hx hy hz = lab (a + Nat.b2n hx) (b + Nat.b2n hy) (c + Nat.b2n hz).
  Proof. destruct hx, hy, hz; reflexivity. Qed.
  Lemma num_inj a b c a' b' c' : a < Kx -> b < Ky -> a' < Kx -> b' < Ky -> num a b c = num a' b' c' -> a = a' /\ b = b' /\ c = c'.
  Proof. intros. apply mix in H3 as [? H3]; auto. apply mix in H3 as [? ?]; auto. Qed.

  (** ** the places *)
  Context (D : distinct_edges Kx Ky Kz).
  Ltac labs_fwd := repeat match goal with H : lab _ _ _ = lab _ _ _ |- _ => apply lab_inj in H as (? & ? & ?); [|assumption..] end.
  Ltac to_small := rewrite ?Nat.add_0_r in *; repeat match goal with H : ?a < ?K |- _ => rewrite (Nat.mod_small a K H) in * end.
  Definition at_same (a b c q i j l a' b' c' q' i' j' l' : nat) : Prop :=
    q = q' /\ fine Kx px a i = fine Kx px a' i' /\ fine Ky py b j = fine Ky py b' j' /\ fine Kz pz c l = fine Kz pz c' l'.
  Context (a b c a' b' c' : nat) (Ha : a < Kx) (Hb : b < Ky) (Hc : c < Kz) (Ha' : a' < Kx) (Hb' : b' < Ky) (Hc' : c' < Kz).
  Notation e := (num a b c).
  Notation e' := (num a' b' c').
  Notation x := (el a b c).
  Notation x' := (el a' b' c').
  Ltac ax K p a HK Hp Ha i Hi :=
    let h := fresh "h" in let E := fresh "E" in let F := fresh "F" in let R := fresh "R" in
    destruct (axis_cases K p a HK Hp Ha i Hi) as [(h & E & F)|(E & F & R)]; rewrite E, F; clear E F.
  Ltac one K KP u v := first [apply (up K u KP); congruence | apply (up K v KP); congruence].
  Ltac cross :=
    exfalso; destruct D as (D1 & D2 & D3);
    first [ apply D1; split; [one Kx Kxp a a'|one Ky Kyp b b']
          | apply D2; split; [one Ky Kyp b b'|one Kz Kzp c c']
          | apply D3; split; [one Kx Kxp a a'|one Kz Kzp c c'] ].
  Ltac nums := repeat match goal with H : num _ _ _ = num _ _ _ |- _ => apply num_inj in H as (? & ? & ?); [|assumption..] end.
  Ltac fwd :=
    let H := fresh "H" in intros H;
    first [ discriminate H
          | injection H; clear H; intros; nums; labs_fwd; rewrite ?Nat.add_0_r in *;
            first [ cross | to_small; repeat split; first [congruence | lia | f_equal; congruence | f_equal; lia] ] ].
  Ltac bwd :=
    let H1 := fresh in let H2 := fresh in let H3 := fresh in let H4 := fresh in
    intros (H1 & H2 & H3 & H4);
    first [ discriminate H1
          | exfalso; (eapply end_mid; [|first [exact H2 | exact H3 | exact H4 | symmetry; exact H2 | symmetry; exact H3 | symmetry; exact H4]]; assumption)
          | repeat match goal with
              | H : _ * _ = _ * _ |- _ => apply ends_eq in H; [|assumption]
              | H : _ * _ + _ = _ * _ + _ |- _ => apply mid_eq in H as [? ?]; [|lia..]
              end; subst;
            repeat (f_equal; try (apply lab_ext; congruence)) ].
  Lemma places0 i j l i' j' l' : i < px + 1 -> j < py + 1 -> l < pz + 1 -> i' < px + 1 -> j' < py + 1 -> l' < pz + 1 ->
    (node3 px py pz e x i j l = node3 px py pz e' x' i' j' l' <-> at_same a b c 0 i j l a' b' c' 0 i' j' l').
  Proof.
    intros Hi Hj Hl Hi' Hj' Hl'. unfold node3, at_same, face_x, face_y, face_z.
    ax Kx px a Kxp Hx Ha i Hi; ax Ky py b Kyp Hy Hb j Hj; ax Kz pz c Kzp Hz Hc l Hl;
    ax Kx px a' Kxp Hx Ha' i' Hi'; ax Ky py b' Kyp Hy Hb' j' Hj'; ax Kz pz c' Kzp Hz Hc' l' Hl'; rewrite ?vertex_lab; cbn [Nat.b2n].
    all: split.
    all: try solve [bwd].
    all: try solve [fwd].
  Qed.
  Ltac inn :=
    try rewrite (fine_in Kx px a) by assumption; try rewrite (fine_in Ky py b) by assumption; try rewrite (fine_in Kz pz c) by assumption;
    try rewrite (fine_in Kx px a') by assumption; try rewrite (fine_in Ky py b') by assumption; try rewrite (fine_in Kz pz c') by assumption.
  Ltac finish := rewrite ?vertex_lab; cbn [Nat.b2n]; split; [solve [fwd]|solve [bwd]].
  Lemma places1 q i j l q' i' j' l' d d' : dof_of 1 px py pz [q; i; j; l] = Some d -> dof_of 1 px py pz [q'; i'; j'; l'] = Some d' ->
    (at3_1 px py pz e x [q; i; j; l] = at3_1 px py pz e' x' [q'; i'; j'; l'] <-> at_same a b c q i j l a' b' c' q' i' j' l').
  Proof.
    intros H H'. assert (exists d, dof_of 1 px py pz [q; i; j; l] = Some d) as S by eauto. assert (exists d, dof_of 1 px py pz [q'; i'; j'; l'] = Some d) as S' by eauto.
    clear H H' d d'.
    apply (dof_range px py pz Hx Hy Hz) in S as (q0 & i0 & j0 & l0 & [= <- <- <- <-] & [(-> & Hi & Hj & Hl)|[(-> & Hi & Hj & Hl)|(-> & Hi & Hj & Hl)]]);
    apply (dof_range px py pz Hx Hy Hz) in S' as (q0 & i0 & j0 & l0 & [= <- <- <- <-] & [(-> & Hi' & Hj' & Hl')|[(-> & Hi' & Hj' & Hl')|(-> & Hi' & Hj' & Hl')]]);
    cbn [at3_1]; unfold dx3, dy3, dz3, at_same, face_x, face_y, face_z; inn;
    try ax Kx px a Kxp Hx Ha i Hi; try ax Ky py b Kyp Hy Hb j Hj; try ax Kz pz c Kzp Hz Hc l Hl;
    try ax Kx px a' Kxp Hx Ha' i' Hi'; try ax Ky py b' Kyp Hy Hb' j' Hj'; try ax Kz pz c' Kzp Hz Hc' l' Hl'; finish.
  Qed.
  Lemma places2 q i j l q' i' j' l' d d' : dof_of 2 px py pz [q; i; j; l] = Some d -> dof_of 2 px py pz [q'; i'; j'; l'] = Some d' ->
    (at3_2 px py pz e x [q; i; j; l] = at3_2 px py pz e' x' [q'; i'; j'; l'] <-> at_same a b c q i j l a' b' c' q' i' j' l').
  Proof.
    intros H H'. assert (exists d, dof_of 2 px py pz [q; i; j; l] = Some d) as S by eauto. assert (exists d, dof_of 2 px py pz [q'; i'; j'; l'] = Some d) as S' by eauto.
    clear H H' d d'.
    apply (dof_range px py pz Hx Hy Hz) in S as (q0 & i0 & j0 & l0 & [= <- <- <- <-] & [(-> & Hi & Hj & Hl)|[(-> & Hi & Hj & Hl)|(-> & Hi & Hj & Hl)]]);
    apply (dof_range px py pz Hx Hy Hz) in S' as (q0 & i0 & j0 & l0 & [= <- <- <- <-] & [(-> & Hi' & Hj' & Hl')|[(-> & Hi' & Hj' & Hl')|(-> & Hi' & Hj' & Hl')]]);
    cbn [at3_2]; unfold facet3, at_same, face_x, face_y, face_z; inn;
    try ax Kx px a Kxp Hx Ha i Hi; try ax Ky py b Kyp Hy Hb j Hj; try ax Kz pz c Kzp Hz Hc l Hl;
    try ax Kx px a' Kxp Hx Ha' i' Hi'; try ax Ky py b' Kyp Hy Hb' j' Hj'; try ax Kz pz c' Kzp Hz Hc' l' Hl'; finish.
  Qed.
  Lemma places3 q i j l q' i' j' l' d d' : dof_of 3 px py pz [q; i; j; l] = Some d -> dof_of 3 px py pz [q'; i'; j'; l'] = Some d' ->
    (PIn e [q; i; j; l] = PIn e' [q'; i'; j'; l'] <-> at_same a b c q i j l a' b' c' q' i' j' l').
  Proof.
    intros H H'. assert (exists d, dof_of 3 px py pz [q; i; j; l] = Some d) as S by eauto. assert (exists d, dof_of 3 px py pz [q'; i'; j'; l'] = Some d) as S' by eauto.
    clear H H' d d'.
    apply (dof_range px py pz Hx Hy Hz) in S as (q0 & i0 & j0 & l0 & [= <- <- <- <-] & (-> & Hi & Hj & Hl)).
    apply (dof_range px py pz Hx Hy Hz) in S' as (q0 & i0 & j0 & l0 & [= <- <- <- <-] & (-> & Hi' & Hj' & Hl')).
    unfold at_same; inn; finish.
  Qed.
End Slice.
