(** The numberings on the periodic slice are those of a torus. *)
From Coq Require Import Arith ZArith QArith List Bool Lia.
From Verif Require Import NdArray LocalNumberingModel Dict GmModel UnModel UnSpec UnSlices UnPrograms UnThms PslModel PslSpec PslThms PslNumber.
Import ListNotations.
Local Open Scope nat_scope.

(** ** numberings *)
Section Torus.
  Context (Kx Ky Kz : nat) (Kxp : 1 <= Kx) (Kyp : 1 <= Ky) (Kzp : 1 <= Kz).
  Context (px py pz : nat) (Hx : 1 <= px) (Hy : 1 <= py) (Hz : 1 <= pz).
  Context (x0 x1 y0 y1 th : Q) (m : list (nat * brick)) (S : is_slice Kx Ky Kz x0 x1 y0 y1 th m).
  Notation el := (el Kx Ky Kz).
  Notation num := (num Kx Ky).
  Definition kindk (k : nat) : kind :=
    match k with 0 => H0 px py pz | 1 => H1 px py pz | 2 => H2 px py pz | _ => H3 px py pz end.
  Lemma num_spec a b c : a + b * Kx + c * (Kx * Ky) = num a b c.
  Proof. unfold PslThms.num. lia. Qed.
  Lemma hex_in a b c : a < Kx -> b < Ky -> c < Kz -> In (num a b c, el a b c) (hexes_of m).
  Proof.
    intros Ha Hb Hc. destruct S as (_ & S1 & _). destruct (S1 a b c Ha Hb Hc) as ([e br] & Hin & G).
    unfold hexes_of. apply in_map_iff. exists (e, br). split; auto. cbn [fst snd]. pose proof (g_num _ _ _ _ _ _ _ _ _ _ _ _ G) as E. simpl in E.
    pose proof (g_map _ _ _ _ _ _ _ _ _ _ _ _ G) as M. simpl in M. rewrite E, M. reflexivity.
  Qed.
  Lemma in_hex e x : In (e, x) (hexes_of m) -> exists a b c, a < Kx /\ b < Ky /\ c < Kz /\ e = num a b c /\ x = el a b c.
  Proof.
    intros H. apply in_map_iff in H as ([e0 br] & [= <- <-] & Hin). destruct S as (_ & _ & S2).
    destruct (S2 _ Hin) as (a & b & c & Ha & Hb & Hc & G). exists a, b, c. repeat (split; [assumption|]).
    pose proof (g_num _ _ _ _ _ _ _ _ _ _ _ _ G) as E. simpl in E. pose proof (g_map _ _ _ _ _ _ _ _ _ _ _ _ G) as M. simpl in M.
    split; auto. now rewrite M.
  Qed.
  Lemma slice_proper k : proper (kindk k) (hexes_of m).
  Proof.
    split.
    - unfold hexes_of. rewrite map_map. cbn [fst]. change (NoDup (map fst m)). destruct S as (-> & _). apply seq_NoDup.
    - apply Forall_forall. intros [e x] H _. apply in_hex in H as (a & b & c & _ & _ & _ & -> & ->). destruct k as [|[|[|]]]; split; auto; simpl; lia.
  Qed.
  Context (D : distinct_edges Kx Ky Kz).
  Ltac labs_fwd := repeat match goal with H : lab _ _ _ _ _ _ = lab _ _ _ _ _ _ |- _ => apply lab_inj in H as (? & ? & ?); [|assumption..] end.
  Ltac one K KP u v := first [apply (up K u KP); congruence | apply (up K v KP); congruence].
  Lemma slice_edges : conforming_edges false (edges3 px py pz) (hexes_of m).
  Proof.
    intros e x e' x' u v n u' v' n' H H' _ _ E E' [U|[U _]]; [|discriminate].
    apply in_hex in H as (a & b & c & _ & _ & _ & _ & ->). apply in_hex in H' as (a' & b' & c' & _ & _ & _ & _ & ->).
    injection U as <- <-. destruct D as (D1 & D2 & D3). unfold edges3 in E, E'. cbn [flat_map app] in E, E'. rewrite !vertex_lab in E, E'. cbn [Nat.b2n] in *.
    assert ((exists A B C, u = lab Kx Ky Kz A B C /\
      ((v = lab Kx Ky Kz (A + 1) B C /\ n = px) \/ (v = lab Kx Ky Kz A (B + 1) C /\ n = py) \/ (v = lab Kx Ky Kz A B (C + 1) /\ n = pz)))) as (A & B & C & F & G).
    { simpl in E. repeat destruct E as [E|E]; try contradiction; injection E as <- <- <-; rewrite ?Nat.add_0_r; do 3 eexists; (split; [reflexivity|]); auto. }
    assert ((exists A B C, u = lab Kx Ky Kz A B C /\
      ((v = lab Kx Ky Kz (A + 1) B C /\ n' = px) \/ (v = lab Kx Ky Kz A (B + 1) C /\ n' = py) \/ (v = lab Kx Ky Kz A B (C + 1) /\ n' = pz)))) as (A' & B' & C' & F' & G').
    { simpl in E'. repeat destruct E' as [E'|E']; try contradiction; injection E' as <- <- <-; rewrite ?Nat.add_0_r; do 3 eexists; (split; [reflexivity|]); auto. }
    clear E E'. rewrite F in F'.
    destruct G as [[G ->]|[[G ->]|[G ->]]], G' as [[G' ->]|[[G' ->]|[G' ->]]]; auto; exfalso; rewrite G in G'; clear F G; labs_fwd;
    first [ apply D1; split; [one Kx Kxp A A'|one Ky Kyp B B']
          | apply D2; split; [one Ky Kyp B B'|one Kz Kzp C C']
          | apply D3; split; [one Kx Kxp A A'|one Kz Kzp C C'] ].
  Qed.
  Lemma slice_faces : conforming_faces (faces3 px py pz) (hexes_of m).
  Proof.
    intros e x e' x' f n n' H H' _ _ E E'.
    apply in_hex in H as (a & b & c & _ & _ & _ & _ & ->). apply in_hex in H' as (a' & b' & c' & _ & _ & _ & _ & ->).
    destruct D as (D1 & D2 & D3). unfold faces3, face_x, face_y, face_z in E, E'. cbn [flat_map app] in E, E'. rewrite !vertex_lab in E, E'. cbn [Nat.b2n] in *.
    assert (exists A B C, (n = (py, pz) /\ f = [lab Kx Ky Kz A B C; lab Kx Ky Kz A (B + 1) C; lab Kx Ky Kz A B (C + 1); lab Kx Ky Kz A (B + 1) (C + 1)]) \/
                          (n = (px, pz) /\ f = [lab Kx Ky Kz A B C; lab Kx Ky Kz (A + 1) B C; lab Kx Ky Kz A B (C + 1); lab Kx Ky Kz (A + 1) B (C + 1)]) \/
                          (n = (px, py) /\ f = [lab Kx Ky Kz A B C; lab Kx Ky Kz (A + 1) B C; lab Kx Ky Kz A (B + 1) C; lab Kx Ky Kz (A + 1) (B + 1) C])) as (A & B & C & G).
    { simpl in E. repeat destruct E as [E|E]; try contradiction; injection E as <- <-; rewrite ?Nat.add_0_r; do 3 eexists; eauto. }
    assert (exists A B C, (n' = (py, pz) /\ f = [lab Kx Ky Kz A B C; lab Kx Ky Kz A (B + 1) C; lab Kx Ky Kz A B (C + 1); lab Kx Ky Kz A (B + 1) (C + 1)]) \/
                          (n' = (px, pz) /\ f = [lab Kx Ky Kz A B C; lab Kx Ky Kz (A + 1) B C; lab Kx Ky Kz A B (C + 1); lab Kx Ky Kz (A + 1) B (C + 1)]) \/
                          (n' = (px, py) /\ f = [lab Kx Ky Kz A B C; lab Kx Ky Kz (A + 1) B C; lab Kx Ky Kz A (B + 1) C; lab Kx Ky Kz (A + 1) (B + 1) C])) as (A' & B' & C' & G').
    { simpl in E'. repeat destruct E' as [E'|E']; try contradiction; injection E' as <- <-; rewrite ?Nat.add_0_r; do 3 eexists; eauto. }
    clear E E'.
    destruct G as [[-> G]|[[-> G]|[-> G]]], G' as [[-> G']|[[-> G']|[-> G']]]; auto; exfalso; rewrite G in G'; clear G; injection G'; clear G'; intros; labs_fwd;
    first [ apply D1; split; [one Kx Kxp A A'|one Ky Kyp B B']
          | apply D2; split; [one Ky Kyp B B'|one Kz Kzp C C']
          | apply D3; split; [one Kx Kxp A A'|one Kz Kzp C C'] ].
  Qed.
  Lemma slice_numbers k : k <= 3 -> exists g st, number_mesh (prog_hex px py pz k) (hexes_of m) st0 = Some (g, st) /\ numbers (kindk k) (hexes_of m) g (cur st).
  Proof.
    intros Hk. destruct k as [|[|[|[|k]]]]; [| | | |lia]; cbn [kindk].
    - apply number_h0; auto; [apply (slice_proper 0)|apply slice_edges|apply slice_faces].
    - apply number_h1; auto; [apply (slice_proper 1)|apply slice_edges|apply slice_faces].
    - apply number_h2; auto; [apply (slice_proper 2)|apply slice_faces].
    - apply number_h3; auto. apply (slice_proper 3).
  Qed.
  Lemma kind_dof k t s : k <= 3 -> k_dof (kindk k) t s = dof_of k px py pz s.
  Proof. intros Hk. destruct k as [|[|[|[|k]]]]; [| | | |lia]; reflexivity. Qed.
  Lemma kind_turn k : k_turn (kindk k) = false.
  Proof. destruct k as [|[|[|[|k]]]]; reflexivity. Qed.
  Lemma kind_places k a b c a' b' c' q i j l q' i' j' l' d d' : k <= 3 ->
    a < Kx -> b < Ky -> c < Kz -> a' < Kx -> b' < Ky -> c' < Kz ->
    dof_of k px py pz [q; i; j; l] = Some d -> dof_of k px py pz [q'; i'; j'; l'] = Some d' ->
    (k_place (kindk k) (num a b c) (el a b c) [q; i; j; l] = k_place (kindk k) (num a' b' c') (el a' b' c') [q'; i'; j'; l'] <->
     at_same Kx Ky Kz px py pz a b c q i j l a' b' c' q' i' j' l').
  Proof.
    intros Hk Ha Hb Hc Ha' Hb' Hc' H H'. destruct k as [|[|[|[|k]]]]; [| | | |lia]; cbn [kindk k_place H0 H1 H2 H3].
    - cbn [at3_0]. assert (exists d, dof_of 0 px py pz [q; i; j; l] = Some d) as R by eauto. assert (exists d, dof_of 0 px py pz [q'; i'; j'; l'] = Some d) as R' by eauto.
      apply (dof_range px py pz Hx Hy Hz) in R as (q0 & i0 & j0 & l0 & [= <- <- <- <-] & -> & ? & ? & ?); auto. apply (dof_range px py pz Hx Hy Hz) in R' as (q0 & i0 & j0 & l0 & [= <- <- <- <-] & -> & ? & ? & ?); auto.
      apply places0; auto.
    - eapply places1; eauto.
    - eapply places2; eauto.
    - eapply places3; eauto.
  Qed.
  Theorem slice_torus k : k <= 3 -> exists g st,
    number_mesh (prog_hex px py pz k) (hexes_of m) st0 = Some (g, st) /\ torus_numbers k Kx Ky Kz px py pz g (cur st).
  Proof.
    intros Hk. destruct (slice_numbers k Hk) as (g & st & E & N). exists g, st. split; auto. clear E.
    assert (forall a b c s d, a < Kx -> b < Ky -> c < Kz -> dof_of k px py pz s = Some d ->
      position (kindk k) (hexes_of m) (num a b c) d (k_place (kindk k) (num a b c) (el a b c) s)) as P.
    { intros. apply position_at; auto; [now apply hex_in|]. rewrite kind_dof; auto. }
    assert (forall a b c a' b' c' q i j l q' i' j' l' d d' n n',
      a < Kx -> b < Ky -> c < Kz -> a' < Kx -> b' < Ky -> c' < Kz ->
      dof_of k px py pz [q; i; j; l] = Some d -> dof_of k px py pz [q'; i'; j'; l'] = Some d' ->
      number_at g (num a b c) d n -> number_at g (num a' b' c') d' n' ->
      (n = n' <-> at_same Kx Ky Kz px py pz a b c q i j l a' b' c' q' i' j' l')) as Same.
    { intros a b c a' b' c' q i j l q' i' j' l' d d' n n' Ha Hb Hc Ha' Hb' Hc' Hd Hd' Hn Hn'.
      rewrite (nb_same _ _ _ _ N _ _ _ _ _ _ _ _ (P a b c _ d Ha Hb Hc Hd) (P a' b' c' _ d' Ha' Hb' Hc' Hd') Hn Hn').
      rewrite kind_turn. unfold same. rewrite <- (kind_places k a b c a' b' c' q i j l q' i' j' l' d d') by auto.
      split; [intros [H|[H _]]; [auto|discriminate]|auto]. }
    constructor.
    - rewrite (nb_names _ _ _ _ N). unfold hexes_of. rewrite map_map. cbn [fst]. exact (proj1 S).
    - intros a b c s d Ha Hb Hc Hd. rewrite num_spec. apply (nb_total _ _ _ _ N _ _ _ (P a b c s d Ha Hb Hc Hd)).
    - intros. rewrite num_spec in *. eapply Same; eauto.
    - set (L := list_prod (list_prod (seq 0 (components k)) (seq 0 (Kx * px))) (list_prod (seq 0 (Ky * py)) (seq 0 (Kz * pz)))).
      set (R := fun (t : nat * nat * (nat * nat)) n => exists a b c q i j l d, a < Kx /\ b < Ky /\ c < Kz /\ dof_of k px py pz [q; i; j; l] = Some d /\
        number_at g (num a b c) d n /\ t = (q, fine Kx px a i, (fine Ky py b j, fine Kz pz c l))).
      assert (length L = components k * (Kx * px * (Ky * py) * (Kz * pz))) as <-.
      { unfold L. rewrite !prod_length, !seq_length. lia. }
      rewrite <- (seq_length (cur st) 0). apply Nat.le_antisymm.
      + apply (rel_le (fun n t => R t n)); [apply seq_NoDup| |].
        * intros n Hn. apply in_seq in Hn. destruct (nb_onto _ _ _ _ N n) as (e & d & p & Hp & Hn'); [lia|].
          destruct Hp as [e x s d Hin _ Hd]. apply in_hex in Hin as (a & b & c & Ha & Hb & Hc & -> & ->). rewrite kind_dof in Hd by auto.
          assert (exists d, dof_of k px py pz s = Some d) as Rg by eauto. apply (dof_range px py pz Hx Hy Hz) in Rg as (q & i & j & l & -> & Rg); auto.
          exists (q, fine Kx px a i, (fine Ky py b j, fine Kz pz c l)). split; [|exists a, b, c, q, i, j, l, d; repeat (split; [assumption|]); reflexivity].
          assert (q < components k) as Hq by (destruct k as [|[|[|[|k]]]]; simpl in *; lia).
          assert (forall K p a i, 1 <= K -> 1 <= p -> In (fine K p a i) (seq 0 (K * p))) as Fu.
          { intros K p u v HK Hp. apply in_seq. split; [lia|]. apply Nat.mod_upper_bound. nia. }
          apply in_prod_iff. split; apply in_prod_iff; split; auto. apply in_seq. lia.
        * intros n n' t _ _ (a & b & c & q & i & j & l & d & Ha & Hb & Hc & Hd & Hn & ->) (a' & b' & c' & q' & i' & j' & l' & d' & Ha' & Hb' & Hc' & Hd' & Hn' & T).
          injection T as T1 T2 T3 T4. eapply (proj2 (Same a b c a' b' c' q i j l q' i' j' l' d d' n n' Ha Hb Hc Ha' Hb' Hc' Hd Hd' Hn Hn')). repeat split; auto.
      + apply (rel_le R).
        * repeat apply NoDup_prod; apply seq_NoDup.
        * intros [[q X] [Y Z]] H. apply in_prod_iff in H as [H H']. apply in_prod_iff in H as [Hq HX]. apply in_prod_iff in H' as [HY HZ].
          apply in_seq in Hq, HX, HY, HZ.
          assert (forall K p W, 1 <= p -> W < K * p -> W / p < K /\ W mod p < p /\ fine K p (W / p) (W mod p) = W) as Fi.
          { intros K p W Hp HW. pose proof (Nat.mod_upper_bound W p ltac:(lia)). pose proof (Nat.div_mod W p ltac:(lia)) as DM.
            assert (W / p < K) by (apply Nat.div_lt_upper_bound; lia). split; [auto|]. split; [auto|]. rewrite fine_in by lia. lia. }
          destruct (Fi Kx px X) as (X1 & X2 & X3); [auto|lia|]. destruct (Fi Ky py Y) as (Y1 & Y2 & Y3); [auto|lia|]. destruct (Fi Kz pz Z) as (Z1 & Z2 & Z3); [auto|lia|].
          destruct (dof_has px py pz Hx Hy Hz k q (X mod px) (Y mod py) (Z mod pz)) as [d Hd]; auto; [lia|].
          destruct (nb_total _ _ _ _ N _ _ _ (P (X / px) (Y / py) (Z / pz) _ d X1 Y1 Z1 Hd)) as (n & Hn & Hlt).
          exists n. split; [apply in_seq; lia|]. exists (X / px), (Y / py), (Z / pz), q, (X mod px), (Y mod py), (Z mod pz), d.
          repeat (split; [assumption|]). now rewrite X3, Y3, Z3.
        * intros t t' n _ _ (a & b & c & q & i & j & l & d & Ha & Hb & Hc & Hd & Hn & ->) (a' & b' & c' & q' & i' & j' & l' & d' & Ha' & Hb' & Hc' & Hd' & Hn' & ->).
          destruct (proj1 (Same a b c a' b' c' q i j l q' i' j' l' d d' n n Ha Hb Hc Ha' Hb' Hc' Hd Hd' Hn Hn') eq_refl) as (-> & -> & -> & ->). reflexivity.
  Qed.
End Torus.
