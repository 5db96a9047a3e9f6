(** The generated neighbour maps meet the conditions of the numbering theorems. *)
From Coq Require Import Arith List ZArith Bool Lia.
From Verif Require Import NdArray IncidenceModel MeshModel MeshSpec MeshProofs MeshThms GatherSpec IncidenceProofs GatherInst.
Import ListNotations.

Section MeshGather.
  Context {ndim : nat} {diss : list (list nat)} {M : rmap} {ws : list (nat * nat * nat)}.
  Context (Hpos : Forall (Forall (fun n => 0 < n)) diss) (Hcheck : check_map M = true)
          (Hgen : gen_map ndim diss M = Some ws).

  Lemma mesh_consistent : consistent ndim (num_elements diss) (neighbour ws).
  Proof.
    split.
    - intros e a s m He Ha Hs H. eapply (neighbour_range Hpos Hcheck Hgen a e m s); eauto.
    - intros a e m Ha He Hm. apply (neighbour_symmetric Hpos Hcheck Hgen); auto.
  Qed.

  Lemma set_at_same n : forall l i v, nth_error l n = Some i -> set_at n v l = l -> v = i.
  Proof. induction n as [|n IH]; intros [|x l] i v; simpl; try discriminate; [intros [= <-] [= ->]; auto|intros H [= E]; eauto]. Qed.
  Lemma region_map_row R s r : (exists row, nth_error M R = Some row /\ nth_error row s = Some (Some r)) <-> region_map M R s = Some r.
  Proof.
    unfold region_map. split.
    - intros (row & -> & ->). auto.
    - destruct (nth_error M R) as [row|]; [|discriminate]. destruct (nth_error row s) as [o|] eqn:E; [|discriminate]. intros ->. eauto.
  Qed.

  Lemma mesh_no_self : no_thin_periodic diss M -> no_self ndim (num_elements diss) (neighbour ws).
  Proof.
    intros Ht e a He Ha H. pose proof (element_number_bij diss) as (B1 & B2 & B3). destruct (B3 _ He) as (R & I & Hn).
    apply (neighbour_plus_iff Hpos Hcheck Hgen a R I e e Ha Hn) in H as (R' & I' & Hn' & dis & n & i & Hd & Hdn & Hi & Hgo).
    destruct (B2 _ _ _ _ _ Hn Hn') as [<- <-]. destruct Hgo as [(_ & _ & E)|(E1 & E2 & Hrow)].
    - symmetry in E. apply (set_at_same _ _ _ _ Hi) in E. lia.
    - symmetry in E2. apply (set_at_same _ _ _ _ Hi) in E2. subst. apply region_map_row in Hrow. exact (Ht _ _ _ Hd Hdn Hrow).
  Qed.

  Lemma region_on R ax s r : find_region_on M R ax s = Some (Some r) <-> region_map M R (2 * ax + s) = Some r.
  Proof.
    rewrite <- region_map_row. unfold find_region_on. destruct (nth_error M R) as [row|].
    - split; [eauto|intros (? & [= <-] & H); auto].
    - split; [discriminate|intros (? & [=] & _)].
  Qed.
  Lemma region_sym a R R' : a < ndim -> (region_map M R (2 * a + 1) = Some R' <-> region_map M R' (2 * a) = Some R).
  Proof.
    intros Ha. destruct (gen_map_generated _ _ _ _ Hpos Hcheck Hgen) as [arrs G].
    pose proof (check_on G R a 1 R' Ha Nat.lt_1_2) as H1. pose proof (check_on G R' a 0 R Ha Nat.lt_0_2) as H2.
    rewrite !region_on in H1. rewrite !region_on in H2. simpl Nat.sub in H1, H2.
    replace (2 * a + 0) with (2 * a) in * by lia. tauto.
  Qed.
  Lemma region_compat a R R' dis dis' : a < ndim -> region_map M R (2 * a + 1) = Some R' ->
    nth_error diss R = Some dis -> nth_error diss R' = Some dis' -> remove_at a dis = remove_at a dis'.
  Proof.
    intros Ha Hr Hd Hd'. destruct (gen_map_generated _ _ _ _ Hpos Hcheck Hgen) as [arrs G].
    pose proof (g_shape _ _ _ _ _ G) as Hsh. rewrite <- Hsh, nth_error_map in Hd, Hd'.
    destruct (nth_error arrs R) as [x|] eqn:Ex; [|discriminate]. destruct (nth_error arrs R') as [y|] eqn:Ey; [|discriminate].
    injection Hd as <-. injection Hd' as <-. apply (cross_compat G R x R' y a); auto. now apply region_on.
  Qed.
End MeshGather.

Section Plane.
  Context {diss : list (list nat)} {M : rmap} {ws : list (nat * nat * nat)}.
  Context (Hpos : Forall (Forall (fun n => 0 < n)) diss) (Hcheck : check_map M = true)
          (Hgen : gen_map 2 diss M = Some ws).
  Definition n0 (R : nat) : nat := match nth_error diss R with Some dis => nth 0 dis 0 | None => 0 end.
  Definition n1 (R : nat) : nat := match nth_error diss R with Some dis => nth 1 dis 0 | None => 0 end.

  (** element e at (i, j) of region R *)
  Definition at_ (e R i j : nat) : Prop := element_number diss R [i; j] e /\ i < n0 R /\ j < n1 R.

  Lemma dis2 R dis : nth_error diss R = Some dis -> dis = [n0 R; n1 R].
  Proof.
    intros H. destruct (gen_map_generated _ _ _ _ Hpos Hcheck Hgen) as [arrs G]. pose proof (g_dim _ _ _ _ _ G) as Hd.
    rewrite Forall_forall in Hd. pose proof (Hd _ (nth_error_In _ _ H)) as Hl. unfold n0, n1. rewrite H.
    destruct dis as [|x [|y [|]]]; try discriminate. reflexivity.
  Qed.
  Lemma at_of R I e : element_number diss R I e -> exists i j, I = [i; j] /\ at_ e R i j.
  Proof.
    intros Hn. pose proof Hn as (dis & r & Hd & Hr & _). rewrite (dis2 _ _ Hd) in Hr.
    assert (In I (indices [n0 R; n1 R])) as Hin by (apply in_indices_ravel; eauto).
    apply in_indices2 in Hin as (i & j & Hi & Hj & ->). exists i, j. repeat split; auto.
  Qed.
  Lemma at_fun e e' R i j : at_ e R i j -> at_ e' R i j -> e = e'.
  Proof. intros ((d & r & A1 & A2 & A3) & _) ((d' & r' & B1 & B2 & B3) & _). congruence. Qed.

  Definition end_ (b n i : nat) : Prop := if b =? 0 then i = 0 else S i = n.
  Definition nxt (b i : nat) : nat := if b =? 0 then pred i else S i.
  Definition stp0 (b R i j R' i' j' : nat) : Prop :=
    (~ end_ b (n0 R) i /\ R' = R /\ i' = nxt b i /\ j' = j) \/
    (end_ b (n0 R) i /\ end_ (1 - b) (n0 R') i' /\ j' = j /\ region_map M R b = Some R' /\ region_map M R' (1 - b) = Some R /\ n1 R = n1 R').
  Definition stp1 (b R i j R' i' j' : nat) : Prop :=
    (~ end_ b (n1 R) j /\ R' = R /\ j' = nxt b j /\ i' = i) \/
    (end_ b (n1 R) j /\ end_ (1 - b) (n1 R') j' /\ i' = i /\ region_map M R (2 + b) = Some R' /\ region_map M R' (2 + (1 - b)) = Some R /\ n0 R = n0 R').

  Lemma at_dis e R i j : at_ e R i j -> nth_error diss R = Some [n0 R; n1 R].
  Proof. intros ((dis & r & Hd & _) & _). rewrite Hd. f_equal. now apply dis2. Qed.
  Lemma step0 e R i j e' R' i' j' : at_ e R i j -> at_ e' R' i' j' -> step_plus diss M 0 R [i; j] R' [i'; j'] ->
    stp0 1 R i j R' i' j' /\ stp0 0 R' i' j' R i j.
  Proof.
    intros A A' (dis & n & i0 & Hd & Hn & Hi & H). pose proof (at_dis _ _ _ _ A) as E. pose proof (at_dis _ _ _ _ A') as E'.
    rewrite E in Hd. injection Hd as <-. simpl in Hn, Hi. injection Hn as <-. injection Hi as <-.
    destruct A as (_ & Ai & Aj), A' as (_ & Ai' & Aj').
    destruct H as [(H1 & -> & H2)|(H1 & H2 & H3)]; simpl in H2; injection H2 as -> ->.
    - unfold stp0, end_, nxt. simpl. split; left; repeat split; auto; lia.
    - apply region_map_row in H3. pose proof H3 as H4. apply (region_sym Hpos Hcheck Hgen 0 R R') in H4; [|lia].
      pose proof (region_compat Hpos Hcheck Hgen 0 R R' _ _ ltac:(lia) H3 E E') as H5. simpl in *. injection H5 as H5.
      unfold stp0, end_, nxt. simpl. split; right; repeat split; auto; lia.
  Qed.
  Lemma step1 e R i j e' R' i' j' : at_ e R i j -> at_ e' R' i' j' -> step_plus diss M 1 R [i; j] R' [i'; j'] ->
    stp1 1 R i j R' i' j' /\ stp1 0 R' i' j' R i j.
  Proof.
    intros A A' (dis & n & i0 & Hd & Hn & Hi & H). pose proof (at_dis _ _ _ _ A) as E. pose proof (at_dis _ _ _ _ A') as E'.
    rewrite E in Hd. injection Hd as <-. simpl in Hn, Hi. injection Hn as <-. injection Hi as <-.
    destruct A as (_ & Ai & Aj), A' as (_ & Ai' & Aj').
    destruct H as [(H1 & -> & H2)|(H1 & H2 & H3)]; simpl in H2; injection H2 as -> ->.
    - unfold stp1, end_, nxt. simpl. split; left; repeat split; auto; lia.
    - apply region_map_row in H3. pose proof H3 as H4. apply (region_sym Hpos Hcheck Hgen 1 R R') in H4; [|lia].
      pose proof (region_compat Hpos Hcheck Hgen 1 R R' _ _ ltac:(lia) H3 E E') as H5. simpl in *. injection H5 as H5.
      unfold stp1, end_, nxt. simpl. split; right; repeat split; auto; lia.
  Qed.
  Lemma cross_at a e c e' c' R i j : a < 2 -> c < 4 -> at_ e R i j -> cross (neighbour ws) a (e, c) = Some (e', c') ->
    c' = flip a c /\ exists R' i' j', at_ e' R' i' j' /\
      (if a =? 0 then stp0 else stp1) (corner_bit a c) R i j R' i' j'.
  Proof.
    intros Ha Hcc A H. unfold cross in H. cbn [fst snd] in H. destruct (neighbour ws e _) as [m|] eqn:E; [|discriminate].
    injection H as -> <-. split; auto. pose proof A as (Hn & _).
    assert (corner_bit a c = 0 \/ corner_bit a c = 1) as Hb.
    { unfold corner_bit. pose proof (Nat.mod_upper_bound (c / 2 ^ a) 2). lia. }
    destruct Hb as [Hb|Hb]; rewrite Hb in *.
    - rewrite Nat.add_0_r in E. apply (neighbour_minus_iff Hpos Hcheck Hgen a R _ e e' Ha Hn) in E as (R' & I' & Hn' & Hst).
      destruct (at_of _ _ _ Hn') as (i' & j' & -> & A'). exists R', i', j'. split; auto.
      destruct a as [|[|]]; [| |lia]; simpl; [eapply step0; eauto|eapply step1; eauto].
    - apply (neighbour_plus_iff Hpos Hcheck Hgen a R _ e e' Ha Hn) in E as (R' & I' & Hn' & Hst).
      destruct (at_of _ _ _ Hn') as (i' & j' & -> & A'). exists R', i', j'. split; auto.
      destruct a as [|[|]]; [| |lia]; simpl; [eapply step0; eauto|eapply step1; eauto].
  Qed.

  Lemma turn_cons mp a r x y : turn mp (a :: r) x = Some y -> exists e c, cross mp a x = Some (e, c) /\ turn mp r (e, c) = Some y.
  Proof. simpl. destruct (cross mp a x) as [[e c]|]; [eauto|discriminate]. Qed.

  Lemma mesh_regular : regular_vertices (length M) (region_map M) -> regular_vertices (num_elements diss) (neighbour ws).
  Proof.
    intros Hreg e c x He Hcc H. pose proof (element_number_bij diss) as (B1 & B2 & B3). destruct (B3 _ He) as (R & I & Hn).
    destruct (at_of _ _ _ Hn) as (i & j & -> & A). clear Hn.
    apply turn_cons in H as (e1 & c1 & H1 & H). apply turn_cons in H as (e2 & c2 & H2 & H).
    apply turn_cons in H as (e3 & c3 & H3 & H). apply turn_cons in H as (e4 & c4 & H4 & H). injection H as <-.
    apply (cross_at 1 _ _ _ _ _ _ _ Nat.lt_1_2 Hcc A) in H1 as (-> & R1 & i1 & j1 & A1 & S1).
    assert (flip 1 c < 4) as Hc1 by (do 4 (destruct c as [|c]; [cbv; lia|]); lia).
    apply (cross_at 0 _ _ _ _ _ _ _ Nat.lt_0_2 Hc1 A1) in H2 as (-> & R2 & i2 & j2 & A2 & S2).
    assert (flip 0 (flip 1 c) < 4) as Hc2 by (do 4 (destruct c as [|c]; [cbv; lia|]); lia).
    apply (cross_at 1 _ _ _ _ _ _ _ Nat.lt_1_2 Hc2 A2) in H3 as (-> & R3 & i3 & j3 & A3 & S3).
    assert (flip 1 (flip 0 (flip 1 c)) < 4) as Hc3 by (do 4 (destruct c as [|c]; [cbv; lia|]); lia).
    apply (cross_at 0 _ _ _ _ _ _ _ Nat.lt_0_2 Hc3 A3) in H4 as (-> & R4 & i4 & j4 & A4 & S4).
    enough (R4 = R /\ i4 = i /\ j4 = j) as (-> & -> & ->).
    { rewrite (at_fun _ _ _ _ _ A4 A). f_equal. do 4 (destruct c as [|c]; [reflexivity|]). lia. }
    pose proof (Hreg R c) as HR.
    assert (forall r s q, region_map M r s = Some q -> r < length M) as Hlt.
    { intros r s q. unfold region_map. destruct (nth_error M r) eqn:E; [|discriminate]. intros _. apply nth_error_Some. congruence. }
    destruct A as (_ & Ai & Aj), A1 as (_ & Ai1 & Aj1), A2 as (_ & Ai2 & Aj2), A3 as (_ & Ai3 & Aj3), A4 as (_ & Ai4 & Aj4).
    do 4 (destruct c as [|c]; [
      cbv [stp0 stp1 corner_bit flip Nat.eqb Nat.div Nat.divmod Nat.modulo Nat.pow Nat.mul Nat.add Nat.sub fst snd end_ nxt] in S1, S2, S3, S4;
      unfold turn, cross in HR; cbv [corner_bit flip Nat.eqb Nat.div Nat.divmod Nat.modulo Nat.pow Nat.mul Nat.add Nat.sub fst snd] in HR; cbn [plus fst snd] in HR;
      clear Hc1 Hc2 Hc3 Hcc He B1 B2 B3;
      destruct S1 as [(? & -> & -> & ->)|(X1 & X2 & X3 & X4 & X5 & X6)];
      destruct S2 as [(? & -> & -> & ->)|(Y1 & Y2 & Y3 & Y4 & Y5 & Y6)];
      destruct S3 as [(? & -> & -> & ->)|(Z1 & Z2 & Z3 & Z4 & Z5 & Z6)];
      destruct S4 as [(? & -> & -> & ->)|(W1 & W2 & W3 & W4 & W5 & W6)]; try (exfalso; lia);
      [lia | assert (R4 = R) as -> by congruence; lia | assert (R3 = R) as -> by congruence; lia |
       pose proof (Hlt _ _ _ X4) as HltR; rewrite X4, Y4, Z4, W4 in HR;
       specialize (HR _ HltR ltac:(lia) eq_refl); injection HR as ->; lia] |]).
    lia.
  Qed.
End Plane.
