(** Proofs that splitting keeps plane meshes conforming (before the new nodes are numbered). *)
From Coq Require Import List Arith ZArith Reals String Bool Lra Lia.
From Coquelicot Require Import Coquelicot.
From Verif Require Import MappingModel MappingSpec MappingProofs SplitModel SplitSpec SplitGeom.
Import List ListNotations.
Local Open Scope R_scope.

Lemma pair_inj a b c d : pair_ a b = pair_ c d -> (a = c /\ b = d) \/ (a = d /\ b = c).
Proof. unfold pair_. cbn. destruct (Z.leb_spec a b), (Z.leb_spec c d); intros [= -> ->]; auto. Qed.
Lemma pair_length a b : exists x y, pair_ a b = Tup [x; y].
Proof. unfold pair_. cbn. destruct (a <=? b)%Z; eauto. Qed.

(** an edge of a child: half of an edge of the parent, or between the middle of a side and the centre *)
Definition spokes4 (f : R -> R -> pt2) (n0 n1 n2 n3 : Z) : list (node * (R -> pt2)) :=
  [(pair_ n0 n1, fun t => f 0 ((t - 1) / 2)); (pair_ n1 n2, fun t => f ((1 - t) / 2) 0); (pair_ n2 n3, fun t => f 0 ((1 - t) / 2)); (pair_ n3 n0, fun t => f ((t - 1) / 2) 0)].
Definition mapf (s : shape) : R -> R -> pt2 :=
  match s with Quad P => quad9 P | Rect o d => ortho_rect (fst o) (snd o) (fst d) (snd d) | Curved f _ => f | _ => fun _ _ => (0, 0) end.
Definition spokes (s : shape) (c : list Z) : list (node * (R -> pt2)) :=
  match s, c with
  | Triangle [A; B; C], [n0; n1; n2] =>
      let D := ((fst A + fst B + fst C) / 3, (snd A + snd B + snd C) / 3) in
      [(pair_ n0 n1, segment (half2 A B) D); (pair_ n1 n2, segment (half2 C B) D); (pair_ n0 n2, segment (half2 A C) D)]
  | _, [n0; n1; n2; n3] => spokes4 (mapf s) n0 n1 n2 n3
  | _, _ => []
  end.
Definition kind (s : shape) (m : list Z) (e : node * node * (R -> pt2)) : Prop :=
  let '(a, b, g) := e in
  (exists a0 b0 g0, In (a0, b0, g0) (edges s m) /\ a = Int a0 /\ b = pair_ a0 b0 /\ forall t, g t = g0 ((t - 1) / 2)) \/
  (exists a0 b0 g0, In (a0, b0, g0) (edges s m) /\ a = pair_ a0 b0 /\ b = Int b0 /\ forall t, g t = g0 ((t + 1) / 2)) \/
  (exists p h, In (p, h) (spokes s (cycle s m)) /\ a = p /\ b = Tup (cycle s m) /\ forall t, g t = h t) \/
  (exists p h, In (p, h) (spokes s (cycle s m)) /\ a = Tup (cycle s m) /\ b = p /\ forall t, g t = h (- t)).

Ltac at_f := unfold in_element2, axis; apply (f_equal2 _); field.
Lemma kind_quad s m f n0 n1 n2 n3 k o M gs e : cycle s m = [n0; n1; n2; n3] -> sides s = around f -> spokes s [n0; n1; n2; n3] = spokes4 f n0 n1 n2 n3 ->
  nth_error offsets k = Some o -> nth_error (quad_maps n0 n1 n2 n3) k = Some M ->
  Forall2 (fun g h : R -> pt2 => forall t, g t = h t) gs (around (in_element2 f (fst o) (snd o) 1 1)) ->
  In e (combine (ends M) gs) -> kind s m e.
Proof.
  intros C S Sp Ho HM F He. destruct e as [[a b] g]. unfold kind, edges. rewrite C, S, Sp.
  inversion F as [|g0 ? gs' ? G0 F1]; subst. inversion F1 as [|g1 ? gs'' ? G1 F2]; subst. inversion F2 as [|g2 ? gs3 ? G2 F3]; subst. inversion F3 as [|g3 ? gs4 ? G3 F4]; subst. inversion F4; subst. clear F F1 F2 F3 F4.
  unfold around, spokes4. cbn [ends combine app].
  destruct k as [|[|[|[|k]]]]; [| | | |destruct k; discriminate Ho]; injection Ho as <-; injection HM as <-; cbn [ends combine app] in He; cbn [fst snd] in *;
    destruct He as [[= <- <- <-]|[[= <- <- <-]|[[= <- <- <-]|[[= <- <- <-]|[]]]]].
  - left. exists n0, n1. eexists. split; [left; reflexivity|]. repeat split. intros t. rewrite G0. at_f.
  - right; right; left. eexists _, _. split; [left; reflexivity|]. repeat split. intros t. rewrite G1. at_f.
  - right; right; right. eexists _, _. split; [do 3 right; left; reflexivity|]. repeat split. intros t. rewrite G2. at_f.
  - right; left. exists n3, n0. eexists. split; [do 3 right; left; reflexivity|]. repeat split. intros t. rewrite G3. at_f.
  - right; left. exists n0, n1. eexists. split; [left; reflexivity|]. repeat split. intros t. rewrite G0. at_f.
  - left. exists n1, n2. eexists. split; [right; left; reflexivity|]. repeat split. intros t. rewrite G1. at_f.
  - right; right; left. eexists _, _. split; [right; left; reflexivity|]. repeat split. intros t. rewrite G2. at_f.
  - right; right; right. eexists _, _. split; [left; reflexivity|]. repeat split. intros t. rewrite G3. at_f.
  - right; right; right. eexists _, _. split; [right; left; reflexivity|]. repeat split. intros t. rewrite G0. at_f.
  - right; left. exists n1, n2. eexists. split; [right; left; reflexivity|]. repeat split. intros t. rewrite G1. at_f.
  - left. exists n2, n3. eexists. split; [do 2 right; left; reflexivity|]. repeat split. intros t. rewrite G2. at_f.
  - right; right; left. eexists _, _. split; [do 2 right; left; reflexivity|]. repeat split. intros t. rewrite G3. at_f.
  - right; right; left. eexists _, _. split; [do 3 right; left; reflexivity|]. repeat split. intros t. rewrite G0. at_f.
  - right; right; right. eexists _, _. split; [do 2 right; left; reflexivity|]. repeat split. intros t. rewrite G1. at_f.
  - right; left. exists n2, n3. eexists. split; [do 2 right; left; reflexivity|]. repeat split. intros t. rewrite G2. at_f.
  - left. exists n3, n0. eexists. split; [do 3 right; left; reflexivity|]. repeat split. intros t. rewrite G3. at_f.
Qed.

Lemma kind_triangle A B C n0 n1 n2 x s' m' e : In (x, s', m') (split_triangle A B C n0 n1 n2) -> In e (edges s' m') -> kind (Triangle [A; B; C]) [n0; n1; n2] e.
Proof.
  destruct A as [ax ay], B as [bx by_], C as [cx cy].
  intros H He. destruct e as [[a b] g]. unfold kind. unfold edges at 1 2. cbn [cycle sides ends combine app spokes].
  destruct H as [[= <- <- <-]|[[= <- <- <-]|[[= <- <- <-]|[]]]]; unfold edges, sides, around, cycle in He; cbn [ends combine app] in He;
    destruct He as [[= <- <- <-]|[[= <- <- <-]|[[= <- <- <-]|[[= <- <- <-]|[]]]]].
  - left. exists n0, n1. eexists. split; [left; reflexivity|]. repeat split. intros t. q9. apply (f_equal2 pair); field.
  - right; right; left. eexists _, _. split; [left; reflexivity|]. repeat split. intros t. q9. apply (f_equal2 pair); field.
  - right; right; right. eexists _, _. split; [do 2 right; left; reflexivity|]. repeat split. intros t. q9. apply (f_equal2 pair); field.
  - right; left. exists n2, n0. eexists. split; [do 2 right; left; reflexivity|]. split; [apply pair_swap|]. split; [reflexivity|]. intros t. q9. apply (f_equal2 pair); field.
  - left. exists n1, n2. eexists. split; [right; left; reflexivity|]. repeat split. intros t. q9. apply (f_equal2 pair); field.
  - right; right; left. eexists _, _. split; [right; left; reflexivity|]. repeat split. intros t. q9. apply (f_equal2 pair); field.
  - right; right; right. eexists _, _. split; [left; reflexivity|]. repeat split. intros t. q9. apply (f_equal2 pair); field.
  - right; left. exists n0, n1. eexists. split; [left; reflexivity|]. repeat split. intros t. q9. apply (f_equal2 pair); field.
  - left. exists n2, n0. eexists. split; [do 2 right; left; reflexivity|]. split; [reflexivity|]. split; [apply pair_swap|]. intros t. q9. apply (f_equal2 pair); field.
  - right; right; left. eexists _, _. split; [do 2 right; left; reflexivity|]. repeat split. intros t. q9. apply (f_equal2 pair); field.
  - right; right; right. eexists _, _. split; [right; left; reflexivity|]. repeat split. intros t. q9. apply (f_equal2 pair); field.
  - right; left. exists n1, n2. eexists. split; [right; left; reflexivity|]. repeat split. intros t. q9. apply (f_equal2 pair); field.
Qed.

Lemma four_in suf ss ms x s m : In (x, s, m) (four suf ss ms) -> exists k, nth_error ss k = Some s /\ nth_error ms k = Some m /\ (k < 4)%nat.
Proof.
  unfold four. intros H. apply in_map_iff in H as ([[y s0] m0] & [= <- <- <-] & H). apply In_nth_error in H as [k H].
  exists k. assert (G : forall {A B} (l : list A) (l' : list B) k p, nth_error (combine l l') k = Some p -> nth_error l k = Some (fst p) /\ nth_error l' k = Some (snd p)).
  { clear. intros A B. induction l as [|u l IH]; intros [|v l'] [|k] p; cbn; try discriminate.
    - intros [= <-]. auto.
    - apply IH. }
  apply G in H as [H H2]. apply G in H as [H0 H1]. cbn in *. repeat split; auto.
  assert (K : (k < length ["0"; "1"; "2"; "3"]%string)%nat) by (apply nth_error_Some; congruence). cbn in K. lia.
Qed.
Lemma nth_map_some {A B} (f : A -> B) l k y : nth_error (map f l) k = Some y -> exists x, nth_error l k = Some x /\ y = f x.
Proof. revert k. induction l as [|a l IH]; intros [|k]; cbn; try discriminate; [intros [= <-]; eauto|apply IH]. Qed.
Lemma offset_at k : (k < 4)%nat -> exists o, nth_error offsets k = Some o.
Proof. intros K. destruct (nth_error offsets k) eqn:E; eauto. apply nth_error_None in E. cbn in E. lia. Qed.

(** the children of a quadrilateral: parts of its mapping, with the four maps *)
Definition is_part (f : R -> R -> pt2) (o : R * R) (s' : shape) : Prop :=
  (exists P, s' = Quad P /\ length P = 4%nat /\ forall xi et, quad9 P xi et = in_element2 f (fst o) (snd o) 1 1 xi et) \/
  (exists J, s' = Curved (in_element2 f (fst o) (snd o) 1 1) J).
Lemma paras_length A B C D k P : nth_error (quad_paras A B C D) k = Some P -> length P = 4%nat.
Proof. destruct k as [|[|[|[|k]]]]; try (intros [= <-]; reflexivity). destruct k; discriminate. Qed.
Lemma children4 s m c n0 n1 n2 n3 x s' m' : cycle s m = [n0; n1; n2; n3] -> sound s m -> split_one s m = Some c -> In (x, s', m') c ->
  exists k o, nth_error offsets k = Some o /\ nth_error (quad_maps n0 n1 n2 n3) k = Some m' /\ is_part (mapf s) o s'.
Proof.
  intros C [_ So] E H. destruct s as [P|P|o d| | |f J|]; try (destruct So; fail).
  - destruct So as [_ L]. cbn in C. subst m. discriminate.
  - destruct So as [L1 L]. cbn in C. subst m. destruct P as [|A [|B [|C0 [|D [|? ?]]]]]; try discriminate. injection E as <-.
    apply four_in in H as (k & Hs & Hm & K). destruct (offset_at k K) as [o Ho]. exists k, o. split; auto. split; auto.
    apply nth_map_some in Hs as (P & HP & ->). left. exists P. split; auto. split; [eapply paras_length; eauto|]. intros xi et. apply (quad_child A B C0 D k o P xi et Ho HP).
  - destruct m as [|a [|b [|d0 [|c0 [|? ?]]]]]; try discriminate. cbn in C. injection C as -> -> -> ->. injection E as <-.
    apply four_in in H as (k & Hs & Hm & K). destruct (offset_at k K) as [o' Ho]. exists k, o'. split; auto. split; auto.
    apply nth_map_some in Hs as (P & HP & ->). left. exists P. split; auto. split; [eapply paras_length; eauto|]. intros xi et.
    rewrite (quad_child _ _ _ _ k o' P xi et Ho HP). unfold in_element2. destruct o as [ox oy], d as [dx dy]. cbn [fst snd mapf]. apply rect_quad.
  - cbn in C. subst m. injection E as <-. apply four_in in H as (k & Hs & Hm & K). destruct (offset_at k K) as [o Ho]. exists k, o. split; auto. split; auto.
    right. destruct k as [|[|[|[|k]]]]; [| | | |lia]; injection Ho as <-; injection Hs as <-; eexists; reflexivity.
Qed.
Lemma sides4 s m n0 n1 n2 n3 : cycle s m = [n0; n1; n2; n3] -> sound s m -> sides s = around (mapf s) /\ spokes s [n0; n1; n2; n3] = spokes4 (mapf s) n0 n1 n2 n3.
Proof.
  intros C [_ So]. destruct s as [P|P|o d| | |f J|]; try (destruct So; fail); try (split; reflexivity).
  destruct So as [_ L]. cbn in C. subst m. discriminate.
Qed.
Lemma sound_cases (s : shape) (m : list Z) : sound s m ->
  (exists A B C n0 n1 n2, s = Triangle [A; B; C] /\ m = [n0; n1; n2]) \/ (exists n0 n1 n2 n3, cycle s m = [n0; n1; n2; n3]).
Proof.
  intros [_ So]. destruct s as [P|P|o d| | |f J|]; try (destruct So; fail).
  - destruct So as [L1 L2]. destruct P as [|A [|B [|C [|? ?]]]]; try discriminate. destruct m as [|a [|b [|c [|? ?]]]]; try discriminate. left. repeat eexists.
  - destruct So as [L1 L2]. right. destruct m as [|a [|b [|c [|d [|? ?]]]]]; try discriminate. repeat eexists.
  - right. destruct m as [|a [|b [|c [|d' [|? ?]]]]]; try discriminate. repeat eexists.
  - right. destruct m as [|a [|b [|c [|d' [|? ?]]]]]; try discriminate. repeat eexists.
Qed.
Lemma sound_cycle {N} (s : shape) (m : list N) : sound s m -> NoDup (cycle s m).
Proof.
  intros [ND So]. destruct s as [P|P|o d| | |f J|]; try exact ND. destruct m as [|a [|b [|c [|d' [|? ?]]]]]; try exact ND. cbn.
  repeat match goal with H : NoDup (_ :: _) |- _ => inversion H; clear H; subst end. cbn [In] in *.
  repeat constructor; cbn [In]; intuition congruence.
Qed.
Lemma part_sides f o s' : is_part f o s' -> Forall2 (fun g h : R -> pt2 => forall t, g t = h t) (sides s') (around (in_element2 f (fst o) (snd o) 1 1)).
Proof.
  intros [(P & -> & _ & E)|(J & ->)]; unfold sides, around; repeat constructor; intros t; cbn beta; auto.
Qed.
Lemma part_cycle {N} f o s' (m : list N) : is_part f o s' -> cycle s' m = m.
Proof. intros [(P & -> & _)|(J & ->)]; reflexivity. Qed.

Lemma child_kind s m c x s' m' e : sound s m -> split_one s m = Some c -> In (x, s', m') c -> In e (edges s' m') -> kind s m e.
Proof.
  intros So E H He. destruct (sound_cases s m So) as [(A & B & C & n0 & n1 & n2 & -> & ->)|(n0 & n1 & n2 & n3 & C)].
  - injection E as <-. exact (kind_triangle A B C n0 n1 n2 x s' m' e H He).
  - destruct (children4 s m c n0 n1 n2 n3 x s' m' C So E H) as (k & o & Ho & HM & Pt). destruct (sides4 s m n0 n1 n2 n3 C So) as [S Sp].
    unfold edges in He. rewrite (part_cycle _ _ _ m' Pt) in He.
    exact (kind_quad s m (mapf s) n0 n1 n2 n3 k o m' (sides s') e C S Sp Ho HM (part_sides _ _ _ Pt) He).
Qed.

(** ** nodes of the children *)
Lemma spokes_pairs s m p h : sound s m -> In (p, h) (spokes s (cycle s m)) -> exists a b, p = pair_ a b.
Proof.
  intros So. destruct (sound_cases s m So) as [(A & B & C & n0 & n1 & n2 & -> & ->)|(n0 & n1 & n2 & n3 & C)].
  - cbn [cycle spokes In]. intros [[= <- <-]|[[= <- <-]|[[= <- <-]|[]]]]; eauto.
  - rewrite C. destruct (sides4 s m n0 n1 n2 n3 C So) as [_ ->]. cbn [spokes4 In]. intros [[= <- <-]|[[= <- <-]|[[= <- <-]|[[= <- <-]|[]]]]]; eauto.
Qed.
Lemma spokes_unique s m p h h' : sound s m -> In (p, h) (spokes s (cycle s m)) -> In (p, h') (spokes s (cycle s m)) -> h = h'.
Proof.
  intros So. pose proof (sound_cycle s m So) as ND. destruct (sound_cases s m So) as [(A & B & C & n0 & n1 & n2 & -> & ->)|(n0 & n1 & n2 & n3 & C)].
  - cbn [cycle spokes In] in *. repeat match goal with H : NoDup (_ :: _) |- _ => inversion H; clear H; subst end. cbn [In] in *.
    intros [H|[H|[H|[]]]] [H'|[H'|[H'|[]]]]; try congruence;
      pose proof (f_equal fst H) as Q; pose proof (f_equal fst H') as Q'; cbn [fst] in Q, Q'; rewrite <- Q in Q'; apply pair_inj in Q'; exfalso; intuition congruence.
  - rewrite C in *. destruct (sides4 s m n0 n1 n2 n3 C So) as [_ ->]. cbn [spokes4 In]. repeat match goal with H : NoDup (_ :: _) |- _ => inversion H; clear H; subst end. cbn [In] in *.
    intros [H|[H|[H|[H|[]]]]] [H'|[H'|[H'|[H'|[]]]]]; try congruence;
      pose proof (f_equal fst H) as Q; pose proof (f_equal fst H') as Q'; cbn [fst] in Q, Q'; rewrite <- Q in Q'; apply pair_inj in Q'; exfalso; intuition congruence.
Qed.
Lemma pair_not_long a b (l : list Z) : pair_ a b = Tup l -> length l = 2%nat.
Proof. destruct (pair_length a b) as (x & y & ->). intros [= <-]. reflexivity. Qed.
Lemma cycle_length (s : shape) (m : list Z) : sound s m -> (3 <= length (cycle s m))%nat.
Proof. intros So. destruct (sound_cases s m So) as [(A & B & C & n0 & n1 & n2 & -> & ->)|(n0 & n1 & n2 & n3 & ->)]; cbn; lia. Qed.
Lemma pair_centre a b (s : shape) (m : list Z) : sound s m -> pair_ a b <> Tup (cycle s m).
Proof. intros So E. apply pair_not_long in E. pose proof (cycle_length s m So). lia. Qed.

(** maps of the children: different nodes, one old node each, and the centre *)
Lemma child_sound s m c x s' m' : sound s m -> split_one s m = Some c -> In (x, s', m') c -> sound s' m' /\ cycle s' m' = m'.
Proof.
  intros So E H. pose proof (sound_cycle s m So) as ND. destruct (sound_cases s m So) as [(A & B & C & n0 & n1 & n2 & -> & ->)|(n0 & n1 & n2 & n3 & C)].
  - injection E as <-. cbn [cycle] in ND. repeat match goal with H : NoDup (_ :: _) |- _ => inversion H; clear H; subst end. cbn [In] in *.
    assert (T : forall a b, pair_ a b <> Tup [n0; n1; n2]) by (intros a b; apply (pair_centre a b (Triangle [A; B; C]) [n0; n1; n2] So)).
    assert (I : forall z a b, Int z <> pair_ a b) by (intros; unfold pair_; discriminate).
    destruct H as [[= <- <- <-]|[[= <- <- <-]|[[= <- <- <-]|[]]]]; (split; [|reflexivity]); (split; [|split; reflexivity]);
      repeat constructor; cbn [In]; intros K;
      repeat match type of K with _ \/ _ => destruct K as [K|K] end; auto; try discriminate;
      try (symmetry in K; now apply I in K); try (now apply I in K); try (now apply T in K); try (symmetry in K; now apply T in K);
      apply pair_inj in K; intuition congruence.
  - rewrite C in ND. destruct (children4 s m c n0 n1 n2 n3 x s' m' C So E H) as (k & o & Ho & HM & Pt). split; [|exact (part_cycle _ _ _ m' Pt)].
    assert (G : NoDup m' /\ length m' = 4%nat).
    { repeat match goal with H : NoDup (_ :: _) |- _ => inversion H; clear H; subst end. cbn [In] in *.
      assert (T : forall a b, pair_ a b <> Tup [n0; n1; n2; n3]) by (intros a b; rewrite <- C; apply (pair_centre a b s m So)).
      assert (I : forall z a b, Int z <> pair_ a b) by (intros; unfold pair_; discriminate).
      destruct k as [|[|[|[|k]]]]; [| | | |destruct k; discriminate HM]; injection HM as <-; (split; [|reflexivity]);
      repeat constructor; cbn [In]; intros K;
      repeat match type of K with _ \/ _ => destruct K as [K|K] end; auto; try discriminate;
      try (symmetry in K; now apply I in K); try (now apply I in K); try (now apply T in K); try (symmetry in K; now apply T in K);
      apply pair_inj in K; intuition congruence. }
    destruct G as [G1 G2]. split; auto. destruct Pt as [(P & -> & L & _)|(J & ->)]; auto.
Qed.
Lemma child_centre s m c x s' m' : sound s m -> split_one s m = Some c -> In (x, s', m') c ->
  In (Tup (cycle s m)) m' /\ forall l, In (Tup l) m' -> (3 <= length l)%nat -> l = cycle s m.
Proof.
  intros So E H. destruct (sound_cases s m So) as [(A & B & C & n0 & n1 & n2 & -> & ->)|(n0 & n1 & n2 & n3 & C)].
  - injection E as <-. cbn [cycle].
    destruct H as [[= <- <- <-]|[[= <- <- <-]|[[= <- <- <-]|[]]]]; (split; [cbn [In]; auto 6|]); intros l K L; cbn [In] in K;
      repeat match type of K with _ \/ _ => destruct K as [K|K] end; try discriminate; try contradiction; try (injection K as <-; reflexivity);
      apply pair_not_long in K; lia.
  - rewrite C. destruct (children4 s m c n0 n1 n2 n3 x s' m' C So E H) as (k & o & Ho & HM & Pt).
    destruct k as [|[|[|[|k]]]]; [| | | |destruct k; discriminate HM]; injection HM as <-; (split; [cbn [In]; auto 6|]); intros l K L; cbn [In] in K;
      repeat match type of K with _ \/ _ => destruct K as [K|K] end; try discriminate; try contradiction; try (injection K as <-; reflexivity);
      apply pair_not_long in K; lia.
Qed.
Lemma child_distinct s m c : sound s m -> split_one s m = Some c -> NoDup (map snd c).
Proof.
  intros So E. pose proof (sound_cycle s m So) as ND. pose proof (sound_cases s m So) as Cs.
  assert (I : forall z a b, Int z <> pair_ a b) by (intros; unfold pair_; discriminate).
  assert (Hd : forall l : list (list node), NoDup (map (hd_error (A:=node)) l) -> NoDup l) by (intros l; apply NoDup_map_inv).
  assert (M4 : forall n0 n1 n2 n3, cycle s m = [n0; n1; n2; n3] -> NoDup (quad_maps n0 n1 n2 n3)).
  { intros n0 n1 n2 n3 C. rewrite C in ND. apply Hd. cbn [map quad_maps hd_error].
    assert (T : forall a b, pair_ a b <> Tup [n0; n1; n2; n3]) by (intros a b; rewrite <- C; apply (pair_centre a b s m So)).
    repeat match goal with H : NoDup (_ :: _) |- _ => inversion H; clear H; subst end. cbn [In] in *.
    repeat constructor; cbn [In]; intros K; repeat match type of K with _ \/ _ => destruct K as [K|K] end; auto; try discriminate;
      match type of K with Some ?a = Some ?b => assert (K' : a = b) by congruence; clear K end;
      first [now apply T in K'|symmetry in K'; now apply T in K'|apply pair_inj in K'; intuition congruence]. }
  destruct Cs as [(A & B & C & n0 & n1 & n2 & -> & ->)|(n0 & n1 & n2 & n3 & C)].
  - injection E as <-. apply Hd. cbn [split_triangle map snd hd_error]. cbn [cycle] in ND.
    repeat match goal with H : NoDup (_ :: _) |- _ => inversion H; clear H; subst end. cbn [In] in *.
    repeat constructor; cbn [In]; intuition congruence.
  - specialize (M4 n0 n1 n2 n3 C).
    assert (Q : map snd c = quad_maps n0 n1 n2 n3); [|rewrite Q; exact M4].
    destruct So as [_ So]. destruct s as [P|P|o d| | |f J|]; try (destruct So; fail).
    + destruct So as [_ L]. cbn in C. subst m. discriminate.
    + destruct So as [L1 L]. cbn in C. subst m. destruct P as [|A [|B [|C0 [|D [|? ?]]]]]; try discriminate. injection E as <-. reflexivity.
    + destruct m as [|a [|b [|d0 [|c0 [|? ?]]]]]; try discriminate. cbn in C. injection C as -> -> -> ->. injection E as <-. reflexivity.
    + cbn in C. subst m. injection E as <-. reflexivity.
Qed.

(** ** all elements *)
Lemma split_all_in es ls x s' m' : split_all es = Some ls -> In (x, s', m') ls ->
  exists e s m c y, In (e, s, m) es /\ split_one s m = Some c /\ In (y, s', m') c /\ x = append e y.
Proof.
  revert ls. induction es as [|[[e s] m] es IH]; intros ls; cbn.
  - intros [= <-] [].
  - destruct (split_one s m) as [c|] eqn:E; [|discriminate]. destruct (split_all es) as [t|]; [|discriminate]. intros [= <-] H. apply in_app_or in H as [H|H].
    + apply in_map_iff in H as ([[y s0] m0] & [= <- <- <-] & H). exists e, s, m, c, y. auto.
    + destruct (IH t eq_refl H) as (e0 & s0 & m0 & c0 & y & H1 & H2 & H3 & H4). exists e0, s0, m0, c0, y. auto.
Qed.
Lemma plane_in {X N} (es : list (X * shape * list N)) s m : In (s, m) (plane_elements es) <-> exists e, In (e, s, m) es.
Proof.
  unfold plane_elements. rewrite in_map_iff. split.
  - intros ([[e s0] m0] & [= <- <-] & H). eauto.
  - intros (e & H). exists (e, s, m). auto.
Qed.
Lemma cycle_same {X N} (es : list (X * shape * list N)) s m s2 m2 : NoDup (map (fun q => cycle (fst q) (snd q)) (plane_elements es)) ->
  In (s, m) (plane_elements es) -> In (s2, m2) (plane_elements es) -> cycle s m = cycle s2 m2 -> (s, m) = (s2, m2).
Proof.
  intros ND H1 H2 E. remember (plane_elements es) as l. clear Heql. induction l as [|q l IH]; [destruct H1|]. cbn in ND. inversion ND as [|? ? NI ND']; subst.
  destruct H1 as [->|H1], H2 as [H2|H2]; auto.
  - exfalso. apply NI. cbn. rewrite E. apply (in_map (fun q => cycle (fst q) (snd q)) l (s2, m2) H2).
  - subst q. exfalso. apply NI. cbn. rewrite <- E. apply (in_map (fun q => cycle (fst q) (snd q)) l (s, m) H1).
Qed.

Lemma pair_cancel_l a b c : pair_ a b = pair_ a c -> b = c.
Proof. intros H. apply pair_inj in H. intuition congruence. Qed.
Lemma pair_cancel_r a b c : pair_ a c = pair_ b c -> a = b.
Proof. intros H. apply pair_inj in H. intuition congruence. Qed.
Lemma int_pair z a b : Int z <> pair_ a b.
Proof. unfold pair_. discriminate. Qed.

Lemma kinds_agree (es : list element) s m s2 m2 a b g a' b' g' : conforming (plane_elements es) -> In (s, m) (plane_elements es) -> In (s2, m2) (plane_elements es) ->
  kind s m (a, b, g) -> kind s2 m2 (a', b', g') -> (a = a' -> b = b' -> forall t, g t = g' t) /\ (a = b' -> b = a' -> forall t, g t = g' (- t)).
Proof.
  intros (So & ND & Ag) H1 H2. rewrite Forall_forall in So. pose proof (So _ H1) as S1. pose proof (So _ H2) as S2. cbn [fst snd] in S1, S2.
  assert (Ed : forall x y h x' y' h', In (x, y, h) (edges s m) -> In (x', y', h') (edges s2 m2) -> (x = x' -> y = y' -> forall t, h t = h' t) /\ (x = y' -> y = x' -> forall t, h t = h' (- t))).
  { intros x y h x' y' h'. apply (Ag (s, m) (s2, m2) x y h x' y' h' H1 H2). }
  assert (Sp : forall p h p' h', In (p, h) (spokes s (cycle s m)) -> In (p', h') (spokes s2 (cycle s2 m2)) -> Tup (cycle s m) = Tup (cycle s2 m2) -> p = p' -> h = h').
  { intros p h p' h' I1 I2 E <-. assert (E' : cycle s m = cycle s2 m2) by congruence.
    pose proof (cycle_same es s m s2 m2 ND H1 H2 E') as E2. injection E2 as <- <-. exact (spokes_unique s m p h h' S1 I1 I2). }
  assert (P1 : forall p h, In (p, h) (spokes s (cycle s m)) -> (forall z, Int z <> p) /\ p <> Tup (cycle s m) /\ p <> Tup (cycle s2 m2)).
  { intros p h I. apply spokes_pairs in I as (u & v & ->); auto. split; [intros; apply int_pair|]. split; apply pair_centre; auto. }
  assert (P2 : forall p h, In (p, h) (spokes s2 (cycle s2 m2)) -> (forall z, Int z <> p) /\ p <> Tup (cycle s m) /\ p <> Tup (cycle s2 m2)).
  { intros p h I. apply spokes_pairs in I as (u & v & ->); auto. split; [intros; apply int_pair|]. split; apply pair_centre; auto. }
  unfold kind.
  intros [(a0 & b0 & g0 & I & -> & -> & G)|[(a0 & b0 & g0 & I & -> & -> & G)|[(p & h & I & -> & -> & G)|(p & h & I & -> & -> & G)]]]
    [(a1 & b1 & g1 & I' & -> & -> & G')|[(a1 & b1 & g1 & I' & -> & -> & G')|[(p' & h' & I' & -> & -> & G')|(p' & h' & I' & -> & -> & G')]]];
    try (specialize (P1 _ _ I) as (N1 & N2 & N3)); try (specialize (P2 _ _ I') as (N1' & N2' & N3'));
    (split; intros E1 E2 t; try discriminate E1; try discriminate E2; try (exfalso; now apply int_pair in E1); try (exfalso; now apply int_pair in E2);
     try (exfalso; symmetry in E1; now apply int_pair in E1); try (exfalso; symmetry in E2; now apply int_pair in E2);
     try (exfalso; now apply N1 in E1); try (exfalso; now apply N1' in E1); try (exfalso; now apply N1 in E2); try (exfalso; now apply N1' in E2);
     try (exfalso; symmetry in E1; now apply N1 in E1); try (exfalso; symmetry in E1; now apply N1' in E1); try (exfalso; symmetry in E2; now apply N1 in E2); try (exfalso; symmetry in E2; now apply N1' in E2);
     try congruence).
  - injection E1 as <-. apply pair_cancel_l in E2 as <-. rewrite G, G'. apply (proj1 (Ed _ _ _ _ _ _ I I')); auto.
  - injection E1 as <-. rewrite (pair_swap a1 a0) in E2. apply pair_cancel_l in E2 as <-. rewrite G, G'.
    rewrite (proj2 (Ed _ _ _ _ _ _ I I')) by auto. f_equal. field.
  - injection E2 as <-. rewrite (pair_swap b0 b1) in E1. apply pair_cancel_r in E1 as <-. rewrite G, G'.
    rewrite (proj2 (Ed _ _ _ _ _ _ I I')) by auto. f_equal. field.
  - injection E2 as <-. apply pair_cancel_r in E1 as <-. rewrite G, G'. apply (proj1 (Ed _ _ _ _ _ _ I I')); auto.
  - rewrite G, G', (Sp _ _ _ _ I I' E2 E1). reflexivity.
  - rewrite G, G'. rewrite (Sp _ _ _ _ I I' E2 E1). f_equal. ring.
  - rewrite G, G'. rewrite (Sp _ _ _ _ I I' E1 E2). reflexivity.
  - rewrite G, G'. rewrite (Sp _ _ _ _ I I' E1 E2). reflexivity.
Qed.

Lemma NoDup_app_disj {A} (l l' : list A) : NoDup l -> NoDup l' -> (forall x, In x l -> In x l' -> False) -> NoDup (l ++ l').
Proof.
  induction l as [|a l IH]; cbn; auto. intros N N' D. inversion N; subst. constructor.
  - intros H. apply in_app_or in H as [H|H]; [contradiction|]. apply (D a); auto.
  - apply IH; auto. intros x Hx Hx'. apply (D x); auto.
Qed.
Lemma labelled_cycles es ls : Forall (fun q => sound (fst q) (snd q)) (plane_elements es) -> split_all es = Some ls ->
  map (fun q => cycle (fst q) (snd q)) (plane_elements ls) = map snd ls.
Proof.
  intros So E. unfold plane_elements. rewrite map_map. apply map_ext_in. intros [[x s'] m'] H. cbn [fst snd].
  destruct (split_all_in es ls x s' m' E H) as (e & s & m & c & y & H1 & H2 & H3 & _). rewrite Forall_forall in So.
  assert (S1 : sound s m) by (apply (So (s, m)); apply plane_in; eauto). exact (proj2 (child_sound s m c y s' m' S1 H2 H3)).
Qed.
Lemma labelled_distinct es ls : Forall (fun q => sound (fst q) (snd q)) (plane_elements es) -> NoDup (map (fun q => cycle (fst q) (snd q)) (plane_elements es)) ->
  split_all es = Some ls -> NoDup (map snd ls).
Proof.
  revert ls. induction es as [|[[e s] m] es IH]; intros ls So ND; cbn.
  - intros [= <-]. constructor.
  - destruct (split_one s m) as [c|] eqn:E; [|discriminate]. destruct (split_all es) as [t|] eqn:Et; [|discriminate]. intros [= <-].
    cbn in So, ND. inversion So as [|? ? S1 S2]; subst. inversion ND as [|? ? N1 N2]; subst. cbn [fst snd] in *.
    rewrite map_app, map_map. rewrite (map_ext _ (@snd (string * shape) (list node))) by (intros [[? ?] ?]; reflexivity).
    apply NoDup_app_disj.
    + eapply child_distinct; eauto.
    + apply IH; auto.
    + intros M H H'. apply in_map_iff in H as ([[y s1] m1] & <- & H). apply in_map_iff in H' as ([[x s2] m2] & E2 & H'). cbn [snd] in *. subst m2.
      destruct (split_all_in es t x s2 m1 Et H') as (e3 & s3 & m3 & c3 & y3 & K1 & K2 & K3 & _).
      assert (S3 : sound s3 m3) by (rewrite Forall_forall in S2; apply (S2 (s3, m3)); apply plane_in; eauto).
      destruct (child_centre s m c y s1 m1 S1 E H) as [C1 C2]. destruct (child_centre s3 m3 c3 y3 s2 m1 S3 K2 K3) as [C3 C4].
      apply N1. rewrite <- (C2 _ C3 (cycle_length s3 m3 S3)). apply (in_map (fun q => cycle (fst q) (snd q)) (plane_elements es) (s3, m3)). apply plane_in. eauto.
Qed.
Lemma split_all_conforming es ls : conforming (plane_elements es) -> split_all es = Some ls -> conforming (plane_elements ls).
Proof.
  intros Cf E. pose proof Cf as (So & ND & _). split; [|split].
  - apply Forall_forall. intros [s' m'] H. apply plane_in in H as (x & H). destruct (split_all_in es ls x s' m' E H) as (e & s & m & c & y & H1 & H2 & H3 & _).
    rewrite Forall_forall in So. assert (S1 : sound s m) by (apply (So (s, m)); apply plane_in; eauto). exact (proj1 (child_sound s m c y s' m' S1 H2 H3)).
  - rewrite (labelled_cycles es ls So E). exact (labelled_distinct es ls So ND E).
  - intros [s1 m1] [s2 m2] a b g a' b' g' H1 H2 I1 I2. cbn [fst snd] in *. apply plane_in in H1 as (x1 & H1). apply plane_in in H2 as (x2 & H2).
    destruct (split_all_in es ls x1 s1 m1 E H1) as (e3 & s3 & m3 & c3 & y3 & K1 & K2 & K3 & _).
    destruct (split_all_in es ls x2 s2 m2 E H2) as (e4 & s4 & m4 & c4 & y4 & L1 & L2 & L3 & _).
    assert (P3 : In (s3, m3) (plane_elements es)) by (apply plane_in; eauto). assert (P4 : In (s4, m4) (plane_elements es)) by (apply plane_in; eauto).
    rewrite Forall_forall in So. pose proof (So _ P3) as S3. pose proof (So _ P4) as S4.
    apply (kinds_agree es s3 m3 s4 m4 a b g a' b' g' Cf P3 P4).
    + exact (child_kind s3 m3 c3 y3 s1 m1 _ S3 K2 K3 I1).
    + exact (child_kind s4 m4 c4 y4 s2 m2 _ S4 L2 L3 I2).
Qed.

(** ** renaming of the nodes *)
Lemma cycle_map {N N'} (f : N -> N') s m : cycle s (map f m) = map f (cycle s m).
Proof. destruct s; try reflexivity. destruct m as [|a [|b [|c [|d' [|? ?]]]]]; reflexivity. Qed.
Lemma combine_map_both {A A' B} (f : A -> A') (l : list A) (l' : list B) : combine (map f l) l' = map (fun p => (f (fst p), snd p)) (combine l l').
Proof. revert l'. induction l as [|a l IH]; intros [|b l']; cbn; auto. rewrite IH. reflexivity. Qed.
Lemma combine_map2 {A A' B B'} (f : A -> A') (h : B -> B') (l : list A) (l' : list B) : combine (map f l) (map h l') = map (fun p => (f (fst p), h (snd p))) (combine l l').
Proof. revert l'. induction l as [|a l IH]; intros [|b l']; cbn; auto. rewrite IH. reflexivity. Qed.
Lemma ends_map {N N'} (f : N -> N') c : ends (map f c) = map (fun e => (f (fst e), f (snd e))) (ends c).
Proof. destruct c as [|a c]; [reflexivity|]. unfold ends. cbn [map]. change [f a] with (map f [a]). rewrite <- map_app. exact (combine_map2 f f (a :: c) (c ++ [a])). Qed.
Lemma edges_map {N N'} (f : N -> N') s m : edges s (map f m) = map (fun e => let '(a, b, g) := e in (f a, f b, g)) (edges s m).
Proof.
  unfold edges. rewrite cycle_map, ends_map, combine_map_both. apply map_ext. intros [[a b] g]. reflexivity.
Qed.
Lemma cycle_in {N} s (m : list N) a : In a (cycle s m) <-> In a m.
Proof. destruct s; try reflexivity. destruct m as [|u [|b [|c [|d' [|? ?]]]]]; try reflexivity. cbn. tauto. Qed.
Lemma edges_nodes {N} s (m : list N) a b g : In (a, b, g) (edges s m) -> In a m /\ In b m.
Proof.
  unfold edges. intros H. apply in_combine_l in H. rewrite <- (cycle_in s m a), <- (cycle_in s m b). destruct (cycle s m) as [|c l]; [destruct H|]. unfold ends in H.
  split; [eapply in_combine_l; eauto|]. apply in_combine_r in H. apply in_app_or in H as [H|[<-|[]]]; cbn; auto.
Qed.
Lemma map_inj_list {N N'} (f : N -> N') (l l' : list N) : (forall x y, In x l -> In y l' -> f x = f y -> x = y) -> map f l = map f l' -> l = l'.
Proof.
  revert l'. induction l as [|a l IH]; intros [|b l'] I; try discriminate; auto. cbn. intros [= H1 H2].
  f_equal; [apply I; cbn; auto|]. apply IH; auto. intros x y Hx Hy. apply I; cbn; auto.
Qed.
Lemma NoDup_map_on {A B} (f : A -> B) l : (forall x y, In x l -> In y l -> f x = f y -> x = y) -> NoDup l -> NoDup (map f l).
Proof.
  induction l as [|a l IH]; intros I N; cbn; constructor; inversion N; subst.
  - intros H. apply in_map_iff in H as (y & E & H). apply I in E; cbn; auto. subst. contradiction.
  - apply IH; auto. intros x y Hx Hy. apply I; cbn; auto.
Qed.
Lemma conforming_rename {N N'} (f : N -> N') (els : list (shape * list N)) :
  (forall x y, In x (concat (map snd els)) -> In y (concat (map snd els)) -> f x = f y -> x = y) ->
  conforming els -> conforming (map (fun q => (fst q, map f (snd q))) els).
Proof.
  intros I (So & ND & Ag).
  assert (Nd : forall q x, In q els -> In x (snd q) -> In x (concat (map snd els))).
  { intros q x H Hx. apply in_concat. exists (snd q). split; auto. apply in_map. exact H. }
  split; [|split].
  - rewrite Forall_forall in *. intros q H. apply in_map_iff in H as (q0 & <- & H). cbn [fst snd]. specialize (So q0 H) as [N1 S1]. split.
    + apply NoDup_map_on; auto. intros x y Hx Hy. apply I; eapply Nd; eauto.
    + rewrite map_length. exact S1.
  - rewrite map_map. cbn [fst snd]. rewrite (map_ext _ (fun q => map f (cycle (fst q) (snd q)))) by (intros q; apply cycle_map).
    rewrite <- (map_map (fun q => cycle (fst q) (snd q)) (map f)). apply NoDup_map_on; auto.
    intros l l' H H'. apply in_map_iff in H as (q & <- & H). apply in_map_iff in H' as (q' & <- & H'). apply map_inj_list.
    intros x y Hx Hy. apply cycle_in in Hx, Hy. apply I; [exact (Nd q x H Hx)|exact (Nd q' y H' Hy)].
  - intros q q' a b g a' b' g' H H' E E'. apply in_map_iff in H as (p & <- & H). apply in_map_iff in H' as (p' & <- & H'). cbn [fst snd] in *.
    rewrite edges_map in E, E'. apply in_map_iff in E as ([[u v] h] & [= <- <- <-] & E). apply in_map_iff in E' as ([[u' v'] h'] & [= <- <- <-] & E').
    destruct (edges_nodes _ _ _ _ _ E) as [Hu Hv]. destruct (edges_nodes _ _ _ _ _ E') as [Hu' Hv'].
    destruct (Ag p p' u v h u' v' h' H H' E E') as [A1 A2].
    split; intros E1 E2; (apply I in E1; [|first [apply (Nd p); assumption|apply (Nd p'); assumption]|first [apply (Nd p); assumption|apply (Nd p'); assumption]]); (apply I in E2; [|first [apply (Nd p); assumption|apply (Nd p'); assumption]|first [apply (Nd p); assumption|apply (Nd p'); assumption]]); auto.
Qed.
