(** Boxes: the faces of children on a face of the parent, as neighbours see them. *)
From Coq Require Import List Arith ZArith Reals String Bool Lra Lia Permutation.
From Verif Require Import MappingModel SplitModel SplitSpec SplitThms.
Import List ListNotations.

Lemma zinsert_swap x y l : zinsert x (zinsert y l) = zinsert y (zinsert x l).
Proof.
  induction l as [|z l IH]; cbn [zinsert].
  - destruct (Z.leb_spec x y), (Z.leb_spec y x); auto; try lia. assert (x = y) by lia. congruence.
  - destruct (Z.leb_spec y z), (Z.leb_spec x z); cbn [zinsert];
      repeat (match goal with |- context [(?a <=? ?b)%Z] => destruct (Z.leb_spec a b) end); try lia; try congruence.
    all: try (assert (x = y) by lia; congruence).
Qed.
Lemma zsort_permutation l l' : Permutation l l' -> zsort l = zsort l'.
Proof. induction 1; cbn; auto; [congruence|apply zinsert_swap|congruence]. Qed.
Lemma pair_swap a b : pair_ a b = pair_ b a.
Proof. unfold pair_. f_equal. apply zsort_permutation. constructor. Qed.
Ltac pz :=
  match goal with
  | |- Permutation [] [] => apply perm_nil
  | |- Permutation (?x :: _) (?x :: _) => apply perm_skip; pz
  | |- Permutation (?x :: ?l) (?a :: ?x :: ?r) => apply (Permutation_cons_app [a] r x); cbn [app]; pz
  | |- Permutation (?x :: ?l) (?a :: ?b :: ?x :: ?r) => apply (Permutation_cons_app [a; b] r x); cbn [app]; pz
  | |- Permutation (?x :: ?l) (?a :: ?b :: ?c :: ?x :: ?r) => apply (Permutation_cons_app [a; b; c] r x); cbn [app]; pz
  end.

Lemma split_box_faces s m c F p q r t : is_box s -> split_one s m = Some c -> In F (faces m) -> In [p; q; r; t] (turns F) ->
  exists x s' m' G, In (x, s', m') c /\ In G (faces m') /\ Permutation G [Int p; pair_ p q; pair_ p r; quad_ p q r t].
Proof.
  intros Hs Hc HF HT.
  assert (B : exists o d nA nB nD nC nK nL nM nN, m = [nA; nB; nD; nC; nK; nL; nM; nN] /\ c = split_box o d nA nB nD nC nK nL nM nN).
  { destruct s; try contradiction; cbn in Hc.
    - do 8 (destruct m as [|? m]; try discriminate Hc). destruct m; [|discriminate]. injection Hc as <-. do 10 eexists. split; reflexivity.
    - do 8 (destruct m as [|? m]; try discriminate Hc). destruct m; [|discriminate].
      destruct (voxel_box P) as [[o d]|]; [|discriminate]. injection Hc as <-. do 10 eexists. split; reflexivity. }
  destruct B as (o & d & nA & nB & nD & nC & nK & nL & nM & nN & -> & ->). clear Hc Hs.
  destruct o as [[ox oy] oz], d as [[dx dy] dz].
  assert (K : forall i, nth_error (split_box (ox, oy, oz) (dx, dy, dz) nA nB nD nC nK nL nM nN) i <> None ->
     exists x s' m', In (x, s', m') (split_box (ox, oy, oz) (dx, dy, dz) nA nB nD nC nK nL nM nN) /\
        nth_error (map snd (split_box (ox, oy, oz) (dx, dy, dz) nA nB nD nC nK nL nM nN)) i = Some m').
  { intros i Hi. destruct (nth_error (split_box _ _ _ _ _ _ _ _ _ _) i) as [[[x s'] m']|] eqn:E; [|congruence].
    exists x, s', m'. split; [eapply nth_error_In; eauto|]. erewrite map_nth_error by exact E. reflexivity. }
  assert (P : forall i m', nth_error (map snd (split_box (ox, oy, oz) (dx, dy, dz) nA nB nD nC nK nL nM nN)) i = Some m' ->
     (exists G, In G (faces m') /\ Permutation G [Int p; pair_ p q; pair_ p r; quad_ p q r t]) ->
     exists x s' m'0 G, In (x, s', m'0) (split_box (ox, oy, oz) (dx, dy, dz) nA nB nD nC nK nL nM nN) /\ In G (faces m'0) /\ Permutation G [Int p; pair_ p q; pair_ p r; quad_ p q r t]).
  { intros i m' Hm [G HG]. destruct (K i) as (x & s' & m'' & H1 & H2).
    - intro E. rewrite nth_error_map, E in Hm. discriminate.
    - exists x, s', m'', G. assert (m'' = m') by congruence. subst. auto. }
  clear K.
  cbn [faces In] in HF.
  assert (Q4 : forall a b c0 d a' b' c' d', Permutation [a; b; c0; d] [a'; b'; c'; d'] -> quad_ a b c0 d = quad_ a' b' c' d')
    by (intros; unfold quad_; f_equal; apply zsort_permutation; assumption).
  Ltac swap_pairs := repeat match goal with |- Permutation ?G ?T =>
      match G with context [pair_ ?a ?b] => match T with context [pair_ b a] =>
        lazymatch T with context [pair_ a b] => fail | _ => replace (pair_ a b) with (pair_ b a) by apply pair_swap end end end end.
  Ltac same_quad Q4 := match goal with |- Permutation ?G ?T =>
      match G with context [quad_ ?a ?b ?c ?d] => match T with context [quad_ ?a' ?b' ?c' ?d'] =>
        rewrite (Q4 a b c d a' b' c' d') by pz end end end.
  Ltac try_child P Q4 i f := eapply (P i); [cbn [split_box map snd nth_error]; reflexivity|];
     cbn [faces]; eexists; split; [f|]; swap_pairs; try same_quad Q4; pz.
  Ltac try_face P Q4 f := first [try_child P Q4 0%nat f | try_child P Q4 1%nat f | try_child P Q4 2%nat f | try_child P Q4 3%nat f
                       | try_child P Q4 4%nat f | try_child P Q4 5%nat f | try_child P Q4 6%nat f | try_child P Q4 7%nat f].
  destruct HF as [<-|[<-|[<-|[<-|[<-|[<-|[]]]]]]].
  - cbn [turns In] in HT.
    destruct HT as [HT|HT]. { injection HT as <- <- <- <-. try_face P Q4 ltac:(left; reflexivity). }
    destruct HT as [HT|HT]. { injection HT as <- <- <- <-. try_face P Q4 ltac:(left; reflexivity). }
    destruct HT as [HT|HT]. { injection HT as <- <- <- <-. try_face P Q4 ltac:(left; reflexivity). }
    destruct HT as [HT|HT]. { injection HT as <- <- <- <-. try_face P Q4 ltac:(left; reflexivity). }
    destruct HT as [HT|HT]. { injection HT as <- <- <- <-. try_face P Q4 ltac:(left; reflexivity). }
    destruct HT as [HT|HT]. { injection HT as <- <- <- <-. try_face P Q4 ltac:(left; reflexivity). }
    destruct HT as [HT|HT]. { injection HT as <- <- <- <-. try_face P Q4 ltac:(left; reflexivity). }
    destruct HT as [HT|HT]. { injection HT as <- <- <- <-. try_face P Q4 ltac:(left; reflexivity). }
    contradiction.
  - cbn [turns In] in HT.
    destruct HT as [HT|HT]. { injection HT as <- <- <- <-. try_face P Q4 ltac:(right; left; reflexivity). }
    destruct HT as [HT|HT]. { injection HT as <- <- <- <-. try_face P Q4 ltac:(right; left; reflexivity). }
    destruct HT as [HT|HT]. { injection HT as <- <- <- <-. try_face P Q4 ltac:(right; left; reflexivity). }
    destruct HT as [HT|HT]. { injection HT as <- <- <- <-. try_face P Q4 ltac:(right; left; reflexivity). }
    destruct HT as [HT|HT]. { injection HT as <- <- <- <-. try_face P Q4 ltac:(right; left; reflexivity). }
    destruct HT as [HT|HT]. { injection HT as <- <- <- <-. try_face P Q4 ltac:(right; left; reflexivity). }
    destruct HT as [HT|HT]. { injection HT as <- <- <- <-. try_face P Q4 ltac:(right; left; reflexivity). }
    destruct HT as [HT|HT]. { injection HT as <- <- <- <-. try_face P Q4 ltac:(right; left; reflexivity). }
    contradiction.
  - cbn [turns In] in HT.
    destruct HT as [HT|HT]. { injection HT as <- <- <- <-. try_face P Q4 ltac:(right; right; left; reflexivity). }
    destruct HT as [HT|HT]. { injection HT as <- <- <- <-. try_face P Q4 ltac:(right; right; left; reflexivity). }
    destruct HT as [HT|HT]. { injection HT as <- <- <- <-. try_face P Q4 ltac:(right; right; left; reflexivity). }
    destruct HT as [HT|HT]. { injection HT as <- <- <- <-. try_face P Q4 ltac:(right; right; left; reflexivity). }
    destruct HT as [HT|HT]. { injection HT as <- <- <- <-. try_face P Q4 ltac:(right; right; left; reflexivity). }
    destruct HT as [HT|HT]. { injection HT as <- <- <- <-. try_face P Q4 ltac:(right; right; left; reflexivity). }
    destruct HT as [HT|HT]. { injection HT as <- <- <- <-. try_face P Q4 ltac:(right; right; left; reflexivity). }
    destruct HT as [HT|HT]. { injection HT as <- <- <- <-. try_face P Q4 ltac:(right; right; left; reflexivity). }
    contradiction.
  - cbn [turns In] in HT.
    destruct HT as [HT|HT]. { injection HT as <- <- <- <-. try_face P Q4 ltac:(right; right; right; left; reflexivity). }
    destruct HT as [HT|HT]. { injection HT as <- <- <- <-. try_face P Q4 ltac:(right; right; right; left; reflexivity). }
    destruct HT as [HT|HT]. { injection HT as <- <- <- <-. try_face P Q4 ltac:(right; right; right; left; reflexivity). }
    destruct HT as [HT|HT]. { injection HT as <- <- <- <-. try_face P Q4 ltac:(right; right; right; left; reflexivity). }
    destruct HT as [HT|HT]. { injection HT as <- <- <- <-. try_face P Q4 ltac:(right; right; right; left; reflexivity). }
    destruct HT as [HT|HT]. { injection HT as <- <- <- <-. try_face P Q4 ltac:(right; right; right; left; reflexivity). }
    destruct HT as [HT|HT]. { injection HT as <- <- <- <-. try_face P Q4 ltac:(right; right; right; left; reflexivity). }
    destruct HT as [HT|HT]. { injection HT as <- <- <- <-. try_face P Q4 ltac:(right; right; right; left; reflexivity). }
    contradiction.
  - cbn [turns In] in HT.
    destruct HT as [HT|HT]. { injection HT as <- <- <- <-. try_face P Q4 ltac:(right; right; right; right; left; reflexivity). }
    destruct HT as [HT|HT]. { injection HT as <- <- <- <-. try_face P Q4 ltac:(right; right; right; right; left; reflexivity). }
    destruct HT as [HT|HT]. { injection HT as <- <- <- <-. try_face P Q4 ltac:(right; right; right; right; left; reflexivity). }
    destruct HT as [HT|HT]. { injection HT as <- <- <- <-. try_face P Q4 ltac:(right; right; right; right; left; reflexivity). }
    destruct HT as [HT|HT]. { injection HT as <- <- <- <-. try_face P Q4 ltac:(right; right; right; right; left; reflexivity). }
    destruct HT as [HT|HT]. { injection HT as <- <- <- <-. try_face P Q4 ltac:(right; right; right; right; left; reflexivity). }
    destruct HT as [HT|HT]. { injection HT as <- <- <- <-. try_face P Q4 ltac:(right; right; right; right; left; reflexivity). }
    destruct HT as [HT|HT]. { injection HT as <- <- <- <-. try_face P Q4 ltac:(right; right; right; right; left; reflexivity). }
    contradiction.
  - cbn [turns In] in HT.
    destruct HT as [HT|HT]. { injection HT as <- <- <- <-. try_face P Q4 ltac:(right; right; right; right; right; left; reflexivity). }
    destruct HT as [HT|HT]. { injection HT as <- <- <- <-. try_face P Q4 ltac:(right; right; right; right; right; left; reflexivity). }
    destruct HT as [HT|HT]. { injection HT as <- <- <- <-. try_face P Q4 ltac:(right; right; right; right; right; left; reflexivity). }
    destruct HT as [HT|HT]. { injection HT as <- <- <- <-. try_face P Q4 ltac:(right; right; right; right; right; left; reflexivity). }
    destruct HT as [HT|HT]. { injection HT as <- <- <- <-. try_face P Q4 ltac:(right; right; right; right; right; left; reflexivity). }
    destruct HT as [HT|HT]. { injection HT as <- <- <- <-. try_face P Q4 ltac:(right; right; right; right; right; left; reflexivity). }
    destruct HT as [HT|HT]. { injection HT as <- <- <- <-. try_face P Q4 ltac:(right; right; right; right; right; left; reflexivity). }
    destruct HT as [HT|HT]. { injection HT as <- <- <- <-. try_face P Q4 ltac:(right; right; right; right; right; left; reflexivity). }
    contradiction.
Qed.
(** neighbours: the faces of their children on a common face have the same nodes *)
Lemma split_box_neighbours s m c s' m' c' F F' p q r t : is_box s -> split_one s m = Some c -> is_box s' -> split_one s' m' = Some c' ->
  In F (faces m) -> In F' (faces m') -> In F' (turns F) -> In [p; q; r; t] (turns F) ->
  exists e e' G G', In e c /\ In e' c' /\ In G (faces (snd e)) /\ In G' (faces (snd e')) /\ Permutation G G' /\ In (Int p) G.
Proof.
  intros Hs Hc Hs' Hc' HF HF' HT Hp.
  assert (Hp' : In [p; q; r; t] (turns F')).
  { destruct F as [|a [|b [|c0 [|d [|? ?]]]]]; try contradiction. cbn [turns In] in HT, Hp.
    repeat (destruct HT as [HT|HT]; [subst F'; cbn [turns In]; tauto|]). contradiction. }
  destruct (split_box_faces s m c F p q r t Hs Hc HF Hp) as (x & y & z & G & H1 & H2 & H3).
  destruct (split_box_faces s' m' c' F' p q r t Hs' Hc' HF' Hp') as (x' & y' & z' & G' & H1' & H2' & H3').
  exists (x, y, z), (x', y', z'), G, G'. cbn [snd]. repeat split; auto.
  - rewrite H3. symmetry. exact H3'.
  - apply (Permutation_in _ (Permutation_sym H3)). left. reflexivity.
Qed.
