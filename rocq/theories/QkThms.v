(** Proofs about the keys of quadratures. *)
From Coq Require Import List ZArith Bool String Ascii Lia.
From Verif Require Import MemoModel MemoProofs MiscModel QkModel QkSpec.
Import ListNotations.
Local Open Scope Z_scope.
Local Open Scope string_scope.

Lemma after_some pre : forall c r, after_prefix pre c = Some r -> c = pre ++ r.
Proof.
  induction pre as [|a p IH]; intros c r H; cbn in H; [injection H as ->; reflexivity|]. destruct c as [|b q]; [discriminate|].
  destruct (Ascii.eqb_spec a b) as [->|]; [|discriminate]. cbn. f_equal. apply IH. exact H.
Qed.
Lemma after_app pre r : after_prefix pre (pre ++ r) = Some r.
Proof. induction pre as [|a p IH]; [reflexivity|]. cbn. rewrite Ascii.eqb_refl. exact IH. Qed.

(** the four kinds of categories *)
Lemma kinds p c : check1 p c = true -> c = "Gauss" \/ c = "Lobatto" \/
  (exists r, c = "CUS-NODES@" ++ r /\ p = Z.of_nat (List.length (split "-" r))) \/ (exists r, c = "nd@" ++ r).
Proof.
  unfold check1. destruct (String.eqb_spec c "Gauss") as [|_]; [auto|]. destruct (String.eqb_spec c "Lobatto") as [|_]; [auto|].
  destruct (after_prefix "CUS-NODES@" c) as [r|] eqn:E; [apply after_some in E; rewrite Z.eqb_eq; intros H; right; right; left; exists r; auto|].
  destruct (after_prefix "nd@" c) as [r|] eqn:F; [apply after_some in F; intros _; right; right; right; exists r; auto|discriminate].
Qed.
Fixpoint count (x : ascii) (s : string) : nat := match s with EmptyString => 0%nat | String a r => if Ascii.eqb a x then S (count x r) else count x r end.
Lemma split_count x s : List.length (split x s) = S (count x s).
Proof. induction s as [|a s IH]; [reflexivity|]. cbn. destruct (Ascii.eqb a x); cbn; [rewrite IH; reflexivity|]. destruct (split x s); cbn in *; lia. Qed.

(** what follows a category: nothing, or '-' and the beginning of a category *)
Definition tl_ok (T : string) : Prop := T = "" \/ exists x r, T = String "-" (String x r) /\ node_char x = false.
Lemma cus_cut r : forall r' T T', tl_ok T -> tl_ok T' -> count "-" r = count "-" r' -> r ++ T = r' ++ T' -> r = r' /\ T = T'.
Proof.
  induction r as [|a r IH]; intros [|b r'] T T' HT HT' C E.
  - auto.
  - exfalso. cbn [append] in E. destruct HT as [->|(x & q & -> & _)]; [discriminate|]. injection E as <- _. cbn in C. discriminate.
  - exfalso. cbn [append] in E. destruct HT' as [->|(x & q & -> & _)]; [discriminate|]. injection E as -> _. cbn in C. discriminate.
  - cbn [append] in E. injection E as -> E. cbn in C. destruct (IH r' T T' HT HT') as [-> ->]; [|exact E|auto]. destruct (Ascii.eqb b "-"); lia.
Qed.
Lemma nd_end b r' T T' : all_chars node_char (String b r') -> tl_ok T -> tl_ok T' -> T = String b r' ++ T' -> False.
Proof.
  intros A HT HT' E. cbn [append] in E. destruct HT as [->|(x & q & -> & N)]; [discriminate|]. injection E as _ E.
  destruct r' as [|c r']; cbn [append] in E.
  - destruct HT' as [->|(y & q' & -> & _)]; [discriminate|]. injection E as -> _. discriminate N.
  - injection E as -> _. apply all_cons in A. destruct A as [_ A]. apply all_cons in A. destruct A as [A _]. congruence.
Qed.
Lemma nd_cut r : forall r' T T', all_chars node_char r -> all_chars node_char r' -> tl_ok T -> tl_ok T' -> r ++ T = r' ++ T' -> r = r' /\ T = T'.
Proof.
  induction r as [|a r IH]; intros [|b r'] T T' A A' HT HT' E.
  - auto.
  - exfalso. exact (nd_end b r' T T' A' HT HT' E).
  - exfalso. exact (nd_end a r T' T A HT' HT (eq_sym E)).
  - cbn [append] in E. injection E as -> E. apply all_cons in A, A'. destruct (IH r' T T') as [-> ->]; tauto.
Qed.
Lemma cat_cut p c c' T T' : check1 p c = true -> check1 p c' = true -> numeric c -> numeric c' -> tl_ok T -> tl_ok T' -> c ++ T = c' ++ T' -> c = c' /\ T = T'.
Proof.
  intros K K' N N' HT HT' E. apply kinds in K, K'.
  destruct K as [->|[->|[(r & -> & P)|(r & ->)]]]; destruct K' as [->|[->|[(r' & -> & P')|(r' & ->)]]]; cbn [append] in E; try discriminate E.
  - injection E as E. auto.
  - injection E as E. auto.
  - injection E as E. rewrite !split_count in P, P'. destruct (cus_cut r r' T T' HT HT') as [-> ->]; [lia|exact E|auto].
  - injection E as E. destruct (nd_cut r r' T T' (N r eq_refl) (N' r' eq_refl) HT HT' E) as [-> ->]. auto.
Qed.
Lemma cat_first p c : check1 p c = true -> exists x r, c = String x r /\ node_char x = false.
Proof. intros K. apply kinds in K. destruct K as [->|[->|[(r & -> & _)|(r & ->)]]]; cbn [append]; eexists; eexists; (split; [reflexivity|reflexivity]). Qed.
Lemma tl_join p c t q r : check_p (p :: t) (c :: q :: r) = true -> tl_ok ("-" ++ join "-" (q :: r)).
Proof.
  cbn [check_p]. rewrite andb_true_iff. intros [_ K]. destruct t as [|u t]; [discriminate|]. apply andb_true_iff in K. destruct K as [K _].
  destruct (cat_first u q K) as (x & s & -> & N). right. exists x. destruct r; cbn [join append]; eexists; eauto.
Qed.
Lemma cats_inj cats : forall p cats', check_p p cats = true -> check_p p cats' = true -> List.length cats = List.length cats' ->
  Forall numeric cats -> Forall numeric cats' -> join "-" cats = join "-" cats' -> cats = cats'.
Proof.
  induction cats as [|c r IH]; intros p [|c' r'] K K' L N N' E; try discriminate L; [reflexivity|].
  inversion N as [|? ? Nc Nr]; inversion N' as [|? ? Nc' Nr']; subst.
  destruct p as [|u t]; [discriminate|].
  assert (C : check1 u c = true) by (cbn in K; apply andb_true_iff in K; tauto). assert (C' : check1 u c' = true) by (cbn in K'; apply andb_true_iff in K'; tauto).
  destruct r as [|q r]; destruct r' as [|q' r']; try discriminate L.
  - cbn [join] in E. subst. reflexivity.
  - change (join "-" (c :: q :: r)) with (c ++ ("-" ++ join "-" (q :: r))) in E. change (join "-" (c' :: q' :: r')) with (c' ++ ("-" ++ join "-" (q' :: r'))) in E.
    destruct (cat_cut u c c' _ _ C C' Nc Nc' (tl_join _ _ _ _ _ K) (tl_join _ _ _ _ _ K') E) as [-> E2]. cbn [append] in E2. injection E2 as E2.
    f_equal. apply (IH t); auto; [cbn in K; apply andb_true_iff in K; tauto|cbn in K'; apply andb_true_iff in K'; tauto].
Qed.

Lemma orders_inj p : forall p' D D', p <> [] -> p' <> [] -> join ", " (map str_z p) ++ String "]" D = join ", " (map str_z p') ++ String "]" D' -> p = p' /\ D = D'.
Proof.
  induction p as [|x p IH]; intros [|y p'] D D' Np Np' E; try congruence. clear Np Np'.
  destruct p as [|x2 p]; destruct p' as [|y2 p'].
  - cbn [map join] in E. apply (split_free num_char) in E; auto using str_z_chars. destruct E as (E & _ & ->). apply str_z_inj in E. subst. auto.
  - exfalso. change (join ", " (map str_z (y :: y2 :: p'))) with (str_z y ++ ", " ++ join ", " (map str_z (y2 :: p'))) in E. cbn [map join] in E.
    rewrite sapp_assoc in E. cbn [append] in E. apply (split_free num_char) in E; auto using str_z_chars. destruct E as (_ & E & _). discriminate.
  - exfalso. change (join ", " (map str_z (x :: x2 :: p))) with (str_z x ++ ", " ++ join ", " (map str_z (x2 :: p))) in E. cbn [map join] in E.
    rewrite sapp_assoc in E. cbn [append] in E. apply (split_free num_char) in E; auto using str_z_chars. destruct E as (_ & E & _). discriminate.
  - change (join ", " (map str_z (x :: x2 :: p))) with (str_z x ++ ", " ++ join ", " (map str_z (x2 :: p))) in E.
    change (join ", " (map str_z (y :: y2 :: p'))) with (str_z y ++ ", " ++ join ", " (map str_z (y2 :: p'))) in E.
    rewrite !sapp_assoc in E. cbn [append] in E. apply (split_free num_char) in E; auto using str_z_chars. destruct E as (E & _ & E2). apply str_z_inj in E. injection E2 as E2.
    rewrite ?sapp_assoc in E2. destruct (IH (y2 :: p') D D' ltac:(discriminate) ltac:(discriminate) E2) as [-> ->]. subst. auto.
Qed.
Lemma key_inj p cats p' cats' k : init p cats = Some k -> init p' cats' = Some k -> p <> [] -> List.length cats = List.length p -> p' <> [] -> List.length cats' = List.length p' ->
  Forall numeric cats -> Forall numeric cats' -> p = p' /\ cats = cats'.
Proof.
  unfold init. intros H H' N L N' L' F F'.
  destruct (_ && check_p p cats) eqn:K in H; [|discriminate]. destruct (_ && check_p p' cats') eqn:K' in H'; [|discriminate].
  apply andb_true_iff in K, K'. destruct K as [_ K]. destruct K' as [_ K']. assert (E : cache_key p cats = cache_key p' cats') by congruence. clear H H'.
  unfold cache_key in E. cbn [append] in E. injection E as E. destruct (orders_inj p p' _ _ N N' E) as [-> E2]. split; [reflexivity|].
  apply (cats_inj cats p' cats' K K'); auto. congruence.
Qed.
Lemma coded_not_custom c : coded c = true -> custom c = false.
Proof. unfold coded. rewrite orb_true_iff, !String.eqb_eq. intros [->| ->]; reflexivity. Qed.
Lemma no_mix p cats c d : In c cats -> In d cats -> coded c = true -> coded d = false -> init p cats = None.
Proof.
  intros Hc Hd Cc Cd. unfold init. assert (forallb coded cats || forallb custom cats = false) as ->; [|rewrite andb_false_r; reflexivity].
  apply orb_false_iff. split; apply not_true_is_false; rewrite forallb_forall; intros H.
  - rewrite (H d Hd) in Cd. discriminate.
  - pose proof (H c Hc) as X. rewrite (coded_not_custom c Cc) in X. discriminate.
Qed.
Lemma coded_numeric c : coded c = true -> numeric c.
Proof. unfold coded. rewrite orb_true_iff, !String.eqb_eq. intros [->| ->] r H; discriminate. Qed.
Lemma init_coded p cats : List.length cats = List.length p -> (forall q, In q p -> (1 <= q)%Z) -> Forall (fun c => coded c = true) cats -> init p cats = Some (cache_key p cats).
Proof.
  intros L P F. unfold init. assert (forallb (fun q => (0 <=? q)%Z) p = true) as -> by (apply forallb_forall; intros q Hq; apply Z.leb_le; specialize (P q Hq); lia).
  assert (forallb coded cats = true) as -> by (apply forallb_forall; rewrite Forall_forall in F; exact F). cbn [andb orb].
  assert (check_p p cats = true) as ->; [|reflexivity]. revert p L P. induction F as [|c cats C _ IH]; intros p L P; [destruct p; reflexivity|].
  destruct p as [|q p]; [discriminate|]. cbn. rewrite IH; [|cbn in L; lia|intros; apply P; right; assumption]. rewrite andb_true_r.
  unfold coded in C. apply orb_true_iff in C. rewrite !String.eqb_eq in C. destruct C as [->| ->]; [reflexivity|]. cbn. apply Z.leb_le. apply P. left. reflexivity.
Qed.
Lemma is_coded c : c = "Gauss" \/ c = "Lobatto" <-> coded c = true.
Proof. unfold coded. rewrite orb_true_iff, !String.eqb_eq. tauto. Qed.
Lemma coded_accepted p cats : List.length cats = List.length p -> (forall q, In q p -> (1 <= q)%Z) ->
  Forall (fun c => c = "Gauss" \/ c = "Lobatto") cats -> exists k, init p cats = Some k.
Proof. intros L P F. eexists. apply init_coded; auto. revert F. apply Forall_impl. intros c. apply is_coded. Qed.
Lemma cus_check p r : check1 p ("CUS-NODES@" ++ r) = (p =? Z.of_nat (List.length (split "-" r)))%Z.
Proof. unfold check1. rewrite after_app. reflexivity. Qed.
Lemma parts_accepted r : exists k, init [Z.of_nat (List.length (split "-" r))] ["CUS-NODES@" ++ r] = Some k.
Proof.
  eexists. unfold init. cbn [forallb check_p]. rewrite cus_check, Z.eqb_refl. assert ((0 <=? Z.of_nat (List.length (split "-" r)))%Z = true) as -> by (apply Z.leb_le; lia).
  assert (custom ("CUS-NODES@" ++ r) = true) as ->; [unfold custom, has_prefix; rewrite after_app; reflexivity|]. rewrite !orb_true_r. reflexivity.
Qed.
Lemma parts_number p r k : init [p] ["CUS-NODES@" ++ r] = Some k -> p = Z.of_nat (List.length (split "-" r)).
Proof.
  unfold init. cbn [check_p]. rewrite cus_check. destruct (Z.eqb_spec p (Z.of_nat (List.length (split "-" r)))); [auto|]. rewrite andb_false_l, andb_false_r. discriminate.
Qed.
Lemma mixed p cats c d : In c cats -> In d cats -> c = "Gauss" \/ c = "Lobatto" -> d <> "Gauss" -> d <> "Lobatto" -> init p cats = None.
Proof. intros Hc Hd C D1 D2. apply (no_mix p cats c d Hc Hd); [apply is_coded; exact C|]. apply not_true_is_false. rewrite <- is_coded. tauto. Qed.
Lemma exponent p : init [p] ["CUS-NODES@0.99999-1e-05"] = None \/ p = 3%Z.
Proof.
  destruct (init [p] ["CUS-NODES@0.99999-1e-05"]) as [k|] eqn:E; [|auto]. right. exact (parts_number p "0.99999-1e-05" k E).
Qed.
Lemma two_numeric : Forall numeric ["nd@-1=-5e-1=1"; "CUS-NODES@0.25-0.5-0.25"].
Proof.
  constructor; [|constructor; [|constructor]]; intros r H; [|discriminate]. injection H as <-. intros x Hx. cbn in Hx. intuition (subst; reflexivity).
Qed.
