(** Thresholds drop exactly the small entries. *)
From Coq Require Import List Arith ZArith QArith Qcanon Bool Lia Lqa.
From Verif Require Import Dict GmModel GmProofs QSums LmModel LmSpec LmProofs LmCacheModel.
Import ListNotations.
Local Open Scope nat_scope.

Lemma cut_small_ok t v : cut_to t v (cut_small (Some t) v).
Proof.
  unfold cut_to, cut_small, qabs.
  assert (E : forall a b : Qc, (a < b)%Qc <-> (this a < this b)%Q) by (intros; reflexivity).
  assert (N : forall a : Qc, (this (- a)%Qc == - this a)%Q) by (intros; unfold Qcopp, Q2Qc; cbn [this]; apply Qred_correct).
  assert (L : forall a b : Qc, (a <= b)%Qc <-> (this a <= this b)%Q) by (intros; reflexivity).
  assert (Z : this 0%Qc = 0%Q) by reflexivity.
  destruct (Qclt_le_dec v 0) as [H|H]; rewrite ?E, ?L, ?Z in H;
  match goal with |- context [Qclt_le_dec ?x t] => destruct (Qclt_le_dec x t) as [H1|H1] end; rewrite ?E, ?L in H1; pose proof (N v) as P1; pose proof (N t) as P2; split; auto; rewrite !E; intros H9; try (exfalso; lra); try (exfalso; apply H9; split; lra).
Qed.
Notation cut_triple t := (fun a b : triple => fst a = fst b /\ cut_to t (snd a) (snd b)).
Lemma obind_rel {A B C} (R : B -> C -> Prop) (f : A -> option B) (g : A -> option C) l :
  (forall x, In x l -> match f x, g x with Some b, Some c => R b c | None, None => True | _, _ => False end) ->
  match obind l f, obind l g with Some bs, Some cs => Forall2 R bs cs | None, None => True | _, _ => False end.
Proof.
  induction l as [|x l IH]; intros H; [constructor|]. change (obind (x :: l) f) with (match f x with Some b => match obind l f with Some r => Some (b :: r) | None => None end | None => None end).
  change (obind (x :: l) g) with (match g x with Some b => match obind l g with Some r => Some (b :: r) | None => None end | None => None end).
  pose proof (H x (or_introl eq_refl)) as Hx. specialize (IH (fun y Hy => H y (or_intror Hy))).
  destruct (f x), (g x); try tauto. destruct (obind l f), (obind l g); try tauto. now constructor.
Qed.
Lemma Forall2_concat {A B} (R : A -> B -> Prop) l l' : Forall2 (Forall2 R) l l' -> Forall2 R (concat l) (concat l').
Proof. induction 1; cbn; auto using Forall2_app. Qed.
Notation orel R x y := (match x, y with Some a, Some b => R a b | None, None => True | _, _ => False end).
Lemma concat_rel {A B} (R : A -> B -> Prop) x y : orel (Forall2 (Forall2 R)) x y -> orel (Forall2 R) (option_map (@concat _) x) (option_map (@concat _) y).
Proof. destruct x, y; cbn; auto using Forall2_concat. Qed.
Lemma assemble_cut t gr gc Ms : orel (Forall2 (Forall2 (cut_triple t))) (assemble_matrix None gr gc Ms) (assemble_matrix (Some t) gr gc Ms).
Proof.
  unfold assemble_matrix. apply obind_rel. intros [[x y] M] _. cbn [fst snd]. unfold rank_triples. apply concat_rel. apply obind_rel. intros e _.
  destruct (nget x e); auto. destruct (nget y e); auto. destruct (nget M e) as [m|]; auto. unfold elem_triples. apply concat_rel. apply obind_rel. intros [j ln] _. cbn [fst snd]. unfold line_triples. apply obind_rel. intros [i v] _. cbn [fst snd].
  destruct (sm_fmt m); repeat match goal with |- context [nth_error ?a ?b] => destruct (nth_error a b) end; auto; (split; [reflexivity|apply cut_small_ok]).
Qed.
Lemma cut_mat_ok t m : sm_fmt (cut_mat t m) = sm_fmt m /\ sm_nr (cut_mat t m) = sm_nr m /\ sm_nc (cut_mat t m) = sm_nc m /\
  Forall2 (Forall2 (fun a b => fst a = fst b /\ cut_to t (snd a) (snd b))) (sm_lines m) (sm_lines (cut_mat t m)).
Proof.
  repeat split. cbn [cut_mat sm_lines]. induction (sm_lines m) as [|l r IH]; constructor; auto. induction l as [|a l IHl]; constructor; auto. split; [reflexivity|apply cut_small_ok].
Qed.
