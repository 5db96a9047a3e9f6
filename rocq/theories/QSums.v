(** Finite sums of rationals *)
From Coq Require Import List Arith QArith Qcanon Lia Permutation.
Import ListNotations.
Local Open Scope Qc_scope.

Definition qsum (l : list Qc) : Qc := fold_right Qcplus 0 l.
Definition sumq (n : nat) (f : nat -> Qc) : Qc := qsum (map f (seq 0 n)).

Lemma qsum_app a b : qsum (a ++ b) = qsum a + qsum b.
Proof. induction a as [|x a IH]; simpl; [ring|rewrite IH; ring]. Qed.
Lemma qsum_perm a b : Permutation a b -> qsum a = qsum b.
Proof. induction 1; simpl; congruence || ring. Qed.
Lemma qsum_map_add {A} (f g : A -> Qc) l : qsum (map (fun a => f a + g a) l) = qsum (map f l) + qsum (map g l).
Proof. induction l as [|a l IH]; simpl; [ring|rewrite IH; ring]. Qed.
Lemma qsum_map_mul {A} (f : A -> Qc) k l : qsum (map (fun a => k * f a) l) = k * qsum (map f l).
Proof. induction l as [|a l IH]; simpl; [ring|rewrite IH; ring]. Qed.
Lemma qsum_map_mul_r {A} (f : A -> Qc) k l : qsum (map (fun a => f a * k) l) = qsum (map f l) * k.
Proof. induction l as [|a l IH]; simpl; [ring|rewrite IH; ring]. Qed.
Lemma qsum_map_ext {A} (f g : A -> Qc) l : (forall a, In a l -> f a = g a) -> qsum (map f l) = qsum (map g l).
Proof. intros H. f_equal. now apply map_ext_in. Qed.
Lemma qsum_map_zero {A} (f : A -> Qc) l : (forall a, In a l -> f a = 0) -> qsum (map f l) = 0.
Proof. induction l as [|a l IH]; simpl; intros H; auto. rewrite H, IH; auto. Qed.
Lemma qsum_flat_map {A B} (f : A -> list B) (g : B -> Qc) l : qsum (map g (flat_map f l)) = qsum (map (fun a => qsum (map g (f a))) l).
Proof. induction l as [|a l IH]; simpl; auto. now rewrite map_app, qsum_app, IH. Qed.
Lemma qsum_concat l : qsum (concat l) = qsum (map qsum l).
Proof. induction l as [|a l IH]; simpl; auto. now rewrite qsum_app, IH. Qed.
Lemma qsum_map_concat {A} (f : A -> Qc) l : qsum (map f (concat l)) = qsum (map (fun x => qsum (map f x)) l).
Proof. induction l as [|a l IH]; simpl; auto. now rewrite map_app, qsum_app, IH. Qed.
Lemma qsum_swap {A B} (f : A -> B -> Qc) la lb :
  qsum (map (fun a => qsum (map (fun b => f a b) lb)) la) = qsum (map (fun b => qsum (map (fun a => f a b) la)) lb).
Proof.
  induction la as [|a la IH]; simpl.
  - symmetry. apply qsum_map_zero. auto.
  - rewrite IH. now rewrite <- qsum_map_add.
Qed.
Lemma qsum_single {A} (eqd : forall a b : A, {a = b} + {a <> b}) (f : A -> Qc) l a :
  NoDup l -> In a l -> (forall b, In b l -> b <> a -> f b = 0) -> qsum (map f l) = f a.
Proof.
  induction l as [|x l IH]; simpl; [tauto|]. intros Hn Hi H. inversion Hn; subst. destruct (eqd x a) as [->|Hx].
  - rewrite qsum_map_zero; [ring|]. intros b Hb. apply H; auto. intros ->. contradiction.
  - destruct Hi as [->|Hi]; [contradiction|]. rewrite IH; auto. rewrite (H x); auto. ring.
Qed.
Lemma qsum_filter {A} (p : A -> bool) (f : A -> Qc) l : qsum (map f (filter p l)) = qsum (map (fun a => if p a then f a else 0) l).
Proof. induction l as [|a l IH]; simpl; auto. destruct (p a); simpl; rewrite IH; ring. Qed.

Lemma sumq_ext n f g : (forall i, (i < n)%nat -> f i = g i) -> sumq n f = sumq n g.
Proof. intros H. apply qsum_map_ext. intros i Hi. apply in_seq in Hi. apply H. lia. Qed.
Lemma sumq_single n f i : (i < n)%nat -> (forall j, (j < n)%nat -> j <> i -> f j = 0) -> sumq n f = f i.
Proof.
  intros Hi H. apply (qsum_single Nat.eq_dec); [apply seq_NoDup|apply in_seq; lia|]. intros j Hj. apply in_seq in Hj. apply H. lia.
Qed.
Lemma sumq_zero n f : (forall i, (i < n)%nat -> f i = 0) -> sumq n f = 0.
Proof. intros H. apply qsum_map_zero. intros i Hi. apply in_seq in Hi. apply H. lia. Qed.
Lemma sumq_add n f g : sumq n (fun i => f i + g i) = sumq n f + sumq n g.
Proof. apply qsum_map_add. Qed.
Lemma sumq_mul n k f : sumq n (fun i => k * f i) = k * sumq n f.
Proof. apply qsum_map_mul. Qed.
Lemma sumq_mul_r n k f : sumq n (fun i => f i * k) = sumq n f * k.
Proof. apply qsum_map_mul_r. Qed.
Lemma sumq_swap n m f : sumq n (fun i => sumq m (f i)) = sumq m (fun j => sumq n (fun i => f i j)).
Proof. apply (qsum_swap f). Qed.
Lemma sumq_S n f : sumq (S n) f = sumq n f + f n.
Proof. unfold sumq. rewrite seq_S, map_app, qsum_app. simpl. ring. Qed.
Lemma sumq_split n m f : sumq (n + m) f = sumq n f + sumq m (fun i => f (n + i)%nat).
Proof.
  induction m as [|m IH].
  - rewrite Nat.add_0_r. unfold sumq at 3. simpl. ring.
  - rewrite <- plus_n_Sm, !sumq_S, IH. ring.
Qed.
Lemma sumq_0 f : sumq 0 f = 0.
Proof. reflexivity. Qed.
Lemma sumq_shift n f : sumq (S n) f = f 0%nat + sumq n (fun i => f (S i)).
Proof. rewrite (sumq_split 1 n). unfold sumq at 1. simpl. ring. Qed.
(** a sum over a list is a sum over its positions *)
Lemma qsum_nth {A} (d : A) (f : A -> Qc) l : qsum (map f l) = sumq (length l) (fun i => f (nth i l d)).
Proof. induction l as [|a l IH]; [reflexivity|]. cbn [length]. rewrite sumq_shift. simpl. now rewrite IH. Qed.
(** integers *)
Definition qz (z : Z) : Qc := Q2Qc (inject_Z z).
