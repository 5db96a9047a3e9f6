(** Finite sums over Z used in specifications. *)
From Coq Require Import ZArith List Lia Arith Permutation.
Import ListNotations.
Local Open Scope Z_scope.

Definition zsum (l : list Z) : Z := fold_right Z.add 0 l.

(** sum of f i for i = 0 .. n-1 *)
Definition sumn (n : nat) (f : nat -> Z) : Z := zsum (map f (seq 0 n)).

Lemma zsum_app a b : zsum (a ++ b) = zsum a + zsum b.
Proof. induction a; simpl; lia. Qed.

Lemma zsum_perm a b : Permutation a b -> zsum a = zsum b.
Proof. induction 1; simpl; lia. Qed.

Lemma zsum_map_add {A} (f g : A -> Z) l :
  zsum (map (fun a => f a + g a) l) = zsum (map f l) + zsum (map g l).
Proof. induction l; simpl; lia. Qed.

Lemma zsum_map_mul {A} (f : A -> Z) k l :
  zsum (map (fun a => k * f a) l) = k * zsum (map f l).
Proof. induction l; simpl; lia. Qed.

Lemma zsum_map_mul_r {A} (f : A -> Z) k l :
  zsum (map (fun a => f a * k) l) = zsum (map f l) * k.
Proof. induction l; simpl; lia. Qed.

Lemma zsum_map_ext {A} (f g : A -> Z) l :
  (forall a, In a l -> f a = g a) -> zsum (map f l) = zsum (map g l).
Proof.
  intros H; induction l; simpl; auto. rewrite H by (left; auto).
  rewrite IHl; auto. intros; apply H; right; auto.
Qed.

Lemma zsum_map_zero {A} (f : A -> Z) l : (forall a, In a l -> f a = 0) -> zsum (map f l) = 0.
Proof.
  intros H. induction l; simpl; auto. rewrite H by (left; auto).
  rewrite IHl; auto. intros; apply H; right; auto.
Qed.

Lemma zsum_flat_map {A B} (f : A -> list B) (g : B -> Z) l :
  zsum (map g (flat_map f l)) = zsum (map (fun a => zsum (map g (f a))) l).
Proof. induction l; simpl; auto. rewrite map_app, zsum_app, IHl; auto. Qed.

(** exchange of two sums *)
Lemma zsum_swap {A B} (f : A -> B -> Z) la lb :
  zsum (map (fun a => zsum (map (f a) lb)) la) =
  zsum (map (fun b => zsum (map (fun a => f a b) la)) lb).
Proof.
  induction la; simpl.
  - induction lb; simpl; auto.
  - rewrite IHla. rewrite <- zsum_map_add. reflexivity.
Qed.

(** a single non-zero summand *)
Lemma zsum_single {A} (eqd : forall a b : A, {a = b} + {a <> b}) (f : A -> Z) l a :
  NoDup l -> In a l -> (forall b, In b l -> b <> a -> f b = 0) -> zsum (map f l) = f a.
Proof.
  induction l as [|b l IH]; intros Hn Hi Hz; [contradiction|]. inversion Hn; subst. simpl.
  destruct (eqd b a) as [->|Hne].
  - rewrite zsum_map_zero; [lia|]. intros c Hc. apply Hz; [right; auto|].
    intros ->; contradiction.
  - rewrite (Hz b) by (auto; left; auto). destruct Hi as [->|Hi]; [contradiction|].
    rewrite IH; auto. intros; apply Hz; auto; right; auto.
Qed.

Lemma sumn_ext n f g : (forall i, (i < n)%nat -> f i = g i) -> sumn n f = sumn n g.
Proof. intros H. apply zsum_map_ext. intros a Ha. apply in_seq in Ha. apply H; lia. Qed.

Lemma sumn_single n f i :
  (i < n)%nat -> (forall j, (j < n)%nat -> j <> i -> f j = 0) -> sumn n f = f i.
Proof.
  intros Hi H. unfold sumn. apply (zsum_single Nat.eq_dec).
  - apply seq_NoDup.
  - apply in_seq; lia.
  - intros b Hb; apply in_seq in Hb. apply H; lia.
Qed.

Lemma sumn_zero n f : (forall i, (i < n)%nat -> f i = 0) -> sumn n f = 0.
Proof. intros H. apply zsum_map_zero. intros a Ha; apply in_seq in Ha; apply H; lia. Qed.

Lemma sumn_add n f g : sumn n (fun i => f i + g i) = sumn n f + sumn n g.
Proof. apply zsum_map_add. Qed.

Lemma sumn_mul n k f : sumn n (fun i => k * f i) = k * sumn n f.
Proof. apply zsum_map_mul. Qed.

Lemma sumn_swap n m f :
  sumn n (fun i => sumn m (f i)) = sumn m (fun j => sumn n (fun i => f i j)).
Proof. apply zsum_swap. Qed.

Lemma sumn_S n f : sumn (S n) f = sumn n f + f n.
Proof. unfold sumn. rewrite seq_S, map_app, zsum_app; simpl. lia. Qed.
