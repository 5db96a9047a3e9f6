(** First-come numbering of classes of positions: the invariant shared by all the
    numbering loops.  Nothing here refers to the code. *)
From Coq Require Import Arith List ZArith Lia.
Import ListNotations.

Section Core.
  Context {P : Type} (eqv : P -> P -> Prop).
  Context (Hrefl : forall x, eqv x x) (Hsym : forall x y, eqv x y -> eqv y x)
          (Htrans : forall x y z, eqv x y -> eqv y z -> eqv x z).

  (** [f] numbers the positions of [D] by 0..cur-1, equal iff equivalent *)
  Record Inv (d : Z) (f : P -> Z) (cur : nat) (D : P -> Prop) : Prop := {
    inv_num : forall x, D x -> exists k, k < cur /\ f x = Z.of_nat k;
    inv_eq : forall x y, D x -> D y -> (f x = f y <-> eqv x y);
    inv_onto : forall k, k < cur -> exists x, D x /\ f x = Z.of_nat k;
    inv_out : forall x, D x \/ f x = d }.

  Lemma Inv_init d : Inv d (fun _ => d) 0 (fun _ => False).
  Proof. constructor; intros; try tauto; try lia; auto. Qed.

  Lemma Inv_ext d f cur D f' D' : Inv d f cur D -> (forall x, f' x = f x) -> (forall x, D' x <-> D x) -> Inv d f' cur D'.
  Proof.
    intros [A B C E] Hf HD. constructor.
    - intros x Hx. rewrite Hf. apply A. now apply HD.
    - intros x y Hx Hy. rewrite !Hf. apply B; now apply HD.
    - intros k Hk. destruct (C k Hk) as (x & Hx & Ex). exists x. rewrite Hf. split; auto. now apply HD.
    - intros x. rewrite Hf. destruct (E x) as [H|H]; auto. left. now apply HD.
  Qed.

  (** n new numbers; number cur+i is given to all positions of bunch i *)
  Lemma Inv_fresh d f cur D f' n (B : nat -> P -> Prop) :
    Inv d f cur D ->
    (forall i x, i < n -> B i x -> ~ D x) ->
    (forall i, i < n -> exists x, B i x) ->
    (forall i x y, i < n -> B i x -> B i y -> eqv x y) ->
    (forall i j x y, i < n -> j < n -> i <> j -> B i x -> B j y -> ~ eqv x y) ->
    (forall i x y, i < n -> B i x -> D y -> ~ eqv x y) ->
    (forall i x, i < n -> B i x -> f' x = Z.of_nat (cur + i)) ->
    (forall x, (exists i, i < n /\ B i x) \/ f' x = f x) ->
    Inv d f' (cur + n) (fun x => D x \/ exists i, i < n /\ B i x).
  Proof.
    intros [A1 A2 A3 A4] Hnew Hne Hsame Hdiff HoldD Hf Hold.
    assert (forall x, D x -> f' x = f x) as HD.
    { intros x Hx. destruct (Hold x) as [(i & Hi & Hb)|]; auto. destruct (Hnew i x Hi Hb Hx). }
    constructor.
    - intros x [Hx|(i & Hi & Hx)].
      + destruct (A1 x Hx) as (k & Hk & E). exists k. rewrite HD by auto. split; [lia|auto].
      + exists (cur + i). split; [lia|eauto].
    - intros x y [Hx|(i & Hi & Hx)] [Hy|(j & Hj & Hy)].
      + rewrite !HD by auto. auto.
      + rewrite (HD x Hx), (Hf j y Hj Hy). destruct (A1 x Hx) as (k & Hk & ->). split; intros H.
        * lia.
        * exfalso. apply (HoldD j y x Hj Hy Hx). auto.
      + rewrite (HD y Hy), (Hf i x Hi Hx). destruct (A1 y Hy) as (k & Hk & ->). split; intros H.
        * lia.
        * exfalso. apply (HoldD i x y Hi Hx Hy). auto.
      + rewrite (Hf i x Hi Hx), (Hf j y Hj Hy). split; intros H.
        * assert (j = i) as -> by lia. apply (Hsame i); auto.
        * destruct (Nat.eq_dec i j) as [->|Hij]; auto. exfalso. apply (Hdiff i j x y); auto.
    - intros k Hk. destruct (Nat.lt_ge_cases k cur) as [Hlt|Hge].
      + destruct (A3 k Hlt) as (x & Hx & E). exists x. rewrite HD by auto. auto.
      + destruct (Hne (k - cur)) as (x & Hx); [lia|]. exists x. split; [right; exists (k - cur); split; [lia|auto]|].
        rewrite (Hf (k - cur) x) by (auto; lia). f_equal. lia.
    - intros x. destruct (Hold x) as [H| ->]; auto. destruct (A4 x); auto.
  Qed.

  (** positions that take over the number of an equivalent position *)
  Lemma Inv_copy d f cur D f' (C : P -> P -> Prop) :
    Inv d f cur D ->
    (forall x y, C x y -> ~ D x /\ D y /\ eqv x y /\ f' x = f y) ->
    (forall x, (exists y, C x y) \/ f' x = f x) ->
    Inv d f' cur (fun x => D x \/ exists y, C x y).
  Proof.
    intros [A1 A2 A3 A4] HC Hold.
    assert (forall x, D x -> f' x = f x) as HD.
    { intros x Hx. destruct (Hold x) as [(y & Hb)|]; auto. now apply HC in Hb as [? _]. }
    constructor.
    - intros x [Hx|(y & Hx)].
      + rewrite HD by auto. auto.
      + apply HC in Hx as (_ & Hy & _ & ->). auto.
    - intros x y [Hx|(x' & Hx)] [Hy|(y' & Hy)].
      + rewrite !HD by auto. auto.
      + apply HC in Hy as (_ & Hy & E & ->). rewrite (HD x) by auto. rewrite (A2 x y' Hx Hy).
        split; intros H; eapply Htrans; eauto.
      + apply HC in Hx as (_ & Hx & E & ->). rewrite (HD y) by auto. rewrite (A2 x' y Hx Hy).
        split; intros H; eapply Htrans; eauto.
      + apply HC in Hx as (_ & Hx & E & ->). apply HC in Hy as (_ & Hy & E' & ->). rewrite (A2 x' y' Hx Hy).
        split; intros H.
        * eapply Htrans; [|apply Hsym, E']. eapply Htrans; eauto.
        * eapply Htrans; [apply Hsym, E|]. eapply Htrans; eauto.
    - intros k Hk. destruct (A3 k Hk) as (x & Hx & E). exists x. rewrite HD; auto.
    - intros x. destruct (Hold x) as [H| ->]; auto. destruct (A4 x); auto.
  Qed.
End Core.
