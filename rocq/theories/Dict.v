(** Python dictionaries: association lists in insertion order with unique keys. *)
From Coq Require Import List Arith Bool Lia.
Import ListNotations.

Notation dict K V := (list (K * V)).

Section Dict.
  Context {K V : Type} (eqb : K -> K -> bool).
  Fixpoint get (d : dict K V) (k : K) : option V :=
    match d with
    | [] => None
    | (k', v) :: r => if eqb k k' then Some v else get r k
    end.
  (** [d[k] = v]: in place if present, appended if not *)
  Fixpoint put (d : dict K V) (k : K) (v : V) : dict K V :=
    match d with
    | [] => [(k, v)]
    | (k', v') :: r => if eqb k k' then (k', v) :: r else (k', v') :: put r k v
    end.
  Definition keys (d : dict K V) : list K := map fst d.
  Definition has (d : dict K V) (k : K) : bool := existsb (eqb k) (keys d).
  (** [d.update(e)] *)
  Definition update_with (d e : dict K V) : dict K V := fold_left (fun d kv => put d (fst kv) (snd kv)) e d.

  Context (eqb_spec : forall a b, eqb a b = true <-> a = b).
  Lemma eqb_refl a : eqb a a = true.
  Proof. now apply eqb_spec. Qed.
  Lemma eqb_neq a b : a <> b -> eqb a b = false.
  Proof. intros H. destruct (eqb a b) eqn:E; auto. apply eqb_spec in E. contradiction. Qed.
  Lemma get_put d k v k' : get (put d k v) k' = if eqb k' k then Some v else get d k'.
  Proof.
    induction d as [|[a b] d IH]; simpl.
    - destruct (eqb k' k); auto.
    - destruct (eqb k a) eqn:E.
      + apply eqb_spec in E as ->. simpl. destruct (eqb k' a); auto.
      + simpl. rewrite IH. destruct (eqb k' a) eqn:E'; auto.
        apply eqb_spec in E' as ->. destruct (eqb a k) eqn:E2; auto. apply eqb_spec in E2 as ->. now rewrite eqb_refl in E.
  Qed.
  Lemma get_in d k v : get d k = Some v -> In (k, v) d.
  Proof.
    induction d as [|[a b] d IH]; simpl; [discriminate|]. destruct (eqb k a) eqn:E.
    - apply eqb_spec in E as ->. intros [= ->]. auto.
    - auto.
  Qed.
  Lemma in_get d k v : NoDup (keys d) -> In (k, v) d -> get d k = Some v.
  Proof.
    induction d as [|[a b] d IH]; simpl; [tauto|]. intros Hn [[= -> ->]|H].
    - now rewrite eqb_refl.
    - inversion Hn as [|? ? Hx Hn']; subst. rewrite eqb_neq; auto. intros ->. apply Hx. apply in_map_iff. now exists (a, v).
  Qed.
  Lemma get_keys d k : In k (keys d) <-> exists v, get d k = Some v.
  Proof.
    split.
    - induction d as [|[a b] d IH]; simpl; [tauto|]. intros H. destruct (eqb k a) eqn:E; [eauto|].
      destruct H as [->|H]; [|auto]. now rewrite eqb_refl in E.
    - intros [v H]. apply get_in in H. apply in_map_iff. now exists (k, v).
  Qed.
  Lemma get_none d k : get d k = None <-> ~ In k (keys d).
  Proof. rewrite get_keys. destruct (get d k); split; try discriminate; auto; [intros H; exfalso; eauto|intros _ [v H]; discriminate]. Qed.
  Lemma keys_put_in d k v : In k (keys d) -> keys (put d k v) = keys d.
  Proof.
    induction d as [|[a b] d IH]; simpl; [tauto|]. intros H. destruct (eqb k a) eqn:E; simpl; auto.
    rewrite IH; auto. destruct H as [->|H]; auto. now rewrite eqb_refl in E.
  Qed.
  Lemma keys_put_out d k v : ~ In k (keys d) -> keys (put d k v) = keys d ++ [k].
  Proof.
    induction d as [|[a b] d IH]; simpl; auto. intros H. destruct (eqb k a) eqn:E; simpl.
    - apply eqb_spec in E as ->. tauto.
    - rewrite IH; tauto.
  Qed.
  Lemma put_out d k v : ~ In k (keys d) -> put d k v = d ++ [(k, v)].
  Proof.
    induction d as [|[a b] d IH]; simpl; auto. intros H. destruct (eqb k a) eqn:E; simpl.
    - apply eqb_spec in E as ->. tauto.
    - rewrite IH; tauto.
  Qed.
  Lemma in_keys_put d k v k' : In k' (keys (put d k v)) <-> k' = k \/ In k' (keys d).
  Proof.
    rewrite !get_keys, get_put. destruct (eqb k' k) eqn:E.
    - apply eqb_spec in E. split; eauto.
    - split; auto. intros [->|H]; auto. now rewrite eqb_refl in E.
  Qed.
  Lemma nodup_put d k v : NoDup (keys d) -> NoDup (keys (put d k v)).
  Proof.
    intros H. destruct (in_dec (fun a b => match Bool.bool_dec (eqb a b) true with left e => left (proj1 (eqb_spec a b) e) | right n => right (fun e => n (proj2 (eqb_spec a b) e)) end) k (keys d)) as [Hi|Hi].
    - now rewrite keys_put_in.
    - rewrite keys_put_out by auto.
      clear v. induction (keys d) as [|x l IH]; simpl.
      + repeat constructor. auto.
      + inversion H; subst. constructor.
        * rewrite in_app_iff. simpl. intros [?|[->|[]]]; [tauto|]. simpl in Hi. tauto.
        * apply IH; auto. simpl in Hi. tauto.
  Qed.
  Lemma has_spec d k : has d k = true <-> In k (keys d).
  Proof.
    unfold has. rewrite existsb_exists. split.
    - intros (x & H & E). now apply eqb_spec in E as ->.
    - intros H. exists k. split; auto. apply eqb_refl.
  Qed.
  Lemma get_update_with e : forall d k, NoDup (keys e) -> get (update_with d e) k = match get e k with Some v => Some v | None => get d k end.
  Proof.
    unfold update_with. induction e as [|[a b] e IH]; simpl; auto. intros d k H. inversion H; subst.
    rewrite IH by auto. rewrite get_put. destruct (eqb k a) eqn:E; auto.
    apply eqb_spec in E as ->. destruct (get e a) eqn:E2; auto. exfalso. apply H2. apply get_keys. eauto.
  Qed.
End Dict.

Definition npair_eqb (a b : nat * nat) : bool := (fst a =? fst b) && (snd a =? snd b).
Lemma npair_eqb_spec a b : npair_eqb a b = true <-> a = b.
Proof.
  destruct a as [a a'], b as [b b']. unfold npair_eqb. simpl. rewrite andb_true_iff, !Nat.eqb_eq. split; [intros [-> ->]; auto|intros [= -> ->]; auto].
Qed.
