(** Numpy index arrays as the library uses them for numberings.

    [np.arange(a, b).reshape(shape, order='F')] : an array that holds the
    consecutive numbers a, a+1, ..., b-1, the first index running fastest.
    Reshape raises if the sizes do not match (model: [None]); reading outside
    of the shape raises IndexError (model: [None]).  Negative (wrap-around)
    python indices are not modelled here, the code modelled with this file
    never uses them. *)
From Coq Require Import Arith List Lia Bool FinFun.
Import ListNotations.

Fixpoint prodl (sh : list nat) : nat :=
  match sh with [] => 1 | n :: r => n * prodl r end.

(** position of multi-index [ix] in F order *)
Fixpoint ravelF (sh ix : list nat) : option nat :=
  match sh, ix with
  | [], [] => Some 0
  | n :: sh', i :: ix' =>
      if i <? n then
        match ravelF sh' ix' with
        | Some r => Some (i + n * r)
        | None => None
        end
      else None
  | _, _ => None
  end.

(** all multi-indices, in the order of the nested loops
    [for k in range(K): for j in range(J): for i in range(I)] *)
Fixpoint indices (sh : list nat) : list (list nat) :=
  match sh with
  | [] => [[]]
  | n :: sh' => flat_map (fun ix => map (fun i => i :: ix) (seq 0 n)) (indices sh')
  end.

Record arr := mk_arr { a_base : nat; a_shape : list nat }.

Definition arange_reshape (a b : nat) (sh : list nat) : option arr :=
  if (a <=? b) && (prodl sh =? b - a) then Some (mk_arr a sh) else None.

Definition aget (x : arr) (ix : list nat) : option nat :=
  match ravelF (a_shape x) ix with
  | Some r => Some (a_base x + r)
  | None => None
  end.

Definition asize (x : arr) : nat := prodl (a_shape x).

(** ** facts *)

Lemma ravelF_lt sh ix r : ravelF sh ix = Some r -> r < prodl sh.
Proof.
  revert ix r; induction sh as [|n sh IH]; intros [|i ix] r; simpl; try discriminate.
  - intros [= <-]; lia.
  - destruct (i <? n) eqn:E; [|discriminate]. apply Nat.ltb_lt in E.
    destruct (ravelF sh ix) as [q|] eqn:Q; [|discriminate].
    intros [= <-]. specialize (IH _ _ Q). nia.
Qed.

Lemma ravelF_inj sh ix iy r :
  ravelF sh ix = Some r -> ravelF sh iy = Some r -> ix = iy.
Proof.
  revert ix iy r; induction sh as [|n sh IH]; intros [|i ix] [|j iy] r; simpl;
    try discriminate; auto.
  destruct (i <? n) eqn:E; [|discriminate]. destruct (j <? n) eqn:E'; [|discriminate].
  apply Nat.ltb_lt in E, E'.
  destruct (ravelF sh ix) as [q|] eqn:Q; [|discriminate].
  destruct (ravelF sh iy) as [q'|] eqn:Q'; [|discriminate].
  intros [= <-] [= H].
  assert (q = q') as -> by nia.
  assert (i = j) as -> by nia.
  f_equal. eapply IH; eauto.
Qed.

Lemma ravelF_surj sh r : r < prodl sh -> exists ix, ravelF sh ix = Some r.
Proof.
  revert r; induction sh as [|n sh IH]; simpl; intros r H.
  - exists []; simpl; f_equal; lia.
  - assert (n <> 0) by (intros ->; lia).
    destruct (IH (r / n)) as [ix Hix].
    { apply Nat.div_lt_upper_bound; auto. }
    exists (r mod n :: ix); simpl.
    pose proof (Nat.mod_upper_bound r n H0).
    replace (r mod n <? n) with true by (symmetry; apply Nat.ltb_lt; auto).
    rewrite Hix. f_equal. pose proof (Nat.div_mod r n H0). lia.
Qed.

Lemma in_indices_ravel sh ix : In ix (indices sh) <-> exists r, ravelF sh ix = Some r.
Proof.
  revert ix; induction sh as [|n sh IH]; intros ix; simpl.
  - split.
    + intros [<-|[]]; eauto.
    + destruct ix; intros [r H]; [auto|discriminate].
  - rewrite in_flat_map. split.
    + intros (jx & Hj & Hi). apply in_map_iff in Hi as (i & <- & Hs).
      apply in_seq in Hs. apply IH in Hj as [r Hr].
      replace (i <? n) with true by (symmetry; apply Nat.ltb_lt; lia).
      rewrite Hr; eauto.
    + destruct ix as [|i ix]; intros [r H]; [discriminate|].
      destruct (i <? n) eqn:E; [|discriminate]. apply Nat.ltb_lt in E.
      destruct (ravelF sh ix) eqn:Q; [|discriminate].
      exists ix; split; [apply IH; eauto|].
      apply in_map_iff; exists i; split; auto. apply in_seq; lia.
Qed.

Lemma NoDup_flat_map {A B} (f : A -> list B) l :
  NoDup l -> (forall a, In a l -> NoDup (f a)) ->
  (forall a b x, In a l -> In b l -> In x (f a) -> In x (f b) -> a = b) ->
  NoDup (flat_map f l).
Proof.
  induction l as [|a l IH]; simpl; intros Hn Hf Hd; [constructor|].
  inversion Hn; subst.
  assert (NoDup (flat_map f l)).
  { apply IH; auto. intros; eapply Hd; eauto. }
  assert (NoDup (f a)) by auto.
  clear IH. assert (forall x, In x (f a) -> ~ In x (flat_map f l)) as Hx.
  { intros x Hx Hin. apply in_flat_map in Hin as (b & Hb & Hxb).
    assert (a = b) by (eapply Hd; eauto). congruence. }
  revert H0 Hx. induction (f a) as [|x q IHq]; simpl; intros Hq Hx; auto.
  inversion Hq; subst. constructor.
  - rewrite in_app_iff. intros [?|?]; [contradiction|]. eapply Hx; eauto.
  - apply IHq; auto.
Qed.

Lemma indices_NoDup sh : NoDup (indices sh).
Proof.
  induction sh as [|n sh IH]; simpl.
  - repeat constructor; auto.
  - apply NoDup_flat_map; auto.
    + intros ix _. apply Injective_map_NoDup; [|apply seq_NoDup].
      intros a b H; congruence.
    + intros a b x _ _ Ha Hb. apply in_map_iff in Ha as (? & <- & _).
      apply in_map_iff in Hb as (? & H & _). congruence.
Qed.

Lemma seq_shift_by n q s : map (fun i => i + q) (seq s n) = seq (s + q) n.
Proof.
  revert s; induction n; intros s; simpl; f_equal; auto.
  rewrite IHn. f_equal.
Qed.

Lemma ravelF_indices_seq sh : map (ravelF sh) (indices sh) = map Some (seq 0 (prodl sh)).
Proof.
  induction sh as [|n sh IH]; simpl; auto.
  set (m := prodl sh) in *.
  assert (forall l o, map (ravelF sh) l = map Some (seq o (length l)) ->
     map (ravelF (n :: sh)) (flat_map (fun ix => map (fun i => i :: ix) (seq 0 n)) l)
     = map Some (seq (n * o) (n * length l))) as Hgen.
  { induction l as [|ix l IHl]; intros o H; simpl in *.
    - rewrite Nat.mul_0_r; reflexivity.
    - injection H as H1 H2. rewrite map_app, (IHl (S o)) by auto.
      replace (n * S (length l)) with (n + n * length l) by lia.
      rewrite seq_app, map_app. replace (n * S o) with (n * o + n) by lia.
      f_equal. rewrite map_map.
      replace (seq (n*o) n) with (map (fun i => i + n * o) (seq 0 n)).
      2:{ rewrite (seq_shift_by n (n * o) 0). rewrite Nat.add_0_l; reflexivity. }
      rewrite map_map. apply map_ext_in. intros i Hi. apply in_seq in Hi.
      simpl. replace (i <? n) with true by (symmetry; apply Nat.ltb_lt; lia).
      rewrite H1. reflexivity. }
  assert (length (indices sh) = m) as Hl.
  { rewrite <- (map_length (ravelF sh)), IH, map_length, seq_length; auto. }
  specialize (Hgen (indices sh) 0). rewrite Hl in Hgen.
  rewrite Nat.mul_0_r in Hgen. apply Hgen; auto.
Qed.

Lemma arange_reshape_some a b sh x :
  arange_reshape a b sh = Some x -> x = mk_arr a sh /\ a <= b /\ prodl sh = b - a.
Proof.
  unfold arange_reshape. destruct (a <=? b) eqn:E; simpl; [|discriminate].
  destruct (prodl sh =? b - a) eqn:E'; [|discriminate].
  apply Nat.leb_le in E. apply Nat.eqb_eq in E'. intros [= <-]; auto.
Qed.

Lemma arange_reshape_ok a n sh :
  prodl sh = n -> arange_reshape a (a + n) sh = Some (mk_arr a sh).
Proof.
  intros <-. unfold arange_reshape.
  replace (a <=? a + prodl sh) with true by (symmetry; apply Nat.leb_le; lia).
  replace (prodl sh =? a + prodl sh - a) with true by (symmetry; apply Nat.eqb_eq; lia).
  reflexivity.
Qed.
