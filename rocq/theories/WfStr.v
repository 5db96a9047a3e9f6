(** The text of indices and requests. *)
From Coq Require Import Ascii String DecimalString DecimalNat Decimal Bool Arith Lia List Permutation Sorted.
From Verif Require Import WfModel.
Import ListNotations.
Local Open Scope list_scope.
Local Open Scope nat_scope.

Lemma append_nil s : String.append s EmptyString = s.
Proof. induction s; cbn; congruence. Qed.

Lemma append_assoc a b c : String.append (String.append a b) c = String.append a (String.append b c).
Proof. induction a; cbn; congruence. Qed.

Lemma count_append c a b : count_char c (String.append a b) = count_char c a + count_char c b.
Proof. induction a; cbn; [reflexivity | rewrite IHa; lia]. Qed.

Lemma remove_append c a b : remove_char c (String.append a b) = String.append (remove_char c a) (remove_char c b).
Proof. induction a as [|x a IH]; cbn; [reflexivity|]. destruct (Ascii.eqb x c); cbn; rewrite IH; reflexivity. Qed.

Lemma remove_free c s : count_char c s = 0 -> remove_char c s = s.
Proof.
  induction s as [|x s IH]; cbn; [reflexivity|].
  destruct (Ascii.eqb x c); cbn; intro H; [lia | now rewrite IH].
Qed.

Lemma count_remove c s : count_char c (remove_char c s) = 0.
Proof. induction s as [|x s IH]; cbn; [reflexivity|]. destruct (Ascii.eqb x c) eqn:E; cbn; [exact IH | rewrite E; exact IH]. Qed.

Lemma count_remove_other c d s : Ascii.eqb d c = false -> count_char d (remove_char c s) = count_char d s.
Proof.
  intro N. induction s as [|x s IH]; cbn; [reflexivity|].
  destruct (Ascii.eqb x c) eqn:E; cbn.
  - apply Ascii.eqb_eq in E. subst x. rewrite Ascii.eqb_sym, N. exact IH.
  - now rewrite IH.
Qed.

Lemma split_ne c s : split c s <> [].
Proof. destruct s as [|x s]; cbn; [discriminate|]. destruct (Ascii.eqb x c); [discriminate|]. destruct (split c s); discriminate. Qed.

Lemma split_free c s : count_char c s = 0 -> split c s = [s].
Proof.
  induction s as [|x s IH]; cbn; [reflexivity|].
  destruct (Ascii.eqb x c); cbn; intro H; [lia | now rewrite IH].
Qed.

Lemma split_app c a b : count_char c a = 0 -> split c (String.append a (String c b)) = a :: split c b.
Proof.
  induction a as [|x a IH]; cbn; [intros _; now rewrite Ascii.eqb_refl|].
  destruct (Ascii.eqb x c); cbn; intro H; [lia | now rewrite IH].
Qed.

Lemma split_one c s x : split c s = [x] -> s = x.
Proof.
  revert x. induction s as [|a s IH]; cbn; intros x H; [congruence|].
  destruct (Ascii.eqb a c).
  - injection H as _ H. now destruct (split_ne c s).
  - destruct (split c s) as [|h t] eqn:E; [now destruct (split_ne c s)|].
    injection H as H1 H2. subst x t. now rewrite (IH h eq_refl).
Qed.

(* ------------------------------------------------ decimal numbers *)

Lemma digits_uint d : all_digits (NilEmpty.string_of_uint d) = true.
Proof. induction d; cbn; auto. Qed.

Lemma to_uint_ne n : Nat.to_uint n <> Nil.
Proof.
  intro H. assert (n = 0) by (rewrite <- (DecimalNat.Unsigned.of_to n), H; reflexivity).
  subst n. discriminate H.
Qed.

Lemma dec_digits n : all_digits (dec n) = true.
Proof.
  unfold dec, NilZero.string_of_uint. destruct (Nat.to_uint n) eqn:E; try apply digits_uint.
  now destruct (to_uint_ne n).
Qed.

Lemma dec_ne n : dec n <> EmptyString.
Proof.
  unfold dec, NilZero.string_of_uint. destruct (Nat.to_uint n) eqn:E; cbn; discriminate.
Qed.

Lemma digits_count c s : is_digit c = false -> all_digits s = true -> count_char c s = 0.
Proof.
  intros N. induction s as [|x s IH]; cbn; [reflexivity|].
  intro H. apply andb_true_iff in H. destruct H as [H1 H2].
  destruct (Ascii.eqb x c) eqn:E; [|now rewrite IH].
  apply Ascii.eqb_eq in E. congruence.
Qed.

Lemma dec_count c n : is_digit c = false -> count_char c (dec n) = 0.
Proof. intro H. apply digits_count; [exact H | apply dec_digits]. Qed.

Lemma to_int_dec n : to_int (dec n) = Some n.
Proof.
  unfold to_int, dec. rewrite NilZero.usu; [|apply to_uint_ne].
  now rewrite DecimalNat.Unsigned.of_to.
Qed.

Lemma dec_inj n m : dec n = dec m -> n = m.
Proof. intro H. apply (f_equal to_int) in H. rewrite !to_int_dec in H. congruence. Qed.

Lemma dec_numeric n : is_numeric (dec n) = true.
Proof.
  unfold is_numeric. rewrite dec_digits, andb_true_r.
  destruct (String.eqb_spec (dec n) ""); [now destruct (dec_ne n) | reflexivity].
Qed.

Lemma dec_eqb_empty n : String.eqb (dec n) "" = false.
Proof. destruct (String.eqb_spec (dec n) ""); [now destruct (dec_ne n) | reflexivity]. Qed.

Lemma digits_append a b : all_digits (String.append a b) = all_digits a && all_digits b.
Proof. induction a; cbn; [reflexivity|]. rewrite IHa. now rewrite andb_assoc. Qed.

(* ------------------------------------------------ indices *)

Lemma split_index i k : split "-" (String.append (dec i) (String "-" k)) = dec i :: split "-" k.
Proof. apply split_app. now apply dec_count. Qed.

Lemma index_inj i k j m : index_of i k = index_of j m -> i = j /\ k = m.
Proof.
  intro H. apply (f_equal (split "-")) in H. unfold index_of in H. rewrite !split_index in H.
  rewrite !split_free in H by now apply dec_count.
  injection H as H1 H2. split; now apply dec_inj.
Qed.

Lemma index_word i j m k : index_of j m = String.append (dec i) (String "-" k) -> i = j /\ k = dec m.
Proof.
  intro H. apply (f_equal (split "-")) in H. unfold index_of in H. rewrite !split_index in H.
  rewrite (split_free _ (dec m)) in H by now apply dec_count.
  injection H as H1 H2. split; [now apply dec_inj | apply (split_one "-"); congruence].
Qed.

(* ------------------------------------------------ lists *)

Lemma map_opt_length {A B} (f : A -> option B) l r : map_opt f l = Some r -> List.length r = List.length l.
Proof.
  revert r. induction l as [|a l IH]; cbn; intros r H; [now injection H as <-|].
  destruct (f a); [|discriminate]. destruct (map_opt f l) as [bs|]; [|discriminate].
  injection H as <-. cbn. now rewrite (IH bs eq_refl).
Qed.

Lemma map_opt_app {A B} (f : A -> option B) a b r :
  map_opt f (a ++ b) = Some r <-> exists x y, map_opt f a = Some x /\ map_opt f b = Some y /\ r = x ++ y.
Proof.
  revert r. induction a as [|c a IH]; cbn; intro r.
  - split; [intro H; exists [], r; auto | intros (x & y & [= <-] & H & ->); exact H].
  - destruct (f c) as [d|].
    2:{ split; [discriminate | intros (x & y & H & _); discriminate]. }
    destruct (map_opt f (a ++ b)) as [z|] eqn:E.
    + destruct (proj1 (IH z) eq_refl) as (x & y & H1 & H2 & ->). rewrite H1. split.
      * intros [= <-]. exists (d :: x), y. auto.
      * intros (x' & y' & [= <-] & H3 & ->). rewrite H2 in H3. injection H3 as <-. reflexivity.
    + split; [discriminate|]. intros (x & y & H1 & H2 & ->).
      destruct (map_opt f a) as [x'|]; [|discriminate].
      assert (X : None = Some (x' ++ y)) by (apply IH; exists x', y; auto). discriminate.
Qed.

Lemma map_opt_Forall2 {A B} (f : A -> option B) l r :
  map_opt f l = Some r <-> Forall2 (fun a b => f a = Some b) l r.
Proof.
  revert r. induction l as [|a l IH]; cbn; intro r.
  - split; [intros [= <-]; constructor | intro H; now inversion H].
  - split.
    + destruct (f a) eqn:E; [|discriminate]. destruct (map_opt f l) as [bs|]; [|discriminate].
      intros [= <-]. constructor; [exact E | now apply IH].
    + intro H. inversion H; subst. rewrite H2. now rewrite (proj2 (IH l') H4).
Qed.

Lemma map_opt_map {A B C} (g : A -> B) (f : B -> option C) l : map_opt f (map g l) = map_opt (fun a => f (g a)) l.
Proof. induction l; cbn; [reflexivity | now rewrite IHl]. Qed.

Lemma map_opt_ext {A B} (f g : A -> option B) l : (forall a, In a l -> f a = g a) -> map_opt f l = map_opt g l.
Proof.
  induction l as [|a l IH]; intro H; cbn; [reflexivity|].
  rewrite (H a (or_introl eq_refl)), IH; [reflexivity | intros; apply H; now right].
Qed.

Lemma map_opt_dec l : map_opt to_int (map dec l) = Some l.
Proof. induction l; cbn; [reflexivity|]. now rewrite to_int_dec, IHl. Qed.

Lemma ins_perm n l : Permutation (n :: l) (ins n l).
Proof.
  induction l as [|m l IH]; cbn; [reflexivity|]. destruct (n <=? m); [reflexivity|].
  rewrite perm_swap. now constructor.
Qed.
Lemma sort_perm l : Permutation l (sort l).
Proof. induction l as [|n l IH]; cbn; [reflexivity|]. now rewrite <- ins_perm, <- IH. Qed.

Lemma ins_sorted n l : Sorted le l -> Sorted le (ins n l).
Proof.
  induction l as [|m l IH]; cbn; intro H; [repeat constructor|].
  destruct (Nat.leb_spec n m); [constructor; [exact H | constructor; lia]|].
  inversion H; subst. constructor; [now apply IH|].
  destruct l as [|p l]; cbn; [constructor; lia|].
  inversion H4; subst. destruct (n <=? p); constructor; lia.
Qed.
Lemma sort_sorted l : Sorted le (sort l).
Proof. induction l; cbn; [constructor | now apply ins_sorted]. Qed.

Lemma seq_sorted n a : StronglySorted le (seq a n).
Proof.
  revert a. induction n; intro a; cbn; constructor; [apply IHn|].
  apply Forall_forall. intros x H. apply in_seq in H. lia.
Qed.

Lemma sorted_unique l r : StronglySorted le l -> StronglySorted le r -> Permutation l r -> l = r.
Proof.
  revert r. induction l as [|a l IH]; intros r HL HR P.
  - now apply Permutation_nil in P.
  - destruct r as [|b r]; [symmetry in P; now apply Permutation_nil in P|].
    inversion HL; subst. inversion HR; subst.
    assert (a = b).
    { assert (IA : In a (b :: r)) by (apply (Permutation_in _ P); now left).
      assert (IB : In b (a :: l)) by (apply (Permutation_in _ (Permutation_sym P)); now left).
      destruct IA as [->|IA]; [reflexivity|]. destruct IB as [->|IB]; [reflexivity|].
      rewrite Forall_forall in H2, H4. specialize (H2 _ IB). specialize (H4 _ IA). lia. }
    subst b. f_equal. apply IH; auto. now apply Permutation_cons_inv in P.
Qed.

Lemma sort_seq l n : sort l = seq 0 n <-> Permutation l (seq 0 n).
Proof.
  split.
  - intro H. rewrite <- H. apply sort_perm.
  - intro P. apply sorted_unique.
    + apply Sorted_StronglySorted; [intros x y z; apply Nat.le_trans | apply sort_sorted].
    + apply seq_sorted.
    + now rewrite <- sort_perm.
Qed.
