(** Proofs about the distribution of elements over ranks. *)
From Coq Require Import List Arith ZArith QArith Bool Lia Permutation Sorted.
From Verif Require Import Dict DistributeModel DistributeSpec.
Import ListNotations.
Local Open Scope nat_scope.

(** * numbers *)
Lemma list_sum_repeat a n : list_sum (repeat a n) = n * a.
Proof. induction n; simpl; lia. Qed.
Lemma list_sum_app' a b : list_sum (a ++ b) = list_sum a + list_sum b.
Proof. apply list_sum_app. Qed.
Lemma list_sum_cons a l : list_sum (a :: l) = a + list_sum l.
Proof. reflexivity. Qed.
Lemma list_sum_rev l : list_sum (rev l) = list_sum l.
Proof. induction l; simpl; auto. rewrite list_sum_app'. simpl. lia. Qed.

Lemma rev_repeat' (a n : nat) : rev (repeat a n) = repeat a n.
Proof. induction n; simpl; auto. rewrite IHn. clear. induction n; simpl; congruence. Qed.

Lemma step_list (zp pp : nat) n : forall s, map (fun i => if zp <=? i then pp + 1 else pp) (seq s n) =
  repeat pp (min n (zp - s)) ++ repeat (pp + 1) (n - (zp - s)).
Proof.
  induction n as [|n IH]; intros s; [reflexivity|].
  cbn [seq map]. rewrite IH. destruct (Nat.leb_spec zp s).
  - replace (zp - s) with 0 by lia. replace (zp - S s) with 0 by lia. rewrite !Nat.min_0_r, !Nat.sub_0_r. reflexivity.
  - replace (zp - s) with (S (zp - S s)) by lia. reflexivity.
Qed.

Lemma split_shape x n l : split x n = Some l ->
  exists a b p, l = repeat p a ++ repeat (p + 1) b /\ a + b = n /\ a * p + b * (p + 1) = x.
Proof.
  unfold split. destruct (Nat.ltb_spec x n) as [L|L].
  - intros [= <-]. exists (n - x), x, 0. rewrite rev_app_distr, !rev_repeat'. 
    repeat split; try lia. 
  - destruct (Nat.eqb_spec n 0) as [->|N]; [discriminate|].
    pose proof (Nat.div_mod x n N) as E. pose proof (Nat.mod_upper_bound x n N) as U.
    destruct (Nat.eqb_spec (x mod n) 0) as [Z|Z]; intros [= <-].
    + exists n, 0, (x / n). rewrite app_nil_r. repeat split; nia.
    + exists (n - x mod n), (x mod n), (x / n). split; [|split; nia].
      rewrite step_list. rewrite Nat.sub_0_r. f_equal; f_equal; lia.
Qed.

Lemma split_sum x n l : split x n = Some l -> length l = n /\ list_sum l = x.
Proof.
  intros H. apply split_shape in H as (a & b & p & -> & E1 & E2).
  rewrite app_length, !repeat_length, list_sum_app', !list_sum_repeat. lia.
Qed.
Lemma split_total x n : 0 < n -> exists l, split x n = Some l.
Proof. intros H. unfold split. destruct (x <? n); eauto. destruct (Nat.eqb_spec n 0); [lia|]. destruct (x mod n =? 0); eauto. Qed.
Lemma split_even x n l : split x n = Some l -> forall i j, i <= j -> j < n -> nth i l 0 <= nth j l 0 <= nth i l 0 + 1.
Proof.
  intros H. apply split_shape in H as (a & b & p & -> & E1 & E2).
  assert (N : forall i, i < n -> nth i (repeat p a ++ repeat (p + 1) b) 0 = if i <? a then p else p + 1).
  { intros i Hi. destruct (Nat.ltb_spec i a).
    - rewrite app_nth1 by (now rewrite repeat_length). rewrite nth_indep with (d' := p) by (now rewrite repeat_length). apply nth_repeat.
    - rewrite app_nth2, repeat_length by (now rewrite repeat_length). rewrite nth_indep with (d' := p + 1) by (rewrite repeat_length; lia). apply nth_repeat. }
  intros i j Hi Hj. rewrite !N by lia. destruct (Nat.ltb_spec i a), (Nat.ltb_spec j a); lia.
Qed.

Lemma add_lists a : forall b, length a = length b ->
  length (map (fun p : nat * nat => fst p + snd p) (combine a b)) = length a /\
  list_sum (map (fun p => fst p + snd p) (combine a b)) = list_sum a + list_sum b.
Proof.
  induction a as [|x a IH]; intros [|y b] E; try discriminate; [split; reflexivity|].
  injection E as E. destruct (IH b E) as [L S]. cbn [combine map length fst snd]. rewrite !list_sum_cons. cbn [fst snd]. lia.
Qed.
Lemma shares_sum size n sh : shares size n = Some sh -> length sh = size /\ list_sum sh = n.
Proof.
  unfold shares. destruct (split n size) as [rn|] eqn:E; [|discriminate]. apply split_sum in E as [L S].
  destruct (n <? 4 * size); [intros [= <-]; auto|]. destruct rn as [|r0 rs]; [discriminate|].
  pose proof (Nat.div_mod r0 2 ltac:(lia)) as Hm. remember (r0 / 2) as m eqn:Em.
  destruct (split (r0 - m) (size - 1)) as [ex|] eqn:E; [|discriminate]. intros [= <-]. apply split_sum in E as [L' S'].
  cbn [length] in *. rewrite list_sum_cons in S |- *.
  destruct (add_lists rs ex) as [A B]; [lia|]. rewrite A, B. lia.
Qed.
Lemma shares_total size n : 2 <= size -> exists sh, shares size n = Some sh.
Proof.
  intros H. unfold shares. destruct (split_total n size) as [rn E]; [lia|]. rewrite E. destruct (n <? 4 * size); eauto.
  apply split_sum in E as [L S]. destruct rn as [|r0 rs]; [simpl in L; lia|].
  destruct (split_total (r0 - r0 / 2) (size - 1)) as [ex E]; [lia|]. rewrite E. eauto.
Qed.

(** * sorting *)
Lemma insert_perm x l : Permutation (insert x l) (x :: l).
Proof.
  induction l as [|y l IH]; simpl; auto. destruct (Qle_bool x y); auto.
  rewrite IH. apply perm_swap.
Qed.
Lemma sort_perm l : Permutation (sort l) l.
Proof. induction l as [|x l IH]; simpl; auto. now rewrite insert_perm, IH. Qed.
Lemma insert_sorted x l : StronglySorted Qle l -> StronglySorted Qle (insert x l).
Proof.
  induction 1 as [|y l S IH F]; simpl; [repeat constructor|].
  destruct (Qle_bool x y) eqn:E.
  - apply Qle_bool_iff in E. constructor; [constructor; auto|]. constructor; auto.
    eapply Forall_impl; [|exact F]. intros a Ha. eapply Qle_trans; eauto.
  - constructor; auto. rewrite Forall_forall. intros a Ha. apply (Permutation_in _ (insert_perm x l)) in Ha as [<-|Ha].
    + apply Qlt_le_weak. apply Qnot_le_lt. intros C. apply Qle_bool_iff in C. congruence.
    + rewrite Forall_forall in F. auto.
Qed.
Lemma sort_sorted l : StronglySorted Qle (sort l).
Proof. induction l; simpl; [constructor|]. now apply insert_sorted. Qed.

Definition countle (q : Q) (l : list Q) : nat := length (filter (fun x => Qle_bool x q) l).
Lemma countle_perm q l l' : Permutation l l' -> countle q l = countle q l'.
Proof.
  unfold countle. induction 1; simpl; auto.
  - destruct (Qle_bool x q); simpl; auto.
  - destruct (Qle_bool x q), (Qle_bool y q); simpl; auto.
  - congruence.
Qed.
Lemma sorted_count n : forall l d, StronglySorted Qle l -> n < length l -> n < countle (nth n l d) l.
Proof.
  induction n as [|n IH]; intros [|x l] d S H; simpl in H; try lia; inversion S as [|? ? S' F]; subst.
  - cbn [nth]. unfold countle. cbn [filter]. replace (Qle_bool x x) with true; [simpl; lia|]. symmetry. apply Qle_bool_iff. apply Qle_refl.
  - cbn [nth]. unfold countle. cbn [filter]. rewrite Forall_forall in F.
    replace (Qle_bool x (nth n l d)) with true.
    + simpl. specialize (IH l d S' ltac:(lia)). unfold countle in IH. lia.
    + symmetry. apply Qle_bool_iff. apply F. apply nth_In. lia.
Qed.
Lemma sorted_last l : forall d, StronglySorted Qle l -> forall x, In x l -> (x <= last l d)%Q.
Proof.
  induction l as [|y l IH]; intros d S x; [simpl; tauto|]. inversion S as [|? ? S' F]; subst. intros [<-|H].
  - destruct l as [|z l]; [apply Qle_refl|]. rewrite Forall_forall in F. cbn [last]. apply F.
    change (In (last (z :: l) d) (z :: l)). clear. revert z. induction l as [|w l IH]; intros z; [left; reflexivity|].
    right. change (In (last (w :: l) d) (w :: l)). apply IH.
  - destruct l as [|z l]; [destruct H|]. change (x <= last (z :: l) d)%Q. now apply IH.
Qed.
Lemma filter_map_length {A B} (f : B -> bool) (g : A -> B) l : length (filter (fun x => f (g x)) l) = length (filter f (map g l)).
Proof. induction l; simpl; auto. destruct (f (g a)); simpl; auto. Qed.
Lemma filter_true_id {A} (f : A -> bool) l : (forall x, In x l -> f x = true) -> filter f l = l.
Proof. induction l; simpl; auto. intros H. rewrite H by auto. f_equal. auto. Qed.

Lemma apart_perm l l' : Permutation l l' -> ForallOrdPairs (fun a b : Q => ~ (a == b)%Q) l -> ForallOrdPairs (fun a b => ~ (a == b)%Q) l'.
Proof.
  induction 1 as [|x l l' P IH|x y l|l l' l'' P1 IH1 P2 IH2]; intros F; auto.
  - inversion F; subst. constructor; auto. rewrite Forall_forall in *. intros z Hz. apply H1. apply (Permutation_in _ (Permutation_sym P) Hz).
  - inversion F as [|? ? A B]; subst. inversion B as [|? ? C E]; subst. inversion A as [|? ? G I]; subst.
    constructor; [constructor; auto; intros X; apply G; now symmetry|]. constructor; auto.
Qed.
Lemma strict_of_distinct l : StronglySorted Qle l -> ForallOrdPairs (fun a b => ~ (a == b)%Q) l -> StronglySorted Qlt l.
Proof.
  induction 1 as [|x l S IH F]; intros G; [constructor|]. inversion G as [|? ? A B]; subst. constructor; auto.
  rewrite Forall_forall in *. intros y Hy. destruct (Qlt_le_dec x y) as [|C]; auto. exfalso. apply (A y Hy). apply Qle_antisym; auto.
Qed.
Lemma strict_count n : forall l d, StronglySorted Qlt l -> n < length l -> countle (nth n l d) l = S n.
Proof.
  induction n as [|n IH]; intros [|x l] d S H; simpl in H; try lia; inversion S as [|? ? S' F]; subst; rewrite Forall_forall in F.
  - cbn [nth]. unfold countle. cbn [filter]. rewrite (proj2 (Qle_bool_iff x x) (Qle_refl x)). cbn [length]. f_equal.
    destruct (filter (fun y => Qle_bool y x) l) as [|y t] eqn:E; auto. assert (Hy : In y (y :: t)) by now left. rewrite <- E in Hy.
    apply filter_In in Hy as [Hy C]. apply Qle_bool_iff in C. exfalso. apply (Qlt_not_le _ _ (F y Hy) C).
  - cbn [nth]. unfold countle. cbn [filter]. rewrite (proj2 (Qle_bool_iff x (nth n l d))).
    + cbn [length]. f_equal. apply IH; auto. lia.
    + apply Qlt_le_weak. apply F. apply nth_In. lia.
Qed.

Lemma NoDup_app' {A} (a b : list A) : NoDup a -> NoDup b -> (forall x, In x a -> ~ In x b) -> NoDup (a ++ b).
Proof.
  induction 1 as [|x a N H IH]; simpl; auto. intros Nb F. constructor.
  - rewrite in_app_iff. intros [C|C]; [auto|]. apply (F x); auto.
  - apply IH; auto.
Qed.

Lemma NoDup_app_inv' {A} (a b : list A) : NoDup (a ++ b) -> NoDup a /\ NoDup b /\ forall x, In x a -> ~ In x b.
Proof.
  induction a as [|x a IH]; simpl; intros H; [repeat split; auto; constructor|]. inversion H as [|? ? N H']; subst. destruct (IH H') as (P & Q & R).
  rewrite in_app_iff in N. repeat split; auto; [constructor; tauto|]. intros y [->|Hy]; auto.
Qed.

Lemma skipn_skipn' {A} (a b : nat) : forall l : list A, skipn a (skipn b l) = skipn (b + a) l.
Proof. induction b as [|b IH]; intros l; auto. destruct l as [|x l]; [now rewrite !skipn_nil|]. simpl. apply IH. Qed.

Section Ranks.
  Context {K : Type} (eqb : K -> K -> bool) (dist : K -> K -> Q).
  Context (D : decides eqb).
  Implicit Types (rem : list K) (ds : list (list K)).

  (** * balls *)
  Definition radius (n : nat) rem : Q :=
    match rem with [] => 0%Q | c :: _ => let l := sort (map (fun e => dist e c) rem) in if length l <=? n then (last l 0 + 1)%Q else nth n l 0%Q end.
  Lemma ball_filter n c r : ball dist n (c :: r) = filter (fun e => Qle_bool (dist e c) (radius n (c :: r))) (c :: r).
  Proof. reflexivity. Qed.
  Lemma ball_all n rem : length rem <= n -> ball dist n rem = rem.
  Proof.
    destruct rem as [|c r]; [reflexivity|]. intros H. rewrite ball_filter. apply filter_true_id. intros x Hx. unfold radius.
    rewrite (Permutation_length (sort_perm _)), map_length. destruct (Nat.leb_spec (length (c :: r)) n); [|lia].
    apply Qle_bool_iff. apply Qle_trans with (last (sort (map (fun e => dist e c) (c :: r))) 0%Q + 0)%Q.
    - rewrite Qplus_0_r. apply sorted_last; [apply sort_sorted|].
      apply (Permutation_in _ (Permutation_sym (sort_perm _))). now apply (in_map (fun e => dist e c)).
    - apply Qplus_le_compat; [apply Qle_refl|discriminate].
  Qed.
  Lemma ball_size n rem : min (S n) (length rem) <= length (ball dist n rem).
  Proof.
    destruct (le_lt_dec (length rem) n) as [H|H]; [rewrite ball_all; lia|].
    destruct rem as [|c r]; [simpl in H; lia|]. rewrite ball_filter. rewrite (filter_map_length (fun x => Qle_bool x (radius n (c :: r))) (fun e => dist e c)).
    fold (countle (radius n (c :: r)) (map (fun e => dist e c) (c :: r))).
    rewrite <- (countle_perm _ _ _ (sort_perm _)). unfold radius.
    assert (L : length (sort (map (fun e => dist e c) (c :: r))) = length (c :: r)) by (rewrite (Permutation_length (sort_perm _)); apply map_length).
    rewrite L. destruct (Nat.leb_spec (length (c :: r)) n); [lia|].
    pose proof (sorted_count n (sort (map (fun e => dist e c) (c :: r))) 0%Q (sort_sorted _) ltac:(lia)). lia.
  Qed.
  Lemma ball_exact n c r : NoDup (c :: r) -> (forall e e', In e (c :: r) -> In e' (c :: r) -> (dist e c == dist e' c)%Q -> e = e') ->
    length (ball dist n (c :: r)) = min (S n) (length (c :: r)).
  Proof.
    intros N I. destruct (le_lt_dec (length (c :: r)) n) as [H|H]; [rewrite ball_all; lia|].
    rewrite ball_filter. rewrite (filter_map_length (fun x => Qle_bool x (radius n (c :: r))) (fun e => dist e c)).
    fold (countle (radius n (c :: r)) (map (fun e => dist e c) (c :: r))).
    rewrite <- (countle_perm _ _ _ (sort_perm _)). unfold radius.
    assert (L : length (sort (map (fun e => dist e c) (c :: r))) = length (c :: r)) by (rewrite (Permutation_length (sort_perm _)); apply map_length).
    rewrite L. destruct (Nat.leb_spec (length (c :: r)) n); [lia|].
    rewrite strict_count; [lia| |lia]. apply strict_of_distinct; [apply sort_sorted|].
    eapply apart_perm; [symmetry; apply sort_perm|]. revert N I. generalize (c :: r) as l. generalize c. clear.
    intros c l. induction l as [|x l IH]; intros N I; simpl; [constructor|]. inversion N; subst. constructor.
    - apply Forall_forall. intros q Hq. apply in_map_iff in Hq as (y & <- & Hy). intros C. apply H1. rewrite (I x y); auto; [now left|now right].
    - apply IH; auto. intros e e' He He'. apply I; now right.
  Qed.
  Lemma ball_incl n rem e : In e (ball dist n rem) -> In e rem.
  Proof. destruct rem; [tauto|]. rewrite ball_filter. intros H. now apply filter_In in H. Qed.
  Lemma ball_near n c r : forall e e', In e (ball dist n (c :: r)) -> In e' (c :: r) -> ~ In e' (ball dist n (c :: r)) -> (dist e c < dist e' c)%Q.
  Proof.
    intros e e'. rewrite ball_filter. rewrite !filter_In. intros [_ H] Hi Hn. apply Qle_bool_iff in H.
    eapply Qle_lt_trans; [exact H|]. apply Qnot_le_lt. intros C. apply Hn. split; auto. now apply Qle_bool_iff.
  Qed.

  Definition mem (x : K) (l : list K) : bool := existsb (eqb x) l.
  Lemma mem_in x l : mem x l = true <-> In x l.
  Proof. unfold mem. rewrite existsb_exists. split; [intros (y & H & E); apply D in E as ->; auto|]. intros H. exists x. split; auto. now apply D. Qed.
  Lemma remove1_filter e l : NoDup l -> remove1 eqb e l = filter (fun x => negb (eqb e x)) l.
  Proof.
    induction 1 as [|x l N H IH]; auto. simpl. destruct (eqb e x) eqn:E; simpl.
    - apply D in E as ->. symmetry. apply filter_true_id. intros y Hy. destruct (eqb x y) eqn:E; auto. apply D in E as ->. contradiction.
    - now rewrite IH.
  Qed.
  Lemma filter_filter {A} (f g : A -> bool) l : filter f (filter g l) = filter (fun x => g x && f x) l.
  Proof. induction l; simpl; auto. destruct (g a); simpl; [destruct (f a)|]; simpl; congruence. Qed.
  Lemma remove_all_filter tk : forall l, NoDup l -> remove_all eqb l tk = filter (fun x => negb (mem x tk)) l.
  Proof.
    unfold remove_all. induction tk as [|e tk IH]; intros l H; simpl.
    - symmetry. now apply filter_true_id.
    - rewrite IH by (rewrite remove1_filter by auto; now apply NoDup_filter). rewrite remove1_filter by auto. rewrite filter_filter.
      apply filter_ext. intros x. rewrite <- negb_orb. f_equal. f_equal.
      destruct (eqb e x) eqn:E1, (eqb x e) eqn:E2; auto.
      + apply D in E1 as ->. now rewrite (proj2 (D x x) eq_refl) in E2.
      + apply D in E2 as ->. now rewrite (proj2 (D e e) eq_refl) in E1.
  Qed.
  Lemma remove_all_in tk l x : NoDup l -> In x (remove_all eqb l tk) <-> In x l /\ ~ In x tk.
  Proof. intros H. rewrite remove_all_filter, filter_In by auto. rewrite <- (mem_in x tk). destruct (mem x tk); simpl; intuition congruence. Qed.
  Lemma remove_all_nodup tk l : NoDup l -> NoDup (remove_all eqb l tk).
  Proof. intros H. rewrite remove_all_filter by auto. now apply NoDup_filter. Qed.
  Lemma ball_nodup n rem : NoDup rem -> NoDup (ball dist n rem).
  Proof. intros H. destruct rem; auto. rewrite ball_filter. now apply NoDup_filter. Qed.
  Lemma ball_rest n rem : NoDup rem -> Permutation (ball dist n rem ++ remove_all eqb rem (ball dist n rem)) rem.
  Proof.
    intros H. apply NoDup_Permutation; auto.
    - apply NoDup_app'; [now apply ball_nodup|now apply remove_all_nodup|]. intros x Hx C. apply remove_all_in in C as [_ C]; auto.
    - intros x. rewrite in_app_iff, remove_all_in by auto. split; [intros [C|C]; [eapply ball_incl; eauto|tauto]|].
      intros Hx. destruct (mem x (ball dist n rem)) eqn:E; [left; now apply mem_in|]. right. split; auto. intros C. apply mem_in in C. congruence.
  Qed.

  Lemma balls_nil sh : balls eqb dist sh [] = (repeat [] (length sh), []).
  Proof. induction sh as [|n t IH]; auto. cbn [balls ball]. change (remove_all eqb [] []) with (@nil K). rewrite IH. reflexivity. Qed.
  Lemma balls_spec sh : forall rem ds r, NoDup rem -> balls eqb dist sh rem = (ds, r) ->
    length ds = length sh /\ Permutation (concat ds ++ r) rem /\ (r = [] \/ length r + list_sum (map S sh) <= length rem).
  Proof.
    induction sh as [|n t IH]; intros rem ds r N H.
    - injection H as <- <-. repeat split; auto. right. simpl. lia.
    - cbn [balls] in H. destruct (balls eqb dist t (remove_all eqb rem (ball dist n rem))) as [ds' r'] eqn:E. injection H as <- <-.
      pose proof (ball_rest n rem N) as B. destruct (IH _ _ _ (remove_all_nodup _ _ N) E) as (L & P & C).
      split; [simpl; lia|]. split.
      + cbn [concat]. rewrite <- app_assoc, P. exact B.
      + destruct (le_lt_dec (length rem) n) as [Hn|Hn].
        * left. rewrite ball_all in E by auto. replace (remove_all eqb rem rem) with (@nil K) in E.
          -- rewrite balls_nil in E. congruence.
          -- symmetry. rewrite remove_all_filter by auto. destruct (filter _ rem) as [|x l] eqn:F; auto.
             assert (In x (x :: l)) as Hx by (left; auto). rewrite <- F in Hx. apply filter_In in Hx as [Hx C']. apply mem_in in Hx. rewrite Hx in C'. discriminate.
        * destruct C as [C|C]; auto. right. pose proof (ball_size n rem). apply Permutation_length in B. rewrite app_length in B.
          cbn [map]. rewrite list_sum_cons. lia.
  Qed.
  Lemma sum_S l : list_sum (map S l) = list_sum l + length l.
  Proof. induction l; simpl; lia. Qed.

  Lemma vtu_balls_total size ks : 2 <= size -> NoDup ks -> exists ds, vtu_balls eqb dist size ks = Some ds.
  Proof.
    intros H N. unfold vtu_balls. destruct (shares_total size (length ks) H) as [sh E]. rewrite E. apply shares_sum in E as [L S].
    rewrite S, Nat.eqb_refl. destruct (balls eqb dist sh ks) as [ds r] eqn:B. destruct (balls_spec _ _ _ _ N B) as (L' & P & C).
    assert (r = []) as ->. { destruct C as [C|C]; auto. rewrite sum_S in C. lia. }
    rewrite app_nil_r in P. unfold total. rewrite (Permutation_length P). simpl. rewrite Nat.eqb_refl. eauto.
  Qed.
  Lemma vtu_balls_spec size ks ds : NoDup ks -> vtu_balls eqb dist size ks = Some ds -> length ds = size /\ Permutation (concat ds) ks.
  Proof.
    intros N. unfold vtu_balls. destruct (shares size (length ks)) as [sh|] eqn:E; [|discriminate]. apply shares_sum in E as [L S].
    destruct (list_sum sh =? length ks); [|discriminate]. destruct (balls eqb dist sh ks) as [ds' r] eqn:B.
    destruct (balls_spec _ _ _ _ N B) as (L' & P & C). destruct (Nat.eqb_spec (length r) 0) as [Z|]; [|discriminate].
    destruct (total ds' =? length ks); [|discriminate]. simpl. intros [= <-]. destruct r; [|discriminate]. rewrite app_nil_r in P. split; [lia|auto].
  Qed.

  (** * ranks without elements *)
  Lemma set_rank_length r d ds : length (set_rank r d ds) = length ds.
  Proof. revert r. induction ds; intros [|r]; simpl; auto. Qed.
  Lemma nth_set_rank r d ds : forall r', r < length ds -> nth r' (set_rank r d ds) [] = if r' =? r then d else nth r' ds [].
  Proof. revert r. induction ds as [|x ds IH]; intros [|r] [|r'] H; simpl in *; try lia; auto. apply IH. lia. Qed.
  Lemma set_rank_perm r d x ds : r < length ds -> nth r ds [] = d ++ [x] -> Permutation (x :: concat (set_rank r d ds)) (concat ds).
  Proof.
    revert r. induction ds as [|y ds IH]; intros [|r] H E; simpl in *; try lia.
    - subst y. rewrite <- app_assoc. simpl. apply Permutation_middle.
    - rewrite <- (IH r) by (auto; lia). apply Permutation_middle.
  Qed.
  Lemma set_empty_perm r x ds : r < length ds -> nth r ds [] = [] -> Permutation (concat (set_rank r [x] ds)) (x :: concat ds).
  Proof.
    revert r. induction ds as [|y ds IH]; intros [|r] H E; simpl in *; try lia.
    - subst y. reflexivity.
    - rewrite (IH r) by (auto; lia). symmetry. apply Permutation_middle.
  Qed.
  Lemma pop_first_some ds : forall x ds', pop_first ds = Some (x, ds') ->
    exists r d, r < length ds /\ nth r ds [] = d ++ [x] /\ d <> [] /\ ds' = set_rank r d ds.
  Proof.
    induction ds as [|y ds IH]; intros x ds'; simpl; [discriminate|]. destruct (Nat.ltb_spec 1 (length y)) as [H|H].
    - destruct (rev y) as [|z l] eqn:E; [discriminate|]. intros [= <- <-]. exists 0, (rev l). repeat split; try lia.
      + rewrite <- (rev_involutive y), E. reflexivity.
      + intros C. apply (f_equal (@length K)) in E. rewrite rev_length in E. apply (f_equal (@length K)) in C. rewrite rev_length in C. simpl in *. lia.
    - destruct (pop_first ds) as [[z t]|]; [|discriminate]. intros [= <- <-]. destruct (IH _ _ eq_refl) as (r & d & A & B & C & ->).
      exists (S r), d. repeat split; auto. lia.
  Qed.
  Lemma pop_first_none ds : pop_first ds = None -> forall r, length (nth r ds []) <= 1.
  Proof.
    induction ds as [|y ds IH]; intros H r; [destruct r; simpl; lia|]. simpl in H. destruct (Nat.ltb_spec 1 (length y)) as [L|L].
    - destruct (rev y) as [|z l] eqn:E; [|discriminate]. apply (f_equal (@length K)) in E. rewrite rev_length in E. simpl in E. lia.
    - destruct (pop_first ds) as [[z t]|]; [discriminate|]. destruct r as [|r]; [exact L|]. now apply IH.
  Qed.
  Lemma total_small ds : (forall r, length (nth r ds []) <= 1) -> length (concat ds) <= length ds.
  Proof.
    induction ds as [|y ds IH]; intros H; simpl; auto. rewrite app_length. pose proof (H 0) as H0. simpl in H0.
    specialize (IH (fun r => H (S r))). lia.
  Qed.
  Lemma total_small_empty ds r : (forall r, length (nth r ds []) <= 1) -> r < length ds -> nth r ds [] = [] -> length (concat ds) < length ds.
  Proof.
    revert r. induction ds as [|y ds IH]; intros r H L E; simpl in *; [lia|]. rewrite app_length. pose proof (H 0) as H0. simpl in H0.
    destruct r as [|r].
    - subst y. pose proof (total_small ds (fun r => H (S r))). simpl. lia.
    - specialize (IH r (fun r => H (S r)) ltac:(lia) E). lia.
  Qed.

  Lemma fill_all ers : forall ds, NoDup ers -> (forall r, In r ers <-> r < length ds /\ nth r ds [] = []) -> length ds <= length (concat ds) ->
    length (fold_left fill ers ds) = length ds /\ Permutation (concat (fold_left fill ers ds)) (concat ds) /\
    forall r, r < length ds -> nth r (fold_left fill ers ds) [] <> [].
  Proof.
    induction ers as [|er ers IH]; intros ds N E T; simpl.
    - repeat split; auto. intros r Hr C. now apply (E r).
    - inversion N as [|? ? Ne N']; subst. destruct (proj1 (E er) (or_introl eq_refl)) as [He Ee].
      unfold fill at 2 4 6. destruct (pop_first ds) as [[x ds']|] eqn:P.
      + destruct (pop_first_some _ _ _ P) as (r & d & Hr & Er & Hd & ->).
        assert (Hne : er <> r). { intros ->. rewrite Ee in Er. destruct d; discriminate. }
        assert (L : length (set_rank er [x] (set_rank r d ds)) = length ds) by now rewrite !set_rank_length.
        assert (PP : Permutation (concat (set_rank er [x] (set_rank r d ds))) (concat ds)).
        { rewrite set_empty_perm; [now apply set_rank_perm|now rewrite set_rank_length|].
          rewrite nth_set_rank by auto. destruct (Nat.eqb_spec er r); [contradiction|auto]. }
        destruct (IH (set_rank er [x] (set_rank r d ds)) N') as (A & B & C).
        * intros q. rewrite L. rewrite nth_set_rank by now rewrite set_rank_length. rewrite nth_set_rank by auto. split.
          -- intros Hq. destruct (proj1 (E q) (or_intror Hq)) as [Lq Eq]. split; auto. destruct (Nat.eqb_spec q er) as [->|]; [contradiction|].
             destruct (Nat.eqb_spec q r) as [->|]; auto. rewrite Eq in Er. destruct d; discriminate.
          -- intros [Lq Eq]. destruct (Nat.eqb_spec q er) as [->|]; [discriminate|]. destruct (Nat.eqb_spec q r) as [->|]; [contradiction|].
             destruct (proj2 (E q) (conj Lq Eq)) as [->|]; [contradiction|auto].
        * rewrite L, (Permutation_length PP). auto.
        * rewrite A, L. split; auto. split; [now rewrite B|]. intros q Hq. apply C. now rewrite L.
      + exfalso. pose proof (total_small_empty ds er (pop_first_none _ P) He Ee). lia.
  Qed.

  Lemma empties_from ds s r : In r (map fst (filter (fun p => is_empty (snd p)) (combine (seq s (length ds)) ds))) <-> s <= r /\ r < s + length ds /\ nth (r - s) ds [] = [].
  Proof.
    revert s. induction ds as [|y ds IH]; intros s; simpl.
    - split; [tauto|lia].
    - unfold is_empty at 1. simpl. destruct (Nat.eqb_spec (length y) 0) as [Z|Z].
      + destruct y; [|discriminate]. simpl. rewrite IH. split.
        * intros [<-|(A & B & C)]; [rewrite Nat.sub_diag; split; [|split]; auto; lia|]. replace (r - s) with (S (r - S s)) by lia. split; [|split]; auto; lia.
        * intros (A & B & C). destruct (Nat.eq_dec s r) as [|Hr]; auto. right. replace (r - s) with (S (r - S s)) in C by lia. split; [|split]; auto; lia.
      + rewrite IH. split.
        * intros (A & B & C). replace (r - s) with (S (r - S s)) by lia. split; [|split]; auto; lia.
        * intros (A & B & C). destruct (Nat.eq_dec s r) as [<-|Hr]; [rewrite Nat.sub_diag in C; subst y; simpl in Z; lia|].
          replace (r - s) with (S (r - S s)) in C by lia. split; [|split]; auto; lia.
  Qed.
  Lemma empties_spec ds r : In r (empties ds) <-> r < length ds /\ nth r ds [] = [].
  Proof. unfold empties. rewrite empties_from. rewrite Nat.sub_0_r. simpl. intuition lia. Qed.
  Lemma empties_nodup ds : NoDup (empties ds).
  Proof.
    unfold empties. generalize 0. induction ds as [|y ds IH]; intros s; simpl; [constructor|].
    destruct (is_empty y); simpl; auto. constructor; auto. rewrite empties_from. lia.
  Qed.

  Lemma nth_forall (P : list K -> Prop) ds : (forall r, r < length ds -> P (nth r ds [])) <-> Forall P ds.
  Proof.
    split.
    - intros H. apply Forall_forall. intros d Hd. apply In_nth with (d := []) in Hd as (r & L & <-). auto.
    - intros H r L. rewrite Forall_forall in H. apply H. now apply nth_In.
  Qed.
  Lemma nonempty_forallb ds : forallb (fun d => negb (is_empty d)) ds = true <-> Forall (fun d : list K => d <> []) ds.
  Proof.
    rewrite forallb_forall, Forall_forall. split; intros H d Hd; specialize (H d Hd); destruct d; simpl in *; try congruence; auto.
  Qed.
  Lemma dealt_perm size ks ds : NoDup ks -> length ds = size -> Permutation (concat ds) ks -> Forall (fun d => d <> []) ds -> dealt size ks ds.
  Proof.
    intros N L P F. assert (Nc : NoDup (concat ds)) by (eapply Permutation_NoDup; [symmetry; exact P|auto]).
    assert (I : forall r e, In e (nth r ds []) -> r < length ds).
    { intros r e H. destruct (le_lt_dec (length ds) r); auto. rewrite nth_overflow in H by auto. destruct H. }
    assert (IC : forall r e, In e (nth r ds []) -> In e (concat ds)).
    { intros r e H. apply in_concat. exists (nth r ds []). split; auto. apply nth_In. eauto. }
    split; auto. split; [|split].
    - intros e He. apply (Permutation_in _ (Permutation_sym P)) in He. apply in_concat in He as (d & Hd & He).
      apply In_nth with (d := []) in Hd as (r & Hr & <-). exists r. split; [lia|]. split; auto. intros r' _ H'.
      revert r r' Nc Hr He H'. clear. induction ds as [|y ds IH]; intros r r' N Hr H H'; simpl in *; [lia|].
      apply NoDup_app_inv' in N as (N1 & N2 & N3). destruct r as [|r], r' as [|r']; auto.
      + exfalso. apply (N3 e); auto. destruct (le_lt_dec (length ds) r'); [rewrite nth_overflow in H' by auto; destruct H'|]. apply in_concat. exists (nth r' ds []). split; auto. now apply nth_In.
      + exfalso. apply (N3 e); auto. apply in_concat. exists (nth r ds []). split; auto. apply nth_In. lia.
      + f_equal. apply IH; auto. lia.
    - intros r e He. apply (Permutation_in _ P). eauto.
    - intros r Hr. split; [revert r Hr; rewrite <- L; exact (proj2 (nth_forall (fun d => d <> []) ds) F)|].
      revert r Hr Nc. subst size. clear. induction ds as [|y ds IH]; intros r Hr N; simpl in *; [lia|]. apply NoDup_app_inv' in N as (N1 & N2 & N3).
      destruct r as [|r]; auto. apply IH; auto. lia.
  Qed.

  Lemma naive_spec size ks ds : naive eqb dist size ks = Some ds -> NoDup ks -> length ds = size /\ Permutation (concat ds) ks /\ Forall (fun d => d <> []) ds.
  Proof.
    unfold naive. destruct (vtu_balls eqb dist size ks) as [ds0|] eqn:E; [|discriminate]. intros H N.
    apply vtu_balls_spec in E as [L P]; auto.
    destruct (Nat.eqb_spec (total (fold_left fill (empties ds0) ds0)) (length ks)) as [T|]; [|discriminate].
    destruct (forallb _ _) eqn:F; [|discriminate]. injection H as <-. apply nonempty_forallb in F.
    destruct (le_lt_dec (length ds0) (length (concat ds0))) as [C|C].
    - destruct (fill_all (empties ds0) ds0 (empties_nodup ds0) (empties_spec ds0) C) as (A & B & _). split; [lia|]. split; auto. now rewrite B.
    - exfalso. (* fewer elements than ranks: some rank stays empty *)
      assert (T2 : length (fold_left fill (empties ds0) ds0) = length ds0).
      { enough (G : forall ers (d : list (list K)), length (fold_left fill ers d) = length d) by apply G. clear.
        induction ers as [|er ers IH]; intros d; simpl; auto. rewrite IH. unfold fill. destruct (pop_first d) as [[x d']|] eqn:P2; auto.
        apply pop_first_some in P2 as (? & ? & ? & ? & ? & ->). now rewrite !set_rank_length. }
      assert (T3 : length (fold_left fill (empties ds0) ds0) <= length (concat (fold_left fill (empties ds0) ds0))).
      { revert F. clear. induction (fold_left fill (empties ds0) ds0) as [|y l IH]; simpl; auto. intros F. inversion F; subst. rewrite app_length.
        specialize (IH H2). destruct y; [congruence|]. simpl. lia. }
      unfold total in T. apply Permutation_length in P. lia.
  Qed.
  Lemma naive_total size ks : 2 <= size -> NoDup ks -> size <= length ks -> exists ds, naive eqb dist size ks = Some ds.
  Proof.
    intros H N L. unfold naive. destruct (vtu_balls_total size ks H N) as [ds E]. rewrite E. apply vtu_balls_spec in E as [Ld P]; auto.
    destruct (fill_all (empties ds) ds (empties_nodup ds) (empties_spec ds)) as (A & B & C); [apply Permutation_length in P; lia|].
    unfold total. rewrite (Permutation_length B), (Permutation_length P), Nat.eqb_refl.
    replace (forallb _ _) with true; [eexists; reflexivity|]. symmetry. apply nonempty_forallb. apply nth_forall. now rewrite A.
  Qed.
  Lemma naive_deals size ks : 2 <= size -> NoDup ks -> size <= length ks -> exists ds, naive eqb dist size ks = Some ds /\ dealt size ks ds.
  Proof.
    intros H N L. destruct (naive_total size ks H N L) as [ds E]. exists ds. split; auto. apply naive_spec in E as (A & B & C); auto. now apply dealt_perm.
  Qed.

  (** * runs of the list *)
  Lemma slice_skip (low upper : nat) (l : list K) : low <= upper -> slice low upper l ++ skipn upper l = skipn low l.
  Proof.
    intros H. unfold slice. rewrite <- (firstn_skipn (upper - low) (skipn low l)) at 2. f_equal.
    rewrite skipn_skipn'. f_equal. lia.
  Qed.
  Lemma slice_length (low upper : nat) (l : list K) : length (slice low upper l) = min (upper - low) (length l - low).
  Proof. unfold slice. now rewrite firstn_length, skipn_length. Qed.
  Lemma cut_spec sizes : forall start (ks : list K) ds, cut sizes start ks = Some ds -> length ds = length sizes /\ concat ds ++ skipn (start + list_sum sizes) ks = skipn start ks.
  Proof.
    induction sizes as [|z t IH]; intros start ks ds; simpl.
    - intros [= <-]. rewrite Nat.add_0_r. split; reflexivity.
    - destruct (Nat.eqb_spec z 0); [discriminate|]. destruct (cut t (start + z) ks) as [r|] eqn:E; [|discriminate]. intros [= <-].
      destruct (IH _ _ _ E) as [L C]. split; [simpl; lia|]. cbn [concat]. rewrite <- app_assoc.
      replace (start + (z + list_sum t)) with (start + z + list_sum t) by lia. rewrite C. apply slice_skip. lia.
  Qed.
  Lemma cut_total sizes : forall start (ks : list K), Forall (fun z => 0 < z) sizes -> exists ds, cut sizes start ks = Some ds.
  Proof.
    induction sizes as [|z t IH]; intros start ks F; simpl; eauto. inversion F; subst. destruct (Nat.eqb_spec z 0); [lia|].
    destruct (IH (start + z) ks) as [r ->]; eauto.
  Qed.
  Lemma cut_sizes sizes : forall start (ks : list K) ds, cut sizes start ks = Some ds -> start + list_sum sizes <= length ks -> map (@length K) ds = sizes.
  Proof.
    induction sizes as [|z t IH]; intros start ks ds; simpl.
    - now intros [= <-].
    - destruct (Nat.eqb_spec z 0); [discriminate|]. destruct (cut t (start + z) ks) as [r|] eqn:E; [|discriminate]. intros [= <-] H.
      simpl. rewrite (IH _ _ _ E) by (fold (list_sum t) in H; lia). rewrite slice_length. f_equal. fold (list_sum t) in H. lia.
  Qed.
  Lemma array_split_sum size n : 0 < size -> length (array_split size n) = size /\ list_sum (array_split size n) = n.
  Proof.
    intros H. unfold array_split. pose proof (Nat.div_mod n size ltac:(lia)). pose proof (Nat.mod_upper_bound n size ltac:(lia)).
    rewrite app_length, !repeat_length, list_sum_app', !list_sum_repeat. split; nia.
  Qed.

  Definition nextp (start t n np : nat) : nat := (start * np + t * n) / np + 1.
  Fixpoint endp (takes : list nat) (start n np : nat) : nat := match takes with [] => start | t :: r => endp r (nextp start t n np) n np end.
  Lemma nextp_bounds start t n np : 0 < np -> start * np + t * n < nextp start t n np * np <= start * np + t * n + np.
  Proof.
    intros H. unfold nextp. pose proof (Nat.div_mod (start * np + t * n) np ltac:(lia)). pose proof (Nat.mod_upper_bound (start * np + t * n) np ltac:(lia)). nia.
  Qed.
  Lemma nextp_grows start t n np : 0 < np -> start < nextp start t n np.
  Proof. intros H. pose proof (nextp_bounds start t n np H). nia. Qed.
  Lemma endp_bounds takes : forall start n np, 0 < np ->
    start * np + list_sum takes * n + length takes <= endp takes start n np * np <= start * np + list_sum takes * n + length takes * np.
  Proof.
    induction takes as [|t r IH]; intros start n np H; cbn [endp length]; [simpl; lia|]. rewrite list_sum_cons.
    specialize (IH (nextp start t n np) n np H). pose proof (nextp_bounds start t n np H). nia.
  Qed.
  Lemma piles_spec takes : forall start n np (ks : list K), 0 < np -> length (piles takes start n np ks) = length takes /\
    concat (piles takes start n np ks) ++ skipn (endp takes start n np) ks = skipn start ks.
  Proof.
    induction takes as [|t r IH]; intros start n np ks H; cbn [piles endp]; [split; reflexivity|]. fold (nextp start t n np).
    destruct (IH (nextp start t n np) n np ks H) as [L C]. split; [simpl; lia|]. cbn [concat]. rewrite <- app_assoc, C. apply slice_skip.
    pose proof (nextp_grows start t n np H). lia.
  Qed.
  Lemma piles_nonempty takes : forall start n np (ks : list K), 0 < np -> (takes <> [] -> endp (removelast takes) start n np < length ks) -> Forall (fun d => d <> []) (piles takes start n np ks).
  Proof.
    induction takes as [|t r IH]; intros start n np ks H E; cbn [piles]; constructor.
    - fold (nextp start t n np). intros C. apply (f_equal (@length K)) in C. rewrite slice_length in C. pose proof (nextp_grows start t n np H).
      assert (start < length ks); [|simpl in C; lia].
      apply Nat.le_lt_trans with (endp (removelast (t :: r)) start n np); [|apply E; discriminate].
      generalize (removelast (t :: r)). intros l. clear -H. revert start. induction l as [|a l IH]; intros start; simpl; auto.
      pose proof (nextp_grows start a n np H). specialize (IH (nextp start a n np)). lia.
    - apply IH; auto. intros N. destruct r as [|a r]; [contradiction|]. apply E. discriminate.
  Qed.

  Lemma manifold_spec size (ks : list K) ds : 0 < size -> manifold_ranks size ks = Some ds -> dealt_in_order size ks ds.
  Proof.
    intros H. unfold manifold_ranks. destruct (length ks <=? 4 * size).
    - destruct (cut (array_split size (length ks)) 0 ks) as [d|] eqn:E; [|discriminate]. destruct (forallb _ d) eqn:F; [|discriminate]. intros [= <-].
      apply nonempty_forallb in F. apply cut_spec in E as [L C]. destruct (array_split_sum size (length ks) H) as [A B]. split; [lia|]. split; auto.
      rewrite B in C. simpl in C. now rewrite skipn_all, app_nil_r in C.
    - destruct (forallb _ _) eqn:F; [|discriminate]. intros [= <-]. apply nonempty_forallb in F.
      set (tk := 1 :: repeat 3 (size - 1)) in *. set (np := 3 * (size - 1) + 1) in *.
      assert (Hn : 0 < np) by (unfold np; lia). destruct (piles_spec tk 0 (length ks) np ks Hn) as [L C].
      assert (Lt : length tk = size) by (unfold tk; simpl; rewrite repeat_length; lia).
      assert (St : list_sum tk = np) by (unfold tk, np; rewrite list_sum_cons, list_sum_repeat; lia).
      pose proof (endp_bounds tk 0 (length ks) np Hn) as B. rewrite St in B.
      split; [exact (eq_trans L Lt)|]. split; [|exact F]. rewrite skipn_all2 in C by nia. rewrite app_nil_r in C. exact C.
  Qed.
  Lemma manifold_small size (ks : list K) : 0 < size -> size <= length ks -> length ks <= 4 * size -> exists ds, manifold_ranks size ks = Some ds.
  Proof.
    intros H A B. unfold manifold_ranks. destruct (Nat.leb_spec (length ks) (4 * size)); [|lia].
    assert (D1 : 1 <= length ks / size) by (apply Nat.div_le_lower_bound; lia).
    assert (F : Forall (fun z => 0 < z) (array_split size (length ks))).
    { unfold array_split. apply Forall_app. split; apply Forall_forall; intros z Hz; apply repeat_spec in Hz; lia. }
    destruct (cut_total _ 0 ks F) as [d E]. rewrite E. replace (forallb _ d) with true; eauto. symmetry. apply nonempty_forallb.
    destruct (array_split_sum size (length ks) H) as [L S]. pose proof (cut_sizes _ _ _ _ E ltac:(lia)) as M.
    rewrite Forall_forall in *. intros x Hx ->. specialize (F 0). rewrite <- M in F. specialize (F (in_map (@length K) _ _ Hx)). lia.
  Qed.
  Lemma removelast_repeat {A} (a : A) m : removelast (repeat a (S m)) = repeat a m.
  Proof. induction m; simpl in *; auto. now rewrite IHm. Qed.
  Lemma manifold_large size (ks : list K) : 2 <= size -> 4 * size < length ks -> (size - 1) * (3 * (size - 1) + 1) < 3 * length ks -> exists ds, manifold_ranks size ks = Some ds.
  Proof.
    intros H A B. unfold manifold_ranks. destruct (Nat.leb_spec (length ks) (4 * size)); [lia|].
    replace (forallb _ _) with true; eauto. symmetry. apply nonempty_forallb. apply piles_nonempty; [lia|]. intros _.
    set (np := 3 * (size - 1) + 1) in *. assert (Hn : 0 < np) by (unfold np; lia).
    replace (removelast (1 :: repeat 3 (size - 1))) with (1 :: repeat 3 (size - 2)).
    - pose proof (endp_bounds (1 :: repeat 3 (size - 2)) 0 (length ks) np Hn) as [_ E]. rewrite list_sum_cons, list_sum_repeat in E. cbn [length] in E. rewrite repeat_length in E.
      replace (S (size - 2)) with (size - 1) in E by lia. assert (1 + (size - 2) * 3 = np - 3) by (unfold np; lia). nia.
    - replace (size - 1) with (S (size - 2)) by lia. change (1 :: repeat 3 (size - 2) = removelast ([1] ++ repeat 3 (S (size - 2)))). 
      rewrite removelast_app by discriminate. rewrite removelast_repeat. reflexivity.
  Qed.
  (** from nine ranks on: one element more than four per rank *)
  Lemma manifold_fails size (ks : list K) : 9 <= size -> length ks = 4 * size + 1 -> manifold_ranks size ks = None.
  Proof.
    intros H L. destruct (manifold_ranks size ks) as [ds|] eqn:E; auto. exfalso. unfold manifold_ranks in E. rewrite L in E.
    destruct (Nat.leb_spec (4 * size + 1) (4 * size)); [lia|]. destruct (forallb _ _) eqn:F; [|discriminate]. clear E. apply nonempty_forallb in F.
    set (n := 4 * size + 1) in *. set (np := 3 * (size - 1) + 1) in *.
    assert (N0 : nextp 0 1 n np = 2). { unfold nextp. assert ((0 * np + 1 * n) / np = 1); [|lia]. symmetry. apply Nat.div_unique with (n - np); unfold np, n; lia. }
    assert (N3 : forall q, nextp q 3 n np = q + 5).
    { intros q. unfold nextp. assert ((q * np + 3 * n) / np = q + 4); [|lia]. symmetry. apply Nat.div_unique with (3 * n - 4 * np); unfold np, n; nia. }
    assert (G : forall m q, length ks <= q + 5 * m -> In [] (piles (repeat 3 (S m)) q n np ks)).
    { induction m as [|m IH]; intros q Hq.
      - left. fold (nextp q 3 n np). apply length_zero_iff_nil. rewrite slice_length. lia.
      - cbn [repeat piles]. right. fold (nextp q 3 n np). rewrite N3. apply IH. lia. }
    cbn [piles] in F. fold (nextp 0 1 n np) in F. rewrite N0 in F. inversion F as [|? ? _ F']; subst.
    replace (size - 1) with (S (size - 2)) in F' by lia. rewrite Forall_forall in F'. specialize (G (size - 2) 2 ltac:(unfold n in *; lia)).
    exact (F' _ G eq_refl).
  Qed.
End Ranks.
