From Coq Require Import List ZArith QArith Qround Qabs Bool Lia Lqa.
From Verif Require Import MetricKeyModel MetricKeyThms MiscText TimeModel TimeSpec TimeConst.
Import ListNotations.
Local Open Scope Q_scope.

Lemma seq_snoc m : seq 0 (S m) = (seq 0 m ++ [m])%list.
Proof. now rewrite seq_S. Qed.
Lemma last_map_seq {X} (f : nat -> X) d m : last (map f (seq 0 (S m))) d = f m.
Proof. rewrite seq_snoc, map_app. cbn [map]. apply last_last. Qed.
Lemma back_map {X} (f : nat -> X) m j : (1 <= j <= S m)%nat -> back (map f (seq 0 (S m))) j = Some (f (S m - j)%nat).
Proof.
  intros Hj. unfold back. set (l := map f (seq 0 (S m))). assert (Hl : List.length l = S m) by (unfold l; now rewrite map_length, seq_length).
  assert (N : nth_error l (S m - j) = Some (f (S m - j)%nat)). { unfold l. rewrite nth_error_map. rewrite (nth_error_nth' _ 0%nat) by (rewrite seq_length; lia). rewrite seq_nth by lia. reflexivity. }
  assert (R : nth_error (rev l) (j - 1) = nth_error l (S m - j)).
  { assert (exists d : X, True) as [d _] by (exists (f 0%nat); auto). rewrite (nth_error_nth' (rev l) d) by (rewrite rev_length; lia). rewrite (nth_error_nth' l d) by lia. f_equal. rewrite rev_nth by lia. f_equal. lia. }
  now rewrite R.
Qed.
Lemma fasks_cons ivl func st x l : fasks ivl func st (x :: l) = fasks ivl func (snd (fget ivl func st x)) l.
Proof. reflexivity. Qed.
Section Func.
  Variables (t0 ivl : Q) (d : nat -> Q) (func : nat -> option Q).
  Hypothesis Hivl : (1 # 2) < ivl * E8.
  Hypothesis Hfunc : forall n, func n = Some (d n).
  Hypothesis Hd : forall n, 0 < d n.
  Notation stp := (step ivl). Notation tm := (time t0 d).
  Lemma step_lt n : (stp n < stp (S n))%Z.
  Proof.
    cbn [step]. pose proof (rnd_near (inject_Z (stp n) + ivl * E8)) as R. apply Qabs_Qle_condition in R. rewrite Zlt_Qlt. lra.
  Qed.
  Lemma step_mono a b : (a < b)%nat -> (stp a < stp b)%Z.
  Proof. induction 1; [apply step_lt|]. pose proof (step_lt m). lia. Qed.
  Lemma step_le a b : (a <= b)%nat -> (stp a <= stp b)%Z.
  Proof. intros H. destruct (Nat.eq_dec a b) as [->|]; [lia|]. pose proof (step_mono a b ltac:(lia)). lia. Qed.
  Lemma step_lt_inv a b : (stp a < stp b)%Z -> (a < b)%nat.
  Proof. intros H. destruct (le_lt_dec b a) as [L|]; [|lia]. pose proof (step_le _ _ L). lia. Qed.
  Lemma step_inj a b : stp a = stp b -> a = b.
  Proof. intros E. destruct (lt_eq_lt_dec a b) as [[L|]|L]; auto; apply step_mono in L; lia. Qed.
  Lemma step_big n : (Z.of_nat n <= stp n)%Z.
  Proof. induction n; [cbn; lia|]. pose proof (step_lt n). lia. Qed.
  Lemma tm_mono a b : (a < b)%nat -> tm a < tm b.
  Proof. induction 1; cbn [time]; [pose proof (Hd a)|pose proof (Hd m)]; lra. Qed.
  Lemma tm_le a b : (a <= b)%nat -> tm a <= tm b.
  Proof. intros H. destruct (Nat.eq_dec a b) as [->|]; [lra|]. pose proof (tm_mono a b ltac:(lia)). lra. Qed.
  (** the state after [m] calls *)
  Definition stt (m : nat) : fseq := {| f_steps := map stp (seq 0 (S m)); f_times := map tm (seq 0 (S m)); f_calls := m |}.
  Lemma extend_stt m : extend ivl func (stt m) = (stt (S m), true).
  Proof.
    unfold extend, zlast. cbn [stt f_steps f_times f_calls]. rewrite !last_map_seq, Hfunc. assert (Q : qlt 0 (d m) = true) by (apply qlt_spec, Hd). rewrite Q.
    unfold stt. f_equal. f_equal; rewrite (seq_snoc (S m)), map_app; reflexivity.
  Qed.
  Lemma index_some k l : forall i, index_of k l = Some i -> nth_error l i = Some k.
  Proof. induction l as [|x l IH]; cbn [index_of]; [discriminate|]. destruct (Z.eqb_spec x k) as [->|]; intros i H; [injection H as <-; reflexivity|]. destruct (index_of k l) as [j|]; [|discriminate]. injection H as <-. cbn. auto. Qed.
  Lemma index_none k l : index_of k l = None -> ~ In k l.
  Proof. induction l as [|x l IH]; cbn [index_of]; intros H; [intros []|]. destruct (Z.eqb_spec x k); [discriminate|]. destruct (index_of k l); [discriminate|]. intros [E|E]; [congruence|]. now apply IH. Qed.
  Lemma in_steps m i : (i <= m)%nat -> In (stp i) (map stp (seq 0 (S m))).
  Proof. intros H. apply in_map, in_seq. lia. Qed.
  Lemma search_stt m k : ~ In k (map stp (seq 0 (S m))) -> (0 < k)%Z -> forall fuel j, (2 <= j <= S m)%nat -> (k < stp (S m + 1 - j))%Z -> (S (S m) <= fuel + j)%nat ->
    exists j', search (map stp (seq 0 (S m))) k j fuel = Some j' /\ (2 <= j' <= S m)%nat /\ (stp (S m - j') < k < stp (S m + 1 - j'))%Z.
  Proof.
    intros Hin Hk. induction fuel as [|fuel IH]; intros j Hj Hu Hf; [lia|]. cbn [search]. rewrite back_map by lia.
    destruct (Z.ltb_spec (stp (S m - j)) k) as [L|L].
    - rewrite back_map by lia. replace (S m - (j - 1))%nat with (S m + 1 - j)%nat by lia. destruct (Z.ltb_spec k (stp (S m + 1 - j))); [|lia]. exists j. repeat split; auto; lia.
    - assert (S m - j <> 0)%nat. { intros E. rewrite E in L. cbn [step] in L. lia. }
      assert (stp (S m - j) <> k). { intros E. apply Hin. rewrite <- E. apply in_steps. lia. }
      apply IH; [lia| |lia]. replace (S m + 1 - S j)%nat with (S m - j)%nat by lia. lia.
  Qed.
  Lemma lookup_stt m k : (0 <= k <= stp m)%Z -> exists t, lookup (stt m) k = At t /\ on_polygon ivl t0 d k t.
  Proof.
    intros Hk. unfold lookup. cbn [stt f_steps f_times]. destruct (index_of k _) as [i|] eqn:E.
    - apply index_some in E. rewrite nth_error_map in E. destruct (nth_error (seq 0 (S m)) i) as [i'|] eqn:E2; [|discriminate]. injection E as E.
      assert (i < S m)%nat. { rewrite <- (seq_length (S m) 0). apply nth_error_Some. congruence. }
      assert (i' = i). { rewrite (nth_error_nth' _ 0%nat) in E2 by (rewrite seq_length; lia). rewrite seq_nth in E2 by lia. injection E2 as <-. lia. } subst i'.
      rewrite nth_error_map, E2. cbn [option_map]. exists (tm i). split; [reflexivity|]. exists i. pose proof (step_lt i). split; [lia|]. rewrite <- E. rewrite Z.sub_diag. change (inject_Z 0) with 0. unfold Qdiv. rewrite !Qmult_0_l. lra.
    - apply index_none in E. unfold zlast. rewrite last_map_seq. destruct (Z.ltb_spec (stp m) k); [lia|]. assert (hd 0%Z (map stp (seq 0 (S m))) = 0)%Z as -> by reflexivity. destruct (Z.ltb_spec k 0); [lia|].
      assert (0 < k)%Z. { assert (k <> 0)%Z; [|lia]. intros ->. apply E. apply (in_steps m 0). lia. }
      assert (k <> stp m). { intros ->. apply E. apply in_steps. lia. }
      assert (1 <= m)%nat. { destruct m; [cbn [step] in *; lia|lia]. }
      destruct (search_stt m k E ltac:(lia) (List.length (map stp (seq 0 (S m)))) 2%nat) as (j & -> & Hj & Hs); [lia|replace (S m + 1 - 2)%nat with m by lia; lia|rewrite map_length, seq_length; lia|].
      unfold interpolate. cbn [stt f_steps f_times]. rewrite !back_map by lia. eexists. split; [reflexivity|]. exists (S m - j)%nat. replace (S m - (j - 1))%nat with (S (S m - j)) by lia. replace (S m + 1 - j)%nat with (S (S m - j)) in Hs by lia. split; [lia|reflexivity].
  Qed.
  Lemma lookup_out m k : (k < 0 \/ stp m < k)%Z -> lookup (stt m) k = Invalid.
  Proof.
    intros Hk. unfold lookup. cbn [stt f_steps f_times]. destruct (index_of k _) as [i|] eqn:E.
    - apply index_some, nth_error_In in E. apply in_map_iff in E as (a & <- & Ha). apply in_seq in Ha. pose proof (step_le 0 a ltac:(lia)). pose proof (step_le a m ltac:(lia)). cbn [step] in *. lia.
    - unfold zlast. rewrite last_map_seq. destruct (Z.ltb_spec (stp m) k); [reflexivity|]. assert (hd 0%Z (map stp (seq 0 (S m))) = 0)%Z as -> by reflexivity. destruct (Z.ltb_spec k 0); [reflexivity|lia].
  Qed.
  Lemma fget_stt m x : fget ivl func (stt m) x = let m' := if (stp m <? round8 x)%Z then S m else m in (lookup (stt m') (round8 x), stt m').
  Proof. unfold fget, zlast. cbv zeta. cbn [stt f_steps]. rewrite last_map_seq. destruct (stp m <? round8 x)%Z; [|reflexivity]. now rewrite extend_stt. Qed.
  Lemma asked_stt l : forall m, exists m', fasks ivl func (stt m) l = stt m' /\ (m <= m' <= m + List.length l)%nat.
  Proof.
    induction l as [|x l IH]; intros m; cbn [List.length]; [exists m; split; [reflexivity|lia]|]. rewrite fasks_cons, fget_stt. cbv zeta. cbn [snd].
    destruct (IH (if (stp m <? round8 x)%Z then S m else m)) as (m' & -> & Hm). exists m'. split; [reflexivity|]. destruct (stp m <? round8 x)%Z; lia.
  Qed.
  Lemma new_stt : new_fseq t0 = stt 0. Proof. reflexivity. Qed.
  Lemma polygon_unique k t t' : on_polygon ivl t0 d k t -> on_polygon ivl t0 d k t' -> t == t'.
  Proof.
    assert (W : forall n n' u u', (n <= n')%nat -> (stp n <= k <= stp (S n))%Z -> (stp n' <= k <= stp (S n'))%Z ->
      u == tm n + inject_Z (k - stp n) / inject_Z (stp (S n) - stp n) * (tm (S n) - tm n) ->
      u' == tm n' + inject_Z (k - stp n') / inject_Z (stp (S n') - stp n') * (tm (S n') - tm n') -> u == u').
    { intros n n' u u' Hn H1 H2 E1 E2. destruct (Nat.eq_dec n n') as [->|N]; [rewrite E1, E2; reflexivity|].
      pose proof (step_le (S n) n' ltac:(lia)). assert (n' = S n) as -> by (apply step_inj; lia). assert (k = stp (S n)) as -> by lia.
      rewrite E1, E2, Z.sub_diag. change (inject_Z 0) with 0. pose proof (step_lt n) as L. pose proof (inj_pos (stp (S n) - stp n) ltac:(lia)) as P. set (z := inject_Z (stp (S n) - stp n)) in *. set (y := inject_Z (stp (S (S n)) - stp (S n))).
      assert (Z1 : z / z == 1) by (field; lra). rewrite Z1. unfold Qdiv. rewrite !Qmult_0_l. lra. }
    intros (n & H1 & E1) (n' & H2 & E2). destruct (le_lt_dec n n') as [L|L]; [eapply W; eauto|]. symmetry. eapply W; [| exact H2 | exact H1 | exact E2 | exact E1]. lia.
  Qed.
  Lemma polygon_between k t n : on_polygon ivl t0 d k t -> (stp n <= k)%Z -> tm n <= t.
  Proof.
    intros (a & Ha & E) Hn. pose proof (step_lt a) as L. pose proof (inj_pos (stp (S a) - stp a) ltac:(lia)) as P. set (z := inject_Z (stp (S a) - stp a)) in *.
    pose proof (inj_le 0 (k - stp a) ltac:(lia)) as K0. change (inject_Z 0) with 0 in K0. pose proof (inj_le (k - stp a) (stp (S a) - stp a) ltac:(lia)) as K1. fold z in K1.
    assert (R0 : 0 <= inject_Z (k - stp a) / z) by (apply Qle_shift_div_l; lra). set (r := inject_Z (k - stp a) / z) in *. pose proof (tm_mono a (S a) ltac:(lia)) as T.
    destruct (le_lt_dec n a) as [L1|L1]; [pose proof (tm_le _ _ L1); nra|].
    pose proof (step_le (S a) n ltac:(lia)). assert (n = S a) as -> by (apply step_inj; lia). assert (k = stp (S a)) by lia. subst k.
    assert (R1 : r == 1) by (unfold r, z; field; fold z; lra). rewrite E, R1. lra.
  Qed.
  Lemma polygon_mono k k' t t' : on_polygon ivl t0 d k t -> on_polygon ivl t0 d k' t' -> (k < k')%Z -> t < t'.
  Proof.
    intros (n & H1 & E1) P' L. pose proof (step_lt n) as Ln. pose proof (inj_pos (stp (S n) - stp n) ltac:(lia)) as P. set (z := inject_Z (stp (S n) - stp n)) in *. pose proof (tm_mono n (S n) ltac:(lia)) as T.
    destruct (Z_le_gt_dec (stp (S n)) k') as [G|G].
    - pose proof (polygon_between _ _ _ P' G). pose proof (inj_le 0 (k - stp n) ltac:(lia)) as K0. change (inject_Z 0) with 0 in K0.
      destruct (Z.eq_dec k (stp (S n))) as [->|N].
      + (* k is a step: k' is beyond it *)
        assert (E3 : t == tm (S n)). { rewrite E1. unfold z. assert (Z1 : inject_Z (stp (S n) - stp n) / inject_Z (stp (S n) - stp n) == 1) by (field; fold z; lra). rewrite Z1. lra. }
        destruct P' as (a & Ha & E2). pose proof (step_lt a) as La. pose proof (inj_pos (stp (S a) - stp a) ltac:(lia)) as Pa. set (y := inject_Z (stp (S a) - stp a)) in *.
        assert (S n <= a)%nat. { destruct (le_lt_dec (S n) a); auto. pose proof (step_le (S a) (S n) ltac:(lia)). lia. }
        pose proof (tm_mono a (S a) ltac:(lia)) as T2. pose proof (tm_le (S n) a ltac:(lia)) as T3.
        destruct (Z.eq_dec (stp a) (stp (S n))) as [Es|Es].
        * apply step_inj in Es. subst a. pose proof (inj_pos (k' - stp (S n)) ltac:(lia)) as K1. assert (R : 0 < inject_Z (k' - stp (S n)) / y) by (apply Qlt_shift_div_l; lra). set (r := inject_Z (k' - stp (S n)) / y) in *. rewrite E3, E2. nra.
        * assert (S n <> a) by congruence. pose proof (tm_mono (S n) a ltac:(lia)) as T4. pose proof (inj_le 0 (k' - stp a) ltac:(lia)) as K1. change (inject_Z 0) with 0 in K1. assert (R : 0 <= inject_Z (k' - stp a) / y) by (apply Qle_shift_div_l; lra). set (r := inject_Z (k' - stp a) / y) in *. rewrite E3, E2. nra.
      + pose proof (inj_lt (k - stp n) (stp (S n) - stp n) ltac:(lia)) as K1. fold z in K1. assert (R : inject_Z (k - stp n) / z < 1) by (apply Qlt_shift_div_r; lra). set (r := inject_Z (k - stp n) / z) in *. rewrite E1. nra.
    - assert (P2 : on_polygon ivl t0 d k' (tm n + inject_Z (k' - stp n) / z * (tm (S n) - tm n))) by (exists n; split; [lia|reflexivity]).
      rewrite (polygon_unique _ _ _ P' P2), E1. pose proof (inj_lt (k - stp n) (k' - stp n) ltac:(lia)) as K1. 
      assert (R : inject_Z (k - stp n) / z < inject_Z (k' - stp n) / z). { unfold Qdiv. apply Qmult_lt_r; [|exact K1]. now apply Qinv_lt_0_compat. }
      set (r := inject_Z (k - stp n) / z) in *. set (r' := inject_Z (k' - stp n) / z) in *. nra.
  Qed.

  (** ** answers after any history *)
  Lemma fget_answer l x : let st := asked ivl func t0 l in let k := round8 x in
    match fget ivl func st x with
    | (At t, st') => on_polygon ivl t0 d k t /\ (0 <= k <= zlast (f_steps st'))%Z
    | (Invalid, st') => (k < 0)%Z \/ (zlast (f_steps st') < k)%Z
    | (Broken, _) => False
    end.
  Proof.
    cbv zeta. unfold asked. rewrite new_stt. destruct (asked_stt l 0) as (m & -> & _). rewrite fget_stt. cbv zeta. set (m' := if (stp m <? round8 x)%Z then S m else m).
    assert (Hz : zlast (f_steps (stt m')) = stp m') by apply last_map_seq. 
    destruct (Z_lt_le_dec (round8 x) 0) as [L|L]; [rewrite lookup_out by auto; auto|]. destruct (Z_lt_le_dec (stp m') (round8 x)) as [L2|L2]; [rewrite lookup_out by auto; rewrite Hz; auto|].
    destruct (lookup_stt m' (round8 x) ltac:(lia)) as (t & -> & P). rewrite Hz. auto.
  Qed.
  Lemma fget_steps l : exists m, f_steps (asked ivl func t0 l) = map stp (seq 0 (S m)) /\ f_calls (asked ivl func t0 l) = m /\ (m <= List.length l)%nat.
  Proof. unfold asked. rewrite new_stt. destruct (asked_stt l 0) as (m & -> & H). exists m. repeat split. lia. Qed.
  Lemma fget_same l l' x x' t t' s s' : fget ivl func (asked ivl func t0 l) x = (At t, s) -> fget ivl func (asked ivl func t0 l') x' = (At t', s') -> round8 x = round8 x' -> t == t'.
  Proof. intros H1 H2 E. pose proof (fget_answer l x) as A. pose proof (fget_answer l' x') as B. cbv zeta in A, B. rewrite H1 in A. rewrite H2 in B. rewrite <- E in B. destruct A as [A _], B as [B _]. eapply polygon_unique; eauto. Qed.
  Lemma fget_mono l l' x x' t t' s s' : fget ivl func (asked ivl func t0 l) x = (At t, s) -> fget ivl func (asked ivl func t0 l') x' = (At t', s') -> (round8 x < round8 x')%Z -> t < t'.
  Proof. intros H1 H2 E. pose proof (fget_answer l x) as A. pose proof (fget_answer l' x') as B. cbv zeta in A, B. rewrite H1 in A. rewrite H2 in B. destruct A as [A _], B as [B _]. eapply polygon_mono; eauto. Qed.
  Lemma fasks_app st l l' : fasks ivl func st (l ++ l') = fasks ivl func (fasks ivl func st l) l'.
  Proof. unfold fasks. apply fold_left_app. Qed.
  (** an answered question stays answered *)
  Lemma fget_again l x t s l' : fget ivl func (asked ivl func t0 l) x = (At t, s) -> exists t' s', fget ivl func (asked ivl func t0 (l ++ x :: l')) x = (At t', s') /\ t' == t.
  Proof.
    intros H. pose proof (fget_answer l x) as A. cbv zeta in A. rewrite H in A. destruct A as [P A]. unfold asked in *. rewrite fasks_app. rewrite new_stt in *. destruct (asked_stt l 0) as (m & E & _). rewrite E in *.
    rewrite fasks_cons. rewrite fget_stt in *. cbv zeta in *. cbn [snd]. set (m' := if (stp m <? round8 x)%Z then S m else m) in *. injection H as H <-. unfold zlast in A. cbn [stt f_steps] in A. rewrite last_map_seq in A.
    destruct (asked_stt l' m') as (m2 & E2 & Hm). rewrite E2. rewrite fget_stt. cbv zeta. pose proof (step_le m' m2 ltac:(lia)). destruct (Z.ltb_spec (stp m2) (round8 x)); [lia|].
    destruct (lookup_stt m2 (round8 x) ltac:(lia)) as (t' & -> & P'). eexists _, _. split; [reflexivity|]. eapply polygon_unique; eauto.
  Qed.
  (** asking often enough succeeds *)
  Lemma fget_reached l x n : (0 <= round8 x <= stp (S n))%Z -> exists t s, fget ivl func (asked ivl func t0 (l ++ repeat x n)) x = (At t, s).
  Proof.
    intros Hx. unfold asked. rewrite fasks_app, new_stt. destruct (asked_stt l 0) as (m & -> & _).
    assert (W : forall c b, exists m', fasks ivl func (stt b) (repeat x c) = stt m' /\ ((b + c <= m')%nat \/ (round8 x <= stp m')%Z)).
    { induction c as [|c IHc]; intros e; [exists e; split; [reflexivity|left; lia]|]. cbn [repeat]. rewrite fasks_cons, fget_stt. cbv zeta. cbn [snd]. destruct (Z.ltb_spec (stp e) (round8 x)) as [L'|L'].
      - destruct (IHc (S e)) as (m' & E & Hm). rewrite E. exists m'. split; [reflexivity|]. destruct Hm; [left; lia|auto].
      - destruct (asked_stt (repeat x c) e) as (m' & E & Hm). rewrite E. exists m'. split; [reflexivity|right]. pose proof (step_le e m' ltac:(lia)). lia. }
    destruct (W n m) as (m' & -> & Hm). rewrite fget_stt. cbv zeta. set (m2 := if (stp m' <? round8 x)%Z then S m' else m').
    assert (round8 x <= stp m2)%Z. { unfold m2. destruct (Z.ltb_spec (stp m') (round8 x)); [|lia]. destruct Hm as [Hm|Hm]; [|lia]. pose proof (step_le (S n) (S m') ltac:(lia)). lia. }
    destruct (lookup_stt m2 (round8 x) ltac:(lia)) as (t & -> & _). eauto.
  Qed.
End Func.
(** whole intervals: the steps are the multiples *)
Lemma step_whole ivl z : ivl * E8 == inject_Z z -> forall n, step ivl n = (Z.of_nat n * z)%Z.
Proof.
  intros E. induction n as [|n IH]; [reflexivity|]. cbn [step]. rewrite IH. assert (F : inject_Z (Z.of_nat n * z) + ivl * E8 == inject_Z (Z.of_nat (S n) * z)). { rewrite E, <- inject_Z_plus. f_equiv. lia. }
  rewrite (rnd_comp _ _ F). apply rnd_Z.
Qed.
(** with an interval of one, t[n] is the n-th time *)
Lemma fget_nth t0 d func n l t s : (forall n, func n = Some (d n)) -> (forall n, 0 < d n) -> fget 1 func (asked 1 func t0 l) (inject_Z (Z.of_nat n)) = (At t, s) -> t == time t0 d n.
Proof.
  intros Hf Hd H. assert (Hi : (1 # 2) < 1 * E8) by (unfold E8; lra). pose proof (fget_answer t0 1 d func Hi Hf Hd l (inject_Z (Z.of_nat n))) as A. cbv zeta in A. rewrite H in A. destruct A as [P _].
  assert (Er : round8 (inject_Z (Z.of_nat n)) = step 1 n). { rewrite (step_whole 1 100000000) by reflexivity. unfold round8, E8. assert (F : inject_Z (Z.of_nat n) * 100000000 == inject_Z (Z.of_nat n * 100000000)) by (rewrite inject_Z_mult; reflexivity). rewrite (rnd_comp _ _ F). apply rnd_Z. }
  rewrite Er in P. eapply (polygon_unique t0 1 d Hi); [exact P|]. exists n. pose proof (step_lt 1 Hi n). split; [lia|]. rewrite Z.sub_diag. change (inject_Z 0) with 0. unfold Qdiv. rewrite !Qmult_0_l. lra.
Qed.
(** asked in order, every whole step succeeds *)
Lemma fget_in_order t0 d func n : (forall n, func n = Some (d n)) -> (forall n, 0 < d n) -> exists t s, fget 1 func (asked 1 func t0 (map (fun i => inject_Z (Z.of_nat i)) (seq 1 n))) (inject_Z (Z.of_nat (S n))) = (At t, s) /\ t == time t0 d (S n) /\ f_calls s = S n.
Proof.
  intros Hf Hd. assert (Hi : (1 # 2) < 1 * E8) by (unfold E8; lra).
  assert (Er : forall a, round8 (inject_Z (Z.of_nat a)) = step 1 a). { intros a. rewrite (step_whole 1 100000000) by reflexivity. unfold round8, E8. assert (F : inject_Z (Z.of_nat a) * 100000000 == inject_Z (Z.of_nat a * 100000000)) by (rewrite inject_Z_mult; reflexivity). rewrite (rnd_comp _ _ F). apply rnd_Z. }
  assert (W : forall a, asked 1 func t0 (map (fun i => inject_Z (Z.of_nat i)) (seq 1 a)) = stt t0 1 d a).
  { induction a as [|a IH]; [reflexivity|]. rewrite seq_S, map_app. unfold asked in *. rewrite fasks_app, IH. cbn [map Nat.add]. rewrite fasks_cons. rewrite (fget_stt t0 1 d func Hf Hd), Er. cbv zeta. cbn [snd]. pose proof (step_lt 1 Hi a). destruct (Z.ltb_spec (step 1 a) (step 1 (S a))); [reflexivity|lia]. }
  rewrite W. destruct (fget 1 func (stt t0 1 d n) (inject_Z (Z.of_nat (S n)))) as [an s] eqn:E. rewrite (fget_stt t0 1 d func Hf Hd) in E. cbv zeta in E. pose proof (step_lt 1 Hi n) as L. rewrite Er in E. destruct (Z.ltb_spec (step 1 n) (step 1 (S n))) as [_|]; [|lia].
  apply pair_equal_spec in E as [E <-]. destruct (lookup_stt t0 1 d Hi (S n) (step 1 (S n))) as (t & El & P); [pose proof (step_le 1 Hi 0 (S n) ltac:(lia)) as L0; change (step 1 0) with 0%Z in L0; lia|].
  exists t, (stt t0 1 d (S n)). rewrite <- E, El. split; [reflexivity|]. split; [|reflexivity]. eapply (polygon_unique t0 1 d Hi); [exact P|]. exists (S n). pose proof (step_lt 1 Hi (S n)). split; [lia|]. rewrite Z.sub_diag. change (inject_Z 0) with 0. unfold Qdiv. rewrite !Qmult_0_l. lra.
Qed.
(** findings *)
Lemma failed_question_advances : exists t0 func x st, fget 1 func (new_fseq t0) x = (Invalid, st) /\ exists t st', fget 1 func st x = (At t, st').
Proof. exists 0, (fun _ => Some 1), 2. eexists. split; [vm_compute; reflexivity|]. eexists _, _. vm_compute. reflexivity. Qed.
Lemma torn_by_func : exists t0 func l x y s s' t t', fget 1 func (asked 1 func t0 l) x = (At t, s) /\ fget 1 func (asked 1 func t0 l) y = (At t', s') /\ (round8 x < round8 y)%Z /\ t' < t.
Proof. exists 0, (fun n => Some (inject_Z (Z.of_nat n))), [1; 2], 1, (3 # 2). eexists _, _, _, _. vm_compute. repeat split. Qed.
Lemma torn_for_good : exists t0 func l x, (forall n, exists v, func (S n) = Some v /\ 0 < v) /\ fst (fget 1 func (asked 1 func t0 l) x) = Broken /\ (0 <= round8 x <= zlast (f_steps (asked 1 func t0 l)))%Z.
Proof. exists 0, (fun n => Some (inject_Z (Z.of_nat n))), [1; 2; 3], 3. split; [|vm_compute; repeat split; discriminate]. intros n. eexists. split; [reflexivity|]. apply inj_pos. lia. Qed.
