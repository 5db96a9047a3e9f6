(** Proofs for C66: interpolation, signatures, files. *)
From Coq Require Import List ZArith Reals Bool Arith Lia Permutation Lra Sorted.
From Verif Require Import MappingModel SignatureModel SignatureThms CochainModel CochainSpec CochainThms.
Import ListNotations.

(** * interpolation *)
Lemma vplus_nth (u v : list R) i : length u = length v -> (i < length u)%nat -> nth i (vplus u v) 0%R = (nth i u 0 + nth i v 0)%R.
Proof.
  revert v i. induction u as [| a u IH]; intros [| b v] i L H; cbn in *; try lia. destruct i as [| i]; [reflexivity |]. apply IH; lia.
Qed.
Lemma vminus_nth (u v : list R) i : length u = length v -> (i < length u)%nat -> nth i (vminus u v) 0%R = (nth i u 0 - nth i v 0)%R.
Proof.
  revert v i. induction u as [| a u IH]; intros [| b v] i L H; cbn in *; try lia. destruct i as [| i]; [reflexivity |]. apply IH; lia.
Qed.
Lemma vscale_nth a (u : list R) i : (i < length u)%nat -> nth i (vscale a u) 0%R = (a * nth i u 0)%R.
Proof. revert i. induction u as [| b u IH]; intros i H; cbn in *; [lia |]. destruct i as [| i]; [reflexivity |]. apply IH; lia. Qed.
Lemma vplus_length (u v : list R) : length u = length v -> length (vplus u v) = length u.
Proof. intros H. unfold vplus. rewrite map_length, combine_length. lia. Qed.
Lemma vminus_length (u v : list R) : length u = length v -> length (vminus u v) = length u.
Proof. intros H. unfold vminus. rewrite map_length, combine_length. lia. Qed.
Lemma chord a b t u v : (a < b)%Z -> length u = length v -> on_chord a b t u v (vplus u (vscale (fraction t a b) (vminus v u))).
Proof.
  intros H L. assert (L1 : length (vscale (fraction t a b) (vminus v u)) = length u) by (unfold vscale; rewrite map_length, vminus_length; lia).
  split; [now apply vplus_length |]. intros i I. rewrite vplus_nth, vscale_nth, vminus_nth by (try rewrite vminus_length; lia).
  assert (IZR a < IZR b)%R by now apply IZR_lt. unfold fraction. field. lra.
Qed.
Lemma nth_ext' (r u : list R) : length r = length u -> (forall i, (i < length u)%nat -> nth i r 0%R = nth i u 0%R) -> r = u.
Proof. intros L H. apply (nth_ext r u 0%R 0%R L). intros i I. apply H. lia. Qed.
Lemma segment_some ts t : (2 <= length ts)%nat -> (hd 0%Z ts <= t)%Z -> (t <= last ts 0)%Z -> exists a b, segment ts t = Some (a, b).
Proof.
  induction ts as [| a ts IH]; cbn [length]; [lia |]. intros L H1 H2. cbn [hd] in H1. destruct ts as [| b ts]; [cbn in L; lia |]. cbn [segment].
  destruct ((a <=? t) && (t <=? b))%Z%bool eqn:E; [now exists a, b |]. apply andb_false_iff in E.
  assert (b < t)%Z by (destruct E as [E | E]; apply Z.leb_gt in E; lia).
  destruct ts as [| c ts]; [cbn in H2; lia |]. apply IH; [cbn; lia | cbn; lia | exact H2].
Qed.
Lemma segment_split ts t a b : segment ts t = Some (a, b) -> (exists p q, ts = p ++ a :: b :: q) /\ (a <= t <= b)%Z.
Proof.
  induction ts as [| x ts IH]; cbn [segment]; [discriminate |]. destruct ts as [| y ts]; [discriminate |]. destruct ((x <=? t) && (t <=? y))%Z%bool eqn:E.
  - intros [= <- <-]. apply andb_true_iff in E. destruct E as [E1 E2]. split; [now exists [], ts | lia].
  - intros H. destruct (IH H) as ((p & q & ->) & B). split; [now exists (x :: p), q | exact B].
Qed.
Lemma split_consecutive l p a b q : NoDup l -> sorted_times l = p ++ a :: b :: q -> consecutive l a b.
Proof.
  intros N E. pose proof (strict _ (sorted_sorted l) (sorted_nodup _ N)) as T. rewrite E in T.
  assert (I : forall u, In u l <-> In u (p ++ a :: b :: q)) by (intros u; rewrite <- E; symmetry; apply sorted_in).
  assert (ab : (a < b)%Z) by (apply sorted_app_r in T; inversion T as [| x m T1 T2]; subst; inversion T2; assumption).
  split; [apply I, in_or_app; right; now left |]. split; [apply I, in_or_app; right; right; now left |]. split; [exact ab |]. intros u J. apply I in J.
  apply in_app_or in J. destruct J as [J | [-> | [-> | J]]]; [left | lia | lia | right].
  - assert (u < a)%Z by (eapply sorted_app_lt; [exact T | exact J | now left]). lia.
  - apply sorted_app_r in T. inversion T as [| x m T1 _]; subst. inversion T1 as [| x m _ T2]; subst. rewrite Forall_forall in T2. specialize (T2 u J). lia.
Qed.
Lemma hd_min l u : In u l -> (hd 0%Z (sorted_times l) <= u)%Z.
Proof.
  intros I. apply sorted_in in I. pose proof (sorted_sorted l) as T. destruct (sorted_times l) as [| x m]; [contradiction |]. cbn. destruct I as [-> | I]; [lia |].
  inversion T as [| y n T1 T2]; subst. rewrite Forall_forall in T2. now apply T2.
Qed.
Lemma last_max l u : In u l -> (u <= last (sorted_times l) 0)%Z.
Proof.
  intros I. apply sorted_in in I. pose proof (sorted_sorted l) as T. revert u I. induction T as [| x m T IH F]; intros u I; [contradiction |]. destruct m as [| y m]; [destruct I as [-> | []]; cbn; lia |].
  change (last (x :: y :: m) 0%Z) with (last (y :: m) 0%Z). destruct I as [-> | I]; [| now apply IH]. inversion F as [| z n F1 F2]; subst. specialize (IH y (or_introl eq_refl)). lia.
Qed.
Lemma last_in' l : sorted_times l <> [] -> In (last (sorted_times l) 0%Z) l.
Proof. intros H. apply sorted_in. destruct (exists_last H) as (m & x & ->). rewrite last_last. apply in_or_app. right. now left. Qed.
Lemma hd_in' l : sorted_times l <> [] -> In (hd 0%Z (sorted_times l)) l.
Proof. intros H. apply sorted_in. destruct (sorted_times l); [contradiction | now left]. Qed.
Lemma get_of_time (s : store (list R)) t : In t (times_of s) -> exists c, get_cochain (Some t) s = Some c /\ In (t, c) (tcd s).
Proof. intros I. destruct (get_some Z.eq_dec (tcd s) t I) as (c & G). exists c. split; [exact G |]. now apply get_in in G. Qed.
Lemma interpolation_right s n t lo hi : NoDup (times_of s) -> uniform s n -> In lo (times_of s) -> In hi (times_of s) -> (lo < hi)%Z -> (lo <= t <= hi)%Z ->
  exists a b u v r, consecutive (times_of s) a b /\ (a <= t <= b)%Z /\ get_cochain (Some a) s = Some u /\ get_cochain (Some b) s = Some v /\ interpolate t s = Some r /\ on_chord a b t u v r.
Proof.
  intros N U I J lh T. unfold interpolate. set (ts := sorted_times (times_of s)).
  assert (L : (2 <= length ts)%nat).
  { unfold ts. rewrite sorted_length. destruct (times_of s) as [| x [| y m]]; [contradiction | destruct I as [-> | []], J as [-> | []]; lia | cbn; lia]. }
  destruct (length ts <=? 1)%nat eqn:E1; [apply Nat.leb_le in E1; lia |]. pose proof (hd_min _ _ I) as H1. pose proof (last_max _ _ J) as H2. fold ts in H1, H2.
  destruct (t <? hd 0%Z ts)%Z eqn:E2; [apply Z.ltb_lt in E2; lia |]. destruct (last ts 0 <? t)%Z eqn:E3; [apply Z.ltb_lt in E3; lia |].
  destruct (segment_some ts t L) as (a & b & S); [lia | lia |]. rewrite S. destruct (segment_split _ _ _ _ S) as ((p & q & E) & B). pose proof (split_consecutive _ _ _ _ _ N E) as C.
  destruct C as (Ia & Ib & ab & C). destruct (get_of_time s a Ia) as (u & Gu & Iu). destruct (get_of_time s b Ib) as (v & Gv & Iv). exists a, b, u, v. eexists. split; [split; auto |]. split; [exact B |]. split; [exact Gu |]. split; [exact Gv |].
  unfold between. cbn in Gu, Gv. rewrite Gu, Gv. split; [reflexivity |]. apply chord; [exact ab |]. rewrite (U _ _ Iu), (U _ _ Iv). reflexivity.
Qed.
Lemma interpolation_stored s n t c : NoDup (times_of s) -> uniform s n -> (2 <= length (tcd s))%nat -> get_cochain (Some t) s = Some c -> interpolate t s = Some c.
Proof.
  intros N U L G. cbn in G. pose proof (get_in _ _ _ _ G) as I. assert (It : In t (times_of s)) by (unfold times_of; apply in_map_iff; now exists (t, c)).
  assert (X : exists lo hi, In lo (times_of s) /\ In hi (times_of s) /\ (lo < hi)%Z /\ (lo <= t <= hi)%Z).
  { assert (E : exists x, In x (times_of s) /\ x <> t).
    { assert (Len : length (times_of s) = length (tcd s)) by (unfold times_of; apply map_length). destruct (times_of s) as [| x [| y m]]; cbn in Len; try lia. inversion N as [| z k N1 N2]; subst.
      destruct (Z.eq_dec x t) as [-> | M]; [exists y; split; [right; now left | intros ->; apply N1; now left] | exists x; split; [now left | exact M]]. }
    destruct E as (x & Ix & M). destruct (Z_lt_le_dec x t); [exists x, t | exists t, x]; repeat split; auto; lia. }
  destruct X as (lo & hi & Il & Ih & lh & B). destruct (interpolation_right s n t lo hi N U Il Ih lh B) as (a & b & u & v & r & C & T & Gu & Gv & -> & Ch & Ci). f_equal.
  destruct C as (_ & _ & ab & C). specialize (C t It). cbn in Gu, Gv. pose proof (U _ _ (get_in _ _ _ _ Gu)) as Lu. pose proof (U _ _ (get_in _ _ _ _ Gv)) as Lv.
  assert (IZR a < IZR b)%R by now apply IZR_lt. assert (D : t = a \/ t = b) by lia. destruct D as [-> | ->].
  - rewrite Gu in G. injection G as <-. apply nth_ext'; [lia |]. intros i Hi. specialize (Ci i Hi). nra.
  - rewrite Gv in G. injection G as <-. apply nth_ext'; [lia |]. intros i Hi. specialize (Ci i ltac:(lia)). nra.
Qed.
Lemma interpolation_outside s t : (forall u, In u (times_of s) -> (t < u)%Z) \/ (forall u, In u (times_of s) -> (u < t)%Z) -> interpolate t s = None.
Proof.
  intros H. unfold interpolate. destruct (length (sorted_times (times_of s)) <=? 1)%nat eqn:E; [reflexivity |]. apply Nat.leb_gt in E. assert (Ne : sorted_times (times_of s) <> []) by (intros F; rewrite F in E; cbn in E; lia).
  destruct H as [H | H].
  - specialize (H _ (hd_in' _ Ne)). now replace (t <? hd 0%Z (sorted_times (times_of s)))%Z with true by (symmetry; now apply Z.ltb_lt).
  - specialize (H _ (last_in' _ Ne)). destruct (t <? hd 0%Z _)%Z; [reflexivity |]. now replace (last (sorted_times (times_of s)) 0 <? t)%Z with true by (symmetry; now apply Z.ltb_lt).
Qed.
(** msepy uses the two smallest times *)
Lemma py_interpolation_first s n t lo hi : NoDup (times_of s) -> uniform s n -> In lo (times_of s) -> In hi (times_of s) -> (lo <= t <= hi)%Z -> ~ In t (times_of s) ->
  exists a b u v r, consecutive (times_of s) a b /\ (forall w, In w (times_of s) -> (a <= w)%Z) /\ get_cochain (Some a) s = Some u /\ get_cochain (Some b) s = Some v /\ py_interpolate t s = Some r /\ on_chord a b t u v r.
Proof.
  intros N U I J T Nt. unfold py_interpolate. replace (get Z.eq_dec (tcd s) t) with (@None (list R)) by (symmetry; now apply get_none). set (ts := sorted_times (times_of s)).
  assert (lh : (lo < hi)%Z) by (assert (lo <> t) by (intros ->; contradiction); assert (hi <> t) by (intros ->; contradiction); lia).
  assert (Len : length (times_of s) = length (tcd s)) by (unfold times_of; apply map_length).
  assert (L : (2 <= length (times_of s))%nat) by (destruct (times_of s) as [| x [| y m]]; [contradiction | destruct I as [-> | []], J as [-> | []]; lia | cbn; lia]).
  destruct (length (tcd s) <? 2)%nat eqn:E1; [apply Nat.ltb_lt in E1; lia |]. pose proof (hd_min _ _ I) as H1. pose proof (last_max _ _ J) as H2. fold ts in H1, H2.
  destruct (t <? hd 0%Z ts)%Z eqn:E2; [apply Z.ltb_lt in E2; lia |]. destruct (last ts 0 <? t)%Z eqn:E3; [apply Z.ltb_lt in E3; lia |].
  pose proof (sorted_length (times_of s)) as Ls. fold ts in Ls. destruct ts as [| a [| b q]] eqn:E; [cbn in Ls; lia | cbn in Ls; lia |]. cbn [py_segment hd] in *.
  replace (a <=? t)%Z with true by (symmetry; apply Z.leb_le; lia). pose proof (split_consecutive _ [] _ _ _ N E) as C. destruct C as (Ia & Ib & ab & C).
  destruct (get_of_time s a Ia) as (u & Gu & Iu). destruct (get_of_time s b Ib) as (v & Gv & Iv). exists a, b, u, v. eexists. split; [split; auto |].
  split; [intros w W; pose proof (hd_min _ _ W) as Q; change (hd 0%Z ts <= w)%Z in Q; rewrite E in Q; exact Q |]. split; [exact Gu |]. split; [exact Gv |]. unfold between. cbn in Gu, Gv. rewrite Gu, Gv. split; [reflexivity |]. apply chord; [exact ab |]. rewrite (U _ _ Iu), (U _ _ Iv). reflexivity.
Qed.
Lemma py_interpolation_wrong : exists s : store (list R), py_run [PySet (Some 10%nat) 0 [0%R]; PySet (Some 10%nat) 2 [4%R]; PySet (Some 10%nat) 4 [16%R]] empty_store = Some s /\ py_interpolate 3 s = Some [6%R] /\ interpolate 3 s = Some [10%R].
Proof.
  eexists. split; [reflexivity |]. unfold py_interpolate, interpolate, between. cbn. unfold vplus, vscale, vminus, fraction; cbn. split; do 2 f_equal; field.
Qed.

(** * signatures *)
Local Open Scope R_scope.
Lemma signed_close n x y : signed_text n x = signed_text n y -> Rabs (x - y) <= / 10 ^ n.
Proof. unfold signed_text. intros H. injection H as _ H. now apply text_close. Qed.
Lemma map_eq_in {A B} (f g : A -> B) l x : map f l = map g l -> In x l -> f x = g x.
Proof. induction l as [| a l IH]; cbn; [contradiction |]. intros H [-> | I]; injection H as H1 H2; auto. Qed.
Lemma signature2_close e phi e' psi : signature2 e phi = signature2 e' psi -> e = e' /\ forall q, In q points2 -> Rabs (fst (phi q) - fst (psi q)) <= / 10 ^ 4 /\ Rabs (snd (phi q) - snd (psi q)) <= / 10 ^ 4.
Proof.
  intros H. unfold signature2 in H. apply pair_equal_spec in H. destruct H as [-> H]. split; [reflexivity |]. intros q I. pose proof (map_eq_in _ _ _ q H I) as E. cbv zeta beta in E.
  injection E as E1 E2 E3 E4. split; apply text_close; assumption.
Qed.
Lemma signature3_close e phi e' psi : signature3 e phi = signature3 e' psi -> e = e' /\ forall q, In q points3 ->
  Rabs (fst (fst (phi q)) - fst (fst (psi q))) <= / 10 ^ 3 /\ Rabs (snd (fst (phi q)) - snd (fst (psi q))) <= / 10 ^ 3 /\ Rabs (snd (phi q) - snd (psi q)) <= / 10 ^ 3.
Proof.
  intros H. unfold signature3 in H. apply pair_equal_spec in H. destruct H as [-> H]. split; [reflexivity |]. intros q I. pose proof (map_eq_in _ _ _ q H I) as E. cbv zeta beta in E.
  injection E as E1 E2 E3 E4 E5 E6. repeat split; apply text_close; assumption.
Qed.
Lemma signature_noise eps : 0 < eps -> exists phi psi : R * R -> R * R, (forall q, Rabs (fst (phi q) - fst (psi q)) <= eps /\ snd (phi q) = snd (psi q)) /\ forall e, signature2 e phi <> signature2 e psi.
Proof.
  intros H. exists (fun q => (fst q + 1, snd q + 1)), (fun q => (fst q + 1 - eps, snd q + 1)). split.
  - intros q. cbn. split; [| reflexivity]. replace (fst q + 1 - (fst q + 1 - eps)) with eps by ring. rewrite Rabs_pos_eq; lra.
  - intros e F. unfold signature2 in F. apply pair_equal_spec in F. destruct F as [_ F]. assert (I : In (-1, -1) points2) by (left; reflexivity). pose proof (map_eq_in _ _ _ _ F I) as E. cbv zeta beta in E. cbn [fst snd] in E.
    unfold signed_text in E. injection E as E _. destruct (Rlt_dec (-1 + 1) 0) as [L | L], (Rlt_dec (-1 + 1 - eps) 0) as [M | M]; try discriminate; lra.
Qed.
Lemma signature_collision : exists phi psi : R * R -> R * R, (forall e, signature2 e phi = signature2 e psi) /\
  forall p q, -1 < fst p < 1 -> -1 < fst q < 1 -> phi p <> psi q.
Proof.
  exists (fun q => ((fst q + 1) * (5/1000000), (snd q + 1) / 2)), (fun q => ((fst q + 3) * (5/1000000), (snd q + 1) / 2)). split.
  - intros e. unfold signature2. f_equal. apply map_ext_in. intros q I. cbv zeta beta. cbn [fst snd]. f_equal.
    assert (B : -1 <= fst q <= 1).
    { unfold points2 in I. apply in_flat_map in I. destruct I as (et & _ & I). apply in_map_iff in I. destruct I as (xi & <- & I). cbn [fst]. unfold three in I. cbn in I. destruct I as [<- | [<- | [<- | []]]]; lra. }
    unfold signed_text. destruct (Rlt_dec ((fst q + 1) * (5 / 1000000)) 0) as [L | L]; [lra |]. destruct (Rlt_dec ((fst q + 3) * (5 / 1000000)) 0) as [M | M]; [lra |]. f_equal. unfold text.
    rewrite (rnd_near _ 0), (rnd_near ((fst q + 3) * (5 / 1000000) * 10 ^ 4) 0); [reflexivity | apply Rabs_def1; lra | apply Rabs_def1; lra].
  - intros p q Hp Hq F. injection F as F _. lra.
Qed.
Local Close Scope R_scope.

(** * files *)
Section DictF.
Context {K V : Type} (keq : forall a b : K, {a = b} + {a <> b}).
Lemma put_new' (d : list (K * V)) k v : ~ In k (map fst d) -> put keq d k v = d ++ [(k, v)].
Proof. induction d as [| [j w] d IH]; cbn; [reflexivity |]. intros H. destruct (keq j k); [contradiction H; now left |]. f_equal. apply IH. tauto. Qed.
Lemma update_nodup (d e : list (K * V)) : NoDup (map fst (d ++ e)) -> update keq d e = d ++ e.
Proof.
  unfold update. revert d. induction e as [| [k v] e IH]; intros d N; cbn [fold_left fst snd]; [now rewrite app_nil_r |].
  rewrite put_new'.
  - rewrite IH; rewrite <- app_assoc; [reflexivity | exact N].
  - rewrite map_app in N. cbn in N. apply NoDup_remove_2 in N. intros I. apply N. apply in_or_app. now left.
Qed.
Lemma nodup_app_l {A} (l m : list A) : NoDup (l ++ m) -> NoDup l.
Proof. induction l as [| x l IH]; cbn; [constructor |]. intros N. inversion N as [| y k N1 N2]; subst. constructor; [intros F; apply N1, in_or_app; now left | auto]. Qed.
Lemma nodup_app_r {A} (l m : list A) : NoDup (l ++ m) -> NoDup m.
Proof. induction l as [| x l IH]; cbn; [easy |]. intros N. inversion N; subst. auto. Qed.
Lemma gathered_from (d : list (K * V)) ds : NoDup (map fst (d ++ concat ds)) -> fold_left (update keq) ds d = d ++ concat ds.
Proof.
  revert d. induction ds as [| e ds IH]; intros d N; cbn [fold_left concat]; [now rewrite app_nil_r |]. cbn [concat] in N. rewrite update_nodup; [rewrite IH; rewrite <- app_assoc; [reflexivity | exact N] |].
  rewrite app_assoc, map_app in N. now apply nodup_app_l in N.
Qed.
Lemma gathered_nodup (ds : list (list (K * V))) : NoDup (map fst (concat ds)) -> gathered keq ds = concat ds.
Proof. intros N. unfold gathered. now rewrite (gathered_from [] ds). Qed.
End DictF.
Lemma all_some_spec {A B} (f : A -> option B) l r : all_some (map f l) = Some r <-> Forall2 (fun a b => f a = Some b) l r.
Proof.
  revert r. induction l as [| a l IH]; intros r; cbn.
  - split; [intros [= <-]; constructor | intros H; inversion H; reflexivity].
  - split.
    + destruct (f a) as [b |] eqn:E; [| discriminate]. destruct (all_some (map f l)) as [q |]; [| discriminate]. intros [= <-]. constructor; [exact E | now apply IH].
    + intros H. inversion H as [| x y m n H1 H2]; subst. rewrite H1. apply IH in H2. now rewrite H2.
Qed.
Lemma all_some_total {A B} (f : A -> option B) l : (forall a, In a l -> exists b, f a = Some b) -> exists r, all_some (map f l) = Some r.
Proof.
  induction l as [| a l IH]; intros H; [now exists [] |]. destruct (H a (or_introl eq_refl)) as (b & E). destruct IH as (r & R); [intros x I; apply H; now right |]. exists (b :: r). cbn. now rewrite E, R.
Qed.
Lemma all_some_none {A B} (f : A -> option B) l a : In a l -> f a = None -> all_some (map f l) = None.
Proof. induction l as [| x l IH]; [contradiction |]. intros [-> | I] E; cbn; [now rewrite E |]. rewrite (IH I E). now destruct (f x). Qed.
Lemma Forall2_in_r {A B} (P : A -> B -> Prop) l r b : Forall2 P l r -> In b r -> exists a, In a l /\ P a b.
Proof. induction 1 as [| x y l r H F IH]; [contradiction |]. intros [-> | I]; [exists x; split; [now left | exact H] |]. destruct (IH I) as (a & Ia & Pa). exists a. split; [now right | exact Pa]. Qed.
Lemma Forall2_in_l {A B} (P : A -> B -> Prop) l r a : Forall2 P l r -> In a l -> exists b, In b r /\ P a b.
Proof. induction 1 as [| x y l r H F IH]; [contradiction |]. intros [-> | I]; [exists y; split; [now left | exact H] |]. destruct (IH I) as (b & Ib & Pb). exists b. split; [now right | exact Pb]. Qed.

Section FilesL.
Context {Sg V : Type} (sd : forall a b : Sg, {a = b} + {a <> b}).
Notation ranks_t := (list (rank_mesh Sg * store (list (nat * V)))).
Lemma swap_keys (l : list (nat * Sg)) : map fst (map (fun es => (snd es, fst es)) l) = map snd l.
Proof. rewrite map_map. reflexivity. Qed.
Lemma signatures_gathered (ranks : ranks_t) : NoDup (map snd (elements ranks)) -> gathered sd (map (fun r => signature_dict sd (fst r)) ranks) = map (fun es => (snd es, fst es)) (elements ranks).
Proof.
  intros N. assert (E : map (fun r : rank_mesh Sg * store (list (nat * V)) => signature_dict sd (fst r)) ranks = map (fun r => map (fun es => (snd es, fst es)) (composition (fst r))) ranks).
  { apply map_ext_in. intros r I. unfold signature_dict. rewrite update_nodup; [reflexivity |]. cbn [app]. rewrite swap_keys. unfold elements in N.
    clear - N I. induction ranks as [| x l IH]; [contradiction |]. cbn in N. rewrite map_app in N. destruct I as [-> | I]; [now apply nodup_app_l in N | apply IH; [now apply nodup_app_r in N | exact I]]. }
  rewrite E. assert (F : concat (map (fun r : rank_mesh Sg * store (list (nat * V)) => map (fun es => (snd es, fst es)) (composition (fst r))) ranks) = map (fun es => (snd es, fst es)) (elements ranks)).
  { unfold elements. rewrite concat_map, map_map. reflexivity. }
  rewrite gathered_nodup; rewrite F; [reflexivity |]. now rewrite swap_keys.
Qed.
(** all local cochains at a time *)
Lemma locals (ranks : ranks_t) t : consistent ranks -> (forall m s, In (m, s) ranks -> In t (times_of s)) ->
  exists ls, all_some (map (fun r : rank_mesh Sg * store (list (nat * V)) => get_cochain (Some t) (snd r)) ranks) = Some ls /\ merged ls = concat ls /\ map fst (concat ls) = map fst (elements ranks) /\
    forall e v, In (e, v) (concat ls) -> value_at ranks t e v.
Proof.
  intros (_ & N & C & _) T. destruct (all_some_total (fun r : rank_mesh Sg * store (list (nat * V)) => get_cochain (Some t) (snd r)) ranks) as (ls & E).
  { intros [m s] I. cbn [snd get_cochain]. apply (get_some Z.eq_dec). apply (T m s I). }
  exists ls. split; [exact E |]. apply all_some_spec in E.
  assert (K : map fst (concat ls) = map fst (elements ranks)).
  { clear N T. unfold elements. induction E as [| [m s] c l ls E F IH]; [reflexivity |]. cbn [map concat fst]. rewrite !map_app. f_equal; [apply (proj1 (C m s (or_introl eq_refl)) t); exact E |]. apply IH. intros m' s' I. apply C. now right. }
  split; [apply gathered_nodup; now rewrite K |]. split; [exact K |]. intros e v I. apply in_concat in I. destruct I as (c & Ic & I). destruct (Forall2_in_r _ _ _ _ E Ic) as ([m s] & J & G). exists m, s, c. auto.
Qed.
Lemma saveto_spec what (ranks : ranks_t) : consistent ranks -> NoDup (map snd (elements ranks)) -> what <> Some 0%nat ->
  exists f ts, saveto sd what ranks = Some f /\ map fst (f_cochain f) = ts /\ f_signatures f = map (fun es => (snd es, fst es)) (elements ranks) /\
    (forall m s, In (m, s) ranks -> NoDup ts /\ forall u, In u ts <-> match what with None => In u (times_of s) | Some n => among_largest n (times_of s) u end) /\
    forall t tot, In (t, tot) (f_cochain f) -> map fst tot = map fst (elements ranks) /\ forall e v, In (e, v) tot -> value_at ranks t e v.
Proof.
  intros C N W. pose proof C as (Ne & _ & C1 & C2). unfold saveto. destruct ranks as [| [m0 s0] rest] eqn:ER; [contradiction |]. rewrite <- ER in *. assert (I0 : In (m0, s0) ranks) by (rewrite ER; now left).
  destruct (C1 m0 s0 I0) as [_ N0]. destruct (time_range what s0) as [ts |] eqn:ET; [| destruct what as [[| n] |]; [contradiction | discriminate | discriminate]].
  pose proof (time_range_spec what s0 ts N0 ET) as [Nts Hts].
  assert (Tin : forall t, In t ts -> forall m s, In (m, s) ranks -> In t (times_of s)).
  { intros t I m s J. rewrite (C2 m s m0 s0 J I0). apply Hts in I. destruct what as [n |]; [destruct I; assumption | exact I]. }
  destruct (all_some_total (fun t => match all_some (map (fun r : rank_mesh Sg * store (list (nat * V)) => get_cochain (Some t) (snd r)) ranks) with None => None | Some ls => Some (t, merged ls) end) ts) as (c & E).
  { intros t I. destruct (locals ranks t C (Tin t I)) as (ls & -> & _). eexists. reflexivity. }
  rewrite E. eexists. exists ts. split; [reflexivity |]. cbn [f_cochain f_signatures]. apply all_some_spec in E.
  assert (K : map fst c = ts).
  { clear - E. induction E as [| t x ts c H F IH]; [reflexivity |]. cbn. f_equal; [| exact IH]. destruct (all_some _) as [ls |]; [| discriminate]. injection H as <-. reflexivity. }
  split; [exact K |]. split; [now apply signatures_gathered |]. split.
  - intros m s I. split; [exact Nts |]. intros u. rewrite (C2 m s m0 s0 I I0). apply Hts.
  - intros t tot I. destruct (Forall2_in_r _ _ _ _ E I) as (t' & It & H). destruct (locals ranks t' C (Tin t' It)) as (ls & EL & EM & EK & EV). rewrite EL in H. injection H as <- <-. rewrite EM. auto.
Qed.
(** ** set_all *)
Lemma receive_ok nothing (m : rank_mesh Sg) (c : list (nat * V)) : map fst c = gm m -> receive nothing m c = Some c.
Proof.
  intros K. unfold receive. replace (forallb _ c) with true; [replace (forallb _ (gm m)) with true; [reflexivity |] |].
  - symmetry. apply forallb_forall. intros e I. rewrite <- K in I. destruct (get_some Nat.eq_dec c e I) as (v & ->). reflexivity.
  - symmetry. apply forallb_forall. intros [e v] I. cbn. apply existsb_exists. exists e. rewrite Nat.eqb_refl. split; [| reflexivity]. rewrite <- K. apply in_map_iff. now exists (e, v).
Qed.
Lemma set_all_spec limit nothing (m : rank_mesh Sg) (cs : list (Z * list (nat * V))) : NoDup (map fst cs) -> (forall t c, In (t, c) cs -> map fst c = gm m) ->
  forall s : store (list (nat * V)), match limit with None => True | Some k => (2 <= k)%nat /\ (length (tcd s) + length cs <= k)%nat end ->
  exists s', set_all limit nothing m cs s = Some s' /\ forall t, get_cochain (Some t) s' = match get Z.eq_dec cs t with Some c => Some c | None => get_cochain (Some t) s end.
Proof.
  induction cs as [| [t c] cs IH]; intros N H s L; [now exists s |]. cbn [set_all]. rewrite (receive_ok nothing m c); [| apply (H t c); now left]. cbn [map fst] in N. inversion N as [| x l N1 N2]; subst.
  assert (E : set_cochain limit t c s = Some (add_time t c s)).
  { unfold set_cochain. destruct limit as [k |]; [| reflexivity]. cbn [length] in L. destruct (2 <=? k)%nat eqn:E; [| apply Nat.leb_gt in E; lia]. destruct (k <=? length (tcd s))%nat eqn:E'; [apply Nat.leb_le in E'; lia | reflexivity]. }
  rewrite E. destruct (IH N2 (fun t' c' I => H t' c' (or_intror I)) (add_time t c s)) as (s' & -> & G).
  { destruct limit as [k |]; [| exact I]. pose proof (put_length (tcd s) t c). cbn [add_time tcd length] in *. lia. }
  exists s'. split; [reflexivity |]. intros u. rewrite G, get_add. cbn [get]. destruct (Z.eq_dec t u) as [-> |]; [| reflexivity].
  replace (get Z.eq_dec cs u) with (@None (list (nat * V))) by (symmetry; now apply get_none). reflexivity.
Qed.
(** ** read *)
Lemma read_local_spec m (f : file Sg V) tot : whole m -> NoDup (gm m) -> NoDup (map fst (f_signatures f)) -> NoDup (map fst tot) ->
  (forall e sg, In (e, sg) (composition m) -> exists i, In (sg, i) (f_signatures f) /\ In i (map fst tot)) ->
  exists c, read_local sd m f tot = Some c /\ map fst c = gm m /\ forall e v, In (e, v) c -> exists sg i, In (e, sg) (composition m) /\ In (sg, i) (f_signatures f) /\ In (i, v) tot.
Proof.
  intros W N Nf Nt H. unfold read_local. assert (U : update Nat.eq_dec [] (composition m) = composition m) by (apply (update_nodup Nat.eq_dec []); cbn; rewrite W; exact N). rewrite U.
  assert (P : forall e, In e (gm m) -> exists sg i v, In (e, sg) (composition m) /\ In (sg, i) (f_signatures f) /\ In (i, v) tot /\ get Nat.eq_dec (composition m) e = Some sg /\ get sd (f_signatures f) sg = Some i /\ get Nat.eq_dec tot i = Some v).
  { intros e I. rewrite <- W in I. apply in_map_iff in I. destruct I as ((e' & sg) & <- & I). cbn. destruct (H e' sg I) as (i & Ii & It). apply in_map_iff in It. destruct It as ((i' & v) & <- & It). cbn in Ii. exists sg, i', v.
    split; [exact I |]. split; [exact Ii |]. split; [exact It |]. split; [apply in_get; [rewrite W; exact N | exact I] |]. split; now apply in_get. }
  destruct (all_some_total (fun e => match get Nat.eq_dec (composition m) e with None => None | Some sg => match get sd (f_signatures f) sg with None => None | Some i => match get Nat.eq_dec tot i with None => None | Some v => Some (e, v) end end end) (gm m)) as (c & E).
  { intros e I. destruct (P e I) as (sg & i & v & _ & _ & _ & -> & -> & ->). eexists. reflexivity. }
  exists c. split; [exact E |]. apply all_some_spec in E. split.
  - assert (Q : forall l c0, Forall2 (fun a b => match get Nat.eq_dec (composition m) a with None => None | Some sg => match get sd (f_signatures f) sg with None => None | Some i => match get Nat.eq_dec tot i with None => None | Some v => Some (a, v) end end end = Some b) l c0 -> map fst c0 = l).
    { intros l c0 Q. induction Q as [| e x l c0 Q F IH]; [reflexivity |]. cbn [map]. f_equal; [| exact IH]. destruct (get Nat.eq_dec (composition m) e); [| discriminate]. destruct (get sd (f_signatures f) s); [| discriminate]. destruct (get Nat.eq_dec tot n); [| discriminate]. injection Q as <-. reflexivity. }
    now apply Q.
  - intros e v I. destruct (Forall2_in_r _ _ _ _ E I) as (e' & J & Q). destruct (P e' J) as (sg & i & w & I1 & I2 & I3 & G1 & G2 & G3). rewrite G1, G2, G3 in Q. injection Q as <- <-. exists sg, i. auto.
Qed.
Lemma elements_keys (ranks : ranks_t) sg : In sg (map snd (elements ranks)) -> exists i, In (sg, i) (map (fun es => (snd es, fst es)) (elements ranks)) /\ In i (map fst (elements ranks)).
Proof. intros I. apply in_map_iff in I. destruct I as ((i & sg') & <- & I). exists i. cbn. split; apply in_map_iff; now exists (i, sg'). Qed.
Lemma round_trip what (ranks : ranks_t) limit nothing (m' : rank_mesh Sg) (s' : store (list (nat * V))) : consistent ranks -> NoDup (map snd (elements ranks)) -> what <> Some 0%nat ->
  whole m' -> NoDup (gm m') -> (forall e sg, In (e, sg) (composition m') -> In sg (map snd (elements ranks))) ->
  match limit with None => True | Some k => (2 <= k)%nat /\ forall m s, In (m, s) ranks -> (length (tcd s') + length (tcd s) <= k)%nat end ->
  exists f s'', saveto sd what ranks = Some f /\ read sd limit nothing m' f s' = Some s'' /\
    forall m s t, In (m, s) ranks ->
      (match what with None => In t (times_of s) | Some n => among_largest n (times_of s) t end ->
        exists c, get_cochain (Some t) s'' = Some c /\ map fst c = gm m' /\
          forall e v, In (e, v) c -> exists sg e0, In (e, sg) (composition m') /\ In (e0, sg) (elements ranks) /\ value_at ranks t e0 v) /\
      (~ match what with None => In t (times_of s) | Some n => among_largest n (times_of s) t end -> get_cochain (Some t) s'' = get_cochain (Some t) s').
Proof.
  intros C N W Wm Nm Sub Lim. destruct (saveto_spec what ranks C N W) as (f & ts & E & Kt & Ks & Ht & Hv). exists f.
  pose proof C as (Ne & Ni & C1 & _). destruct ranks as [| [m0 s0] rest] eqn:ER; [contradiction |]. rewrite <- ER in *. assert (I0 : In (m0, s0) ranks) by (rewrite ER; now left).
  destruct (Ht m0 s0 I0) as [Nts Hts].
  assert (RL : forall t tot, In (t, tot) (f_cochain f) -> exists c, read_local sd m' f tot = Some c /\ map fst c = gm m' /\
     forall e v, In (e, v) c -> exists sg e0, In (e, sg) (composition m') /\ In (e0, sg) (elements ranks) /\ value_at ranks t e0 v).
  { intros t tot I. destruct (Hv t tot I) as [K1 K2]. destruct (read_local_spec m' f tot Wm Nm) as (c & R1 & R2 & R3).
    - rewrite Ks, swap_keys. exact N.
    - rewrite K1. exact Ni.
    - intros e sg J. rewrite Ks, K1. apply elements_keys. eapply Sub; exact J.
    - exists c. split; [exact R1 |]. split; [exact R2 |]. intros e v J. destruct (R3 e v J) as (sg & i & J1 & J2 & J3). exists sg, i. split; [exact J1 |]. split; [| now apply K2].
      rewrite Ks in J2. apply in_map_iff in J2. destruct J2 as ((i' & sg') & J2 & J4). injection J2 as <- <-. exact J4. }
  unfold read. destruct (all_some_total (fun tc => match read_local sd m' f (snd tc) with None => None | Some c => Some (fst tc, c) end) (f_cochain f)) as (cs & ES).
  { intros [t tot] I. destruct (RL t tot I) as (c & R & _). cbn [fst snd]. rewrite R. eexists. reflexivity. }
  rewrite ES. apply all_some_spec in ES.
  assert (Kc : map fst cs = ts).
  { rewrite <- Kt. clear - ES. induction ES as [| tc x l cs H F IH]; [reflexivity |]. cbn. f_equal; [| exact IH]. destruct (read_local sd m' f (snd tc)); [| discriminate]. injection H as <-. reflexivity. }
  assert (Pc : forall t c, In (t, c) cs -> map fst c = gm m' /\ forall e v, In (e, v) c -> exists sg e0, In (e, sg) (composition m') /\ In (e0, sg) (elements ranks) /\ value_at ranks t e0 v).
  { intros t c I. destruct (Forall2_in_r _ _ _ _ ES I) as ([t' tot] & J & Q). cbn [fst snd] in Q. destruct (RL t' tot J) as (c' & R & R'). rewrite R in Q. injection Q as <- <-. exact R'. }
  destruct (set_all_spec limit nothing m' cs) with (s := s') as (s'' & E2 & G).
  { now rewrite Kc. }
  { intros t c I. apply (Pc t c I). }
  { destruct limit as [k |]; [| exact I]. destruct Lim as [K2 Lim]. split; [exact K2 |]. specialize (Lim m0 s0 I0). enough (length cs <= length (tcd s0))%nat by lia.
    rewrite <- (map_length fst), Kc. unfold times_of in Hts. rewrite <- (map_length fst (tcd s0)). apply NoDup_incl_length; [exact Nts |]. intros u J. apply Hts in J. destruct what as [n |]; [destruct J; assumption | exact J]. }
  exists s''. split; [exact E |]. split; [exact E2 |]. intros m s t I. destruct (Ht m s I) as [_ Hm]. rewrite <- (Hm t), <- Kc. split.
  - intros J. destruct (get_some Z.eq_dec cs t J) as (c & Gc). exists c. rewrite G, Gc. split; [reflexivity |]. apply Pc. now apply get_in in Gc.
  - intros J. rewrite G. replace (get Z.eq_dec cs t) with (@None (list (nat * V))) by (symmetry; now apply get_none). reflexivity.
Qed.
(** a missing element, or an element the form does not live on *)
Lemma read_missing limit nothing m (f : file Sg V) s e sg : f_cochain f <> [] -> whole m -> NoDup (gm m) -> In (e, sg) (composition m) -> ~ In sg (map fst (f_signatures f)) -> read sd limit nothing m f s = None.
Proof.
  intros Nf W N I F. destruct (f_cochain f) as [| tc l] eqn:E; [contradiction |]. unfold read. rewrite E. rewrite (all_some_none _ _ tc); [reflexivity | now left |].
  unfold read_local. rewrite (update_nodup Nat.eq_dec []) by (cbn; rewrite W; exact N). cbn [app]. rewrite (all_some_none _ _ e); [reflexivity | rewrite <- W; apply in_map_iff; now exists (e, sg) |].
  rewrite (in_get Nat.eq_dec (composition m) e sg); [| rewrite W; exact N | exact I]. replace (get sd (f_signatures f) sg) with (@None nat) by (symmetry; now apply get_none). reflexivity.
Qed.
Lemma update_keys {K W} (keq : forall a b : K, {a = b} + {a <> b}) (e : list (K * W)) : forall d k, In k (map fst (update keq d e)) <-> In k (map fst d) \/ In k (map fst e).
Proof.
  unfold update. induction e as [| [a b] e IH]; intros d k; cbn [fold_left map fst snd]; [cbn; tauto |]. rewrite IH, in_keys_put. cbn. split; intros H; intuition congruence.
Qed.
Lemma read_part limit nothing m (f : file Sg V) s e : f_cochain f <> [] -> In e (gm m) -> ~ In e (map fst (composition m)) -> read sd limit nothing m f s = None.
Proof.
  intros Nf I F. destruct (f_cochain f) as [| tc l] eqn:E; [contradiction |]. unfold read. rewrite E. rewrite (all_some_none _ _ tc); [reflexivity | now left |].
  unfold read_local. rewrite (all_some_none _ _ e); [reflexivity | exact I |].
  replace (get Nat.eq_dec (update Nat.eq_dec [] (composition m)) e) with (@None Sg); [reflexivity |]. symmetry. apply get_none. rewrite update_keys. cbn. tauto.
Qed.
(** the cache version *)
Lemma read_cache_same limit nothing m (f : file Sg V) s : whole m -> NoDup (gm m) -> NoDup (map snd (composition m)) -> read_cache sd limit nothing m f s = read sd limit nothing m f s.
Proof.
  intros W N Ns. unfold read_cache, read. replace (map (fun tc : Z * list (nat * V) => match read_cache_local sd m f (snd tc) with Some c => Some (fst tc, c) | None => None end) (f_cochain f))
    with (map (fun tc : Z * list (nat * V) => match read_local sd m f (snd tc) with Some c => Some (fst tc, c) | None => None end) (f_cochain f)); [reflexivity |].
  apply map_ext. intros [t tot]. cbn [fst snd]. replace (read_cache_local sd m f tot) with (read_local sd m f tot); [reflexivity |].
  unfold read_local, read_cache_local, signature_dict. rewrite (update_nodup Nat.eq_dec []) by (cbn; rewrite W; exact N). rewrite (update_nodup sd []) by (cbn [app]; rewrite swap_keys; exact Ns). cbn [app].
  rewrite <- W, !map_map. f_equal. apply map_ext_in. intros [e sg] I. cbn [fst snd]. rewrite (in_get Nat.eq_dec (composition m) e sg); [reflexivity | rewrite W; exact N | exact I].
Qed.
(** ** equal signatures *)
Lemma coincident_wrong (sg : Sg) (a b : V) t : exists f s, saveto sd None [(RankMesh [(0%nat, sg); (1%nat, sg)] [0%nat; 1%nat], Store [(t, [(0%nat, a); (1%nat, b)])] (Some t))] = Some f /\
  read sd None (fun _ => false) (RankMesh [(0%nat, sg); (1%nat, sg)] [0%nat; 1%nat]) f empty_store = Some s /\ get_cochain (Some t) s = Some [(0%nat, b); (1%nat, b)] /\
  read_cache sd None (fun _ => false) (RankMesh [(0%nat, sg); (1%nat, sg)] [0%nat; 1%nat]) f empty_store = None.
Proof.
  unfold saveto. cbn. unfold signature_dict, gathered, update; cbn. destruct (Z.eq_dec t t) as [_ | F]; [| contradiction]. destruct (sd sg sg) as [_ | F]; [| contradiction]. cbn.
  eexists. eexists. split; [reflexivity |]. unfold read, read_local, read_cache, read_cache_local, signature_dict, update; cbn. destruct (sd sg sg) as [_ | F]; [| contradiction]. cbn.
  destruct (sd sg sg) as [_ | F]; [| contradiction]. cbn. split; [reflexivity |]. cbn. destruct (Z.eq_dec t t) as [_ | F]; [| contradiction]. split; reflexivity.
Qed.
End FilesL.
Lemma part_wrong {Sg V} (sd : forall a b : Sg, {a = b} + {a <> b}) (sg : Sg) (a : V) : exists f s, let m := RankMesh [(0%nat, sg)] [0%nat; 1%nat] in
  receive (fun e => Nat.eqb e 1) m [(0%nat, a)] = Some [(0%nat, a)] /\ saveto sd None [(m, Store [(0%Z, [(0%nat, a)])] (Some 0%Z))] = Some f /\
  read sd None (fun e => Nat.eqb e 1) m f s = None.
Proof. eexists. exists empty_store. cbv zeta. split; [reflexivity |]. split; [reflexivity |]. eapply (read_part sd) with (e := 1%nat); [discriminate | cbn; auto | cbn; intuition discriminate]. Qed.
