(** Proofs: reports of the nonlinear solvers, runs that must fail, and runs that cannot fail. *)
From Coq Require Import List ZArith QArith Qcanon Bool Arith Lia.
From Verif Require Import NrModel NrSpec NrProofs NrRun NrMain.
Import ListNotations.
Local Open Scope nat_scope.

(** ** reports *)
Lemma nth_firstn {X} (l : list X) n i : i < n -> nth_error (firstn n l) i = nth_error l i.
Proof. revert n i. induction l as [|a l IH]; intros [|n] [|i] H; try easy; try lia. cbn [firstn nth_error]. apply IH. lia. Qed.
Lemma small_firstn B atol n k : k <= n -> small_at (firstn n B) atol k <-> small_at B atol k.
Proof. intros H. unfold small_at. split; intros (i & b & E & Hb & Hs); exists i, b; (split; [easy|]; split; [|easy]); [rewrite nth_firstn in Hb by lia|rewrite nth_firstn by lia]; easy. Qed.
Lemma grows_firstn B n k : k <= n -> grows_at (firstn n B) k <-> grows_at B k.
Proof. intros H. unfold grows_at. split; intros (i & o & b & E & Ho & Hb & Hs); exists i, o, b; (split; [easy|]; split; [|split; [|easy]]);
  try (rewrite nth_firstn in Ho by lia); try (rewrite nth_firstn in Hb by lia); try (rewrite nth_firstn by lia); easy. Qed.
Lemma stalls_firstn B n k : k <= n -> stalls_at (firstn n B) k <-> stalls_at B k.
Proof. intros H. unfold stalls_at. split; intros (i & o & b & E & Ho & Hb & Hs); exists i, o, b; (split; [easy|]; split; [|split; [|easy]]);
  try (rewrite nth_firstn in Ho by lia); try (rewrite nth_firstn in Hb by lia); try (rewrite nth_firstn by lia); easy. Qed.
Lemma Forall_firstn {X} (P : X -> Prop) n l : Forall P l -> Forall P (firstn n l).
Proof. rewrite !Forall_forall. intros H x Hx. apply H. rewrite <- (firstn_skipn n l). apply in_or_app. now left. Qed.
(** a list of norms that goes on until the first stop *)
Definition first_stop (B : list fl) (atol : Q) (k : nat) (m : maxit) (j : nat) (i : Z) : Prop :=
  length B = k /\ 1 <= k /\ (forall n, 1 <= n < k -> stop (firstn n B) atol n m = Go) /\ stop B atol k m = Stop j i.
Lemma first_stop_truthful B atol k n j i : first_stop B atol k (Int n) j i -> Forall nonneg B -> truthful B atol k n j i.
Proof.
  intros (L & H1 & Hgo & Hst) Hn. split.
  - intros k' Hk. specialize (Hgo k' Hk). assert (Lk : length (firstn k' B) = k') by (rewrite firstn_length; lia).
    assert (Hne : firstn k' B <> []) by (intros E; rewrite E in Lk; cbn in Lk; lia).
    pose proof (stop_int (firstn k' B) atol n Hne (Forall_firstn _ _ _ Hn)) as S. cbv zeta in S. rewrite Lk, Hgo in S.
    rewrite small_firstn, grows_firstn, stalls_firstn in S by lia. easy.
  - assert (Hne : B <> []) by (intros E; rewrite E in L; cbn in L; lia).
    pose proof (stop_int B atol n Hne Hn) as S. cbv zeta in S. rewrite L, Hst in S.
    destruct j as [|[|[|[|[|j]]]]]; tauto.
Qed.
Lemma first_stop_forced B atol k n j i : first_stop B atol k (Forced n) j i -> Z.of_nat k = Z.max 1 n /\ j = 2 /\ i = Z.of_nat k.
Proof.
  intros (L & H1 & Hgo & Hst). rewrite stop_forced in Hst. destruct (n <=? Z.of_nat k)%Z eqn:E; [|discriminate].
  injection Hst as <- <-. apply Z.leb_le in E. split; [|easy].
  destruct (Nat.eq_dec k 1) as [->|Hk]; [lia|]. specialize (Hgo (k - 1) ltac:(lia)). rewrite stop_forced in Hgo.
  destruct (n <=? Z.of_nat (k - 1))%Z eqn:E2; [discriminate|]. apply Z.leb_gt in E2. lia.
Qed.
Lemma all_nan_nth B i b : Forall (eq NaN) B -> nth_error B i = Some b -> b = NaN.
Proof. rewrite Forall_forall. intros H E. symmetry. apply H. apply (nth_error_In _ _ E). Qed.
Lemma first_stop_nan B atol k n j i : first_stop B atol k (Int n) j i -> Forall (eq NaN) B -> Z.of_nat k = Z.max 1 n /\ j = 2 /\ i = Z.of_nat k.
Proof.
  intros H Hn. assert (Hnn : Forall nonneg B) by (revert Hn; apply Forall_impl; intros a Ha; unfold nonneg; intros q Hq; now subst a).
  pose proof H as (L & H1 & Hgo & _).
  assert (Hs : forall k', ~ small_at B atol k').
  { intros k' (x & b & _ & E & q & Eq & _). apply (all_nan_nth _ _ _ Hn) in E. congruence. }
  assert (Hg : forall k', ~ grows_at B k').
  { intros k' (x & o & b & _ & E & _ & q & Eq & _). apply (all_nan_nth _ _ _ Hn) in E. congruence. }
  assert (Hst : forall k', ~ stalls_at B k').
  { intros k' (x & o & b & _ & E & _ & q & b' & Eq & _). apply (all_nan_nth _ _ _ Hn) in E. congruence. }
  destruct (first_stop_truthful _ _ _ _ _ _ H Hnn) as [Hb [(_ & _ & K)|[(-> & -> & _ & K)|[(_ & _ & _ & _ & K)|(_ & _ & _ & _ & K)]]]];
    [now destruct (Hs k)| |now destruct (Hg k)|now destruct (Hst k)].
  split; [|easy]. destruct (Nat.eq_dec k 1) as [->|Hk]; [lia|]. destruct (Hb (k - 1) ltac:(lia)) as (_ & K2 & _). lia.
Qed.
Lemma first_stop_bound B atol k m j i : first_stop B atol k m j i -> (Z.of_nat k <= Z.max 1 (limit m))%Z.
Proof.
  intros (L & H1 & Hgo & _). destruct (Nat.eq_dec k 1) as [->|Hk]; [lia|]. specialize (Hgo (k - 1) ltac:(lia)).
  destruct (Z.lt_ge_cases (Z.of_nat (k - 1)) (limit m)) as [K|K]; [lia|]. now apply (stop_at_limit (firstn (k - 1) B) atol) in K.
Qed.

Section Total.
Variables (gms : list (list (list nat))) (chain : nat -> nat -> nat) (N : nat) (nrm : list Qc -> fl)
  (lin : iterate -> list what -> option (list Qc)) (rep : nat -> nat -> option nat) (atol : Q) (m : maxit).
Notation solve' := (solve gms chain N nrm lin rep atol m).
Lemma newton_first cs st x0 mm x k B j i : newton gms chain nrm lin atol m cs st x0 = (mm, Done x k B j i) -> first_stop B atol k m j i.
Proof. intros H. apply newton_report in H. unfold first_stop. tauto. Qed.
Lemma changes_len ys : forall x ds, changes gms chain N x ys = Some ds -> length ds = length ys.
Proof.
  induction ys as [|y ys IH]; intros x ds H; cbn [changes] in H; [now injection H as <-|].
  destruct (vsub _ y) as [d|]; [|discriminate]. destruct (scatter gms chain y) as [x1|]; [|discriminate].
  destruct (changes gms chain N x1 ys) as [r|] eqn:E; [|discriminate]. injection H as <-. cbn [length]. now rewrite (IH x1 r E).
Qed.
Lemma picard_first uniq cs st x0 mm x k B j i : picard_loop gms chain N nrm lin rep atol m uniq (enough m) cs st x0 0 [] = (mm, Done x k B j i) -> first_stop B atol k m j i.
Proof.
  intros H. apply picard_done in H; [|easy]. destruct H as (_ & _ & ys & y & xf & ds & _ & _ & Ey & _ & Hc & HB & Hk & Hgo & Hst).
  apply changes_len in Hc. cbn [app Nat.add] in *. assert (1 <= length ys) by (rewrite Ey, app_length; cbn; lia).
  split; [subst B; rewrite map_length; lia|]. split; [lia|]. split; [|easy]. intros n Hn. rewrite HB, firstn_map. apply Hgo. lia.
Qed.
Lemma solve_first uniq s h mm x0 mm' a i B : solve' uniq s h mm x0 = (mm', Some (a, i, B)) -> exists j, first_stop B atol (length B) m j i.
Proof.
  destruct s; intros H.
  - apply solve_newton in H. destruct H as (x & k & B' & j & i' & H & E & _). injection E as -> -> ->. apply newton_first in H.
    exists j. destruct H as (L & H). rewrite L. split; [easy|exact H].
  - apply solve_picard in H. destruct H as (x & k & B' & j & i' & H & E & _). injection E as -> -> ->. apply picard_first in H.
    exists j. destruct H as (L & H). rewrite L. split; [easy|exact H].
Qed.

(** ** customizations the scheme does not know *)
Lemma take_keeps kind ITER cs : forall cs' b w f, take kind ITER cs = (cs', b) -> In (w, f) cs -> kind w = false -> In (w, f) cs'.
Proof.
  induction cs as [|[v g] cs IH]; intros cs' b w f H Hin Hk; [easy|]. cbn [take] in H.
  destruct (kind v) eqn:Ev.
  - destruct (negb _); [now injection H as <- _|]. destruct (bad_place v).
    + injection H as <- _. destruct Hin as [E|Hin]; [injection E as -> ->; congruence|now right].
    + destruct (take kind ITER cs) as [r b'] eqn:E. injection H as <- _. destruct Hin as [E2|Hin]; [injection E2 as -> ->; congruence|].
      right. now apply (IH r b').
  - destruct (take kind ITER cs) as [r b'] eqn:E. injection H as <- _. destruct Hin as [E2|Hin]; [now left|]. right. now apply (IH r b').
Qed.
Lemma set_x0_keeps cs : forall x cs' o w f, set_x0 gms cs x = (cs', o) -> In (w, f) cs -> ~ is_SetX0 w -> In (w, f) cs'.
Proof.
  induction cs as [|[v g] cs IH]; intros x cs' o w f H Hin Hk; [easy|]. cbn [set_x0] in H.
  assert (Hc : In (w, f) cs \/ (v = w /\ g = f)) by (destruct Hin as [E|Hin]; [injection E as -> ->; now right|now left]).
  destruct v as [uu dd|uu dd vv|uu dd p|uu dd vv].
  1,3,4: (destruct (set_x0 gms cs x) as [r o'] eqn:E; injection H as <- _; destruct Hc as [Hc|[-> ->]]; [right; now apply (IH x r o')|now left]).
  assert (Hc' : In (w, f) cs) by (destruct Hc as [Hc|[<- _]]; [easy|destruct Hk; now eexists _, _, _]).
  destruct (negb _); [injection H as <- _; now right|].
  destruct (nth_error x uu) as [xu|]; [|injection H as <- _; now right]. destruct (nth_error gms uu) as [gm|]; [|injection H as <- _; now right].
  destruct (put_dofs gm xu dd vv) as [y|]; [|injection H as <- _; now right].
  destruct (set_x0 gms cs _) as [r o'] eqn:E. injection H as <- _. right. now apply (IH (replace_nth x uu y) r o').
Qed.
Lemma newton_keeps fuel : forall cs st xi k B mm o w f, newton_loop gms chain nrm lin atol m fuel cs st xi k B = (mm, o) ->
  In (w, f) cs -> newton_kind w = false -> In (w, f) (m_cus mm).
Proof.
  induction fuel as [|fuel IH]; intros cs st xi k B mm o w f H Hin Hk; cbn [newton_loop] in H; [now injection H as <- _|].
  destruct (take newton_kind (S k) cs) as [cs1 ok] eqn:Et. pose proof (take_keeps _ _ _ _ _ _ _ Et Hin Hk) as H1.
  destruct ok; cbn [negb] in H; [|now injection H as <- _].
  destruct (lin xi _) as [raw|]; [|now injection H as <- _]. destruct (drop_extra cs1 raw) as [y|]; [|now injection H as <- _].
  destruct (scatter gms chain y) as [dx|]; [|now injection H as <- _]. destruct (add_iterate xi dx) as [xi1|]; [|now injection H as <- _].
  destruct (stop (B ++ [nrm y]) atol (S k) m) as [|j i]; [|now injection H as <- _]. now apply (IH _ _ _ _ _ _ _ _ _ H).
Qed.
Lemma picard_keeps uniq fuel : forall cs st xi k B mm o w f, picard_loop gms chain N nrm lin rep atol m uniq fuel cs st xi k B = (mm, o) ->
  In (w, f) cs -> picard_kind w = false -> In (w, f) (m_cus mm).
Proof.
  induction fuel as [|fuel IH]; intros cs st xi k B mm o w f H Hin Hk; cbn [picard_loop] in H; [now injection H as <- _|].
  destruct (take picard_kind (S k) cs) as [cs1 ok] eqn:Et. pose proof (take_keeps _ _ _ _ _ _ _ Et Hin Hk) as H1.
  destruct ok; cbn [negb] in H; [|now injection H as <- _]. destruct uniq; cbn [negb] in H; [|now injection H as <- _].
  destruct (forallb _ cs1); cbn [negb] in H; [|now injection H as <- _].
  destruct (lin xi _) as [raw|]; [|now injection H as <- _]. destruct (drop_extra cs1 raw) as [y|]; [|now injection H as <- _].
  destruct (vsub _ y) as [d|]; [|now injection H as <- _].
  destruct (scatter gms chain y) as [dx|]; [|now injection H as <- _].
  destruct (stop (B ++ [nrm d]) atol (S k) m) as [|j i]; [|now injection H as <- _]. now apply (IH _ _ _ _ _ _ _ _ _ H).
Qed.
Lemma solve_unknown uniq s h mm x0 w f : In (w, f) (m_cus mm) -> unknown_to s w -> snd (solve' uniq s h mm x0) = None.
Proof.
  intros Hin Hu. destruct (solve' uniq s h mm x0) as [mm' [r|]] eqn:E; [|easy]. exfalso. destruct s; cbn [unknown_to] in Hu.
  - apply solve_newton in E. destruct E as (x & k & B & j & i & H & _ & H0 & H1).
    assert (Hin' : In (w, f) (m_cus mm ++ flat_map (unhold Newton) h)) by (apply in_or_app; now left).
    pose proof (H0 _ Hin') as Hf. cbn [snd] in Hf. subst f.
    apply newton_unfold in H. destruct H as (cs1 & x1 & Hs & H).
    destruct Hu as (u & d & v & ->). apply (set_x0_keeps _ _ _ _ _ _ Hs) in Hin'; [|intros (? & ? & ? & ?); discriminate].
    apply (newton_keeps _ _ _ _ _ _ _ _ _ _ H) in Hin'; [|easy]. apply H1 in Hin'. discriminate.
  - apply solve_picard in E. destruct E as (x & k & B & j & i & H & _ & H0 & H1).
    assert (Hin' : In (w, f) (m_cus mm ++ flat_map (unhold Picard) h)) by (apply in_or_app; now left).
    pose proof (H0 _ Hin') as Hf. cbn [snd] in Hf. subst f.
    apply (picard_keeps _ _ _ _ _ _ _ _ _ _ _ H) in Hin'; [|destruct Hu as [(? & ? & ->)|(? & ? & ? & ->)]; easy]. apply H1 in Hin'. discriminate.
Qed.

(** ** runs that cannot fail *)
Lemma omap_total {A B} (f : A -> option B) l : (forall a, In a l -> exists b, f a = Some b) -> exists r, omap f l = Some r.
Proof.
  induction l as [|a l IH]; intros H; [now exists []|]. cbn [omap]. destruct (H a (or_introl eq_refl)) as [b ->].
  destruct IH as [r ->]; [intros c Hc; apply H; now right|]. now exists (b :: r).
Qed.
Lemma ozip_total {A B C} (f : A -> B -> option C) l : forall n, length l = length n -> (forall a b, In a l -> In b n -> exists c, f a b = Some c) -> exists r, ozip f l n = Some r.
Proof.
  induction l as [|a l IH]; intros [|b n] L H; try discriminate; [now exists []|]. cbn [ozip].
  destruct (H a b (or_introl eq_refl) (or_introl eq_refl)) as [c ->].
  destruct (IH n) as [r ->]; [now injection L|intros; apply H; now right|]. now exists (c :: r).
Qed.
Lemma ozip2_total {A B C} (f : A -> B -> option C) (Hf : forall a b, exists c, f a b = Some c) x : forall y, map (@length A) x = map (@length B) y ->
  exists z, ozip (ozip f) x y = Some z /\ map (@length C) z = map (@length A) x.
Proof.
  induction x as [|a x IH]; intros [|b y] H; try discriminate; [now exists []|]. cbn [map] in H. injection H as H1 H2.
  cbn [ozip]. destruct (ozip_total f a b H1) as [c Hc]; [intros; apply Hf|]. rewrite Hc. destruct (IH y H2) as (z & -> & Hz).
  exists (c :: z). split; [easy|]. cbn [map]. rewrite Hz. f_equal. now apply (ozip_nth _ _ _ _ Hc).
Qed.
Lemma add_total x : forall y, shape x = shape y -> exists z, add_iterate x y = Some z /\ shape z = shape x.
Proof.
  unfold shape. induction x as [|a x IH]; intros [|b y] H; try discriminate; [now exists []|]. cbn [map] in H. injection H as H1 H2.
  unfold add_iterate in *. cbn [ozip]. unfold add_local at 1. destruct (ozip2_total (fun p q => Some (p + q)%Qc) (fun p q => ex_intro _ _ eq_refl) a b H1) as (c & -> & Hc).
  destruct (IH y H2) as (z & -> & Hz). exists (c :: z). split; [easy|]. cbn [map]. now rewrite Hc, Hz.
Qed.
Lemma scatter_total x : (forall u e l d, at3 gms u e l = Some d -> chain u d < length x) -> exists y, scatter gms chain x = Some y /\ shape y = shape gms.
Proof.
  unfold scatter, shape. assert (G : forall k g, (forall u e l d, at3 g u e l = Some d -> chain (k + u) d < length x) ->
    exists y, omap (fun ug => omap (omap (fun d => nth_error x (chain (fst ug) d))) (snd ug)) (combine (seq k (length g)) g) = Some y /\ map (map (@length Qc)) y = map (map (@length nat)) g).
  { intros k g. revert k. induction g as [|gu g IH]; intros k H; [now exists []|]. cbn [length seq combine omap fst snd].
    assert (E : exists yu, omap (omap (fun d => nth_error x (chain k d))) gu = Some yu /\ map (@length Qc) yu = map (@length nat) gu).
    { assert (Hu : forall e l d, (match nth_error gu e with None => None | Some ge => nth_error ge l end) = Some d -> chain k d < length x).
      { intros e l d Hd. specialize (H 0 e l d). rewrite Nat.add_0_r in H. now apply H. }
      clear H. induction gu as [|ge gu IHu]; [now exists []|]. cbn [omap].
      destruct (omap_total (fun d => nth_error x (chain k d)) ge) as [ye Hye].
      { intros d Hd. apply In_nth_error in Hd. destruct Hd as [l Hd]. specialize (Hu 0 l d Hd). apply nth_error_Some in Hu.
        destruct (nth_error x (chain k d)) as [b|]; [now exists b|easy]. }
      rewrite Hye. destruct IHu as (yu & -> & Hyu); [intros e l d Hd; now apply (Hu (S e) l d)|].
      exists (ye :: yu). split; [easy|]. cbn [map]. rewrite Hyu. f_equal. now apply (omap_nth _ _ _ Hye). }
    destruct E as (yu & -> & Hyu). destruct (IH (S k)) as (y & -> & Hy).
    { intros u e l d Hd. specialize (H (S u) e l d). rewrite Nat.add_succ_r in H. now apply H. }
    exists (yu :: y). split; [easy|]. cbn [map]. now rewrite Hyu, Hy. }
  intros H. now apply (G 0 gms).
Qed.
Definition flags_ok (kind : what -> bool) (v : nat) (cs : list cus) : Prop := forall w f, In (w, f) cs -> kind w = true -> f = v /\ bad_place w = false.
Lemma take_total (kind : what -> bool) ITER cs : flags_ok kind (if ITER =? 1 then 0 else 1) cs ->
  take kind ITER cs = (map (fun c : cus => if kind (fst c) then (fst c, 1) else c) cs, true).
Proof.
  induction cs as [|[w f] cs IH]; intros H; [easy|]. cbn [take map fst].
  assert (Hr : flags_ok kind (if ITER =? 1 then 0 else 1) cs) by (intros v g Hin; apply H; now right).
  destruct (kind w) eqn:E.
  - destruct (H w f (or_introl eq_refl) E) as [-> ->]. rewrite Nat.eqb_refl. cbn [negb]. now rewrite (IH Hr).
  - now rewrite (IH Hr).
Qed.
Lemma drop_total cs raw : extras (map fst cs) <= 1 -> length raw = N + extras (map fst cs) -> exists x, drop_extra cs raw = Some x /\ length x = N.
Proof.
  unfold drop_extra. change (extras (map fst cs)) with (length (filter extra_row (map fst cs))). rewrite filter_map_len. destruct (length (filter extra_row (map fst cs))) as [|[|n]]; intros H1 H2; [| |lia].
  - exists raw. split; [easy|lia].
  - exists (removelast raw). split; [easy|]. destruct raw as [|a raw] using rev_ind; [cbn in H2; lia|]. rewrite removelast_last, app_length in *. cbn in H2. lia.
Qed.
Lemma map_fst_take (kind : what -> bool) (cs : list cus) : map fst (map (fun c : cus => if kind (fst c) then (fst c, 1) else c) cs) = map fst cs.
Proof. rewrite map_map. apply map_ext. intros [w f]. cbn [fst]. now destruct (kind w). Qed.
Lemma newton_loop_total ws (Hlin : forall xi, exists raw, lin xi ws = Some raw /\ length raw = N + extras ws) (Hex : extras ws <= 1)
  (Hch : forall u e l d, at3 gms u e l = Some d -> chain u d < N) fuel :
  forall cs st xi k B, map fst cs = ws -> shape xi = shape gms -> flags_ok newton_kind (if k =? 0 then 0 else 1) cs ->
  match newton_loop gms chain nrm lin atol m fuel cs st xi k B with
  | (mm, Done _ _ _ _ _) => forall w f, In (w, f) (m_cus mm) -> (if newton_kind w then f = 1 else In (w, f) cs)
  | (_, Fuel) => True
  | (_, Raise) => False
  end.
Proof.
  induction fuel as [|fuel IH]; intros cs st xi k B Hw Hs Hf; cbn [newton_loop]; [easy|].
  rewrite (take_total newton_kind (S k) cs) by (intros w f Hin Hk; destruct (Hf w f Hin Hk); destruct k; easy). cbn [negb].
  rewrite map_fst_take, Hw.
  destruct (Hlin xi) as (raw & -> & Hlen).
  set (cs1 := map (fun c : cus => if newton_kind (fst c) then (fst c, 1) else c) cs) in *.
  assert (Hw1 : map fst cs1 = ws) by (unfold cs1; now rewrite map_fst_take).
  destruct (drop_total cs1 raw) as (x & -> & Hx); [now rewrite Hw1|now rewrite Hw1|].
  destruct (scatter_total x) as (dx & -> & Hdx); [intros u e l d Hd; rewrite Hx; now apply (Hch u e l)|].
  destruct (add_total xi dx) as (xi1 & -> & Hxi); [congruence|].
  assert (Hc1 : forall w f, In (w, f) cs1 -> if newton_kind w then f = 1 else In (w, f) cs).
  { intros w f Hin. unfold cs1 in Hin. apply in_map_iff in Hin. destruct Hin as ([v g] & E & Hin). cbn [fst] in E.
    destruct (newton_kind v) eqn:Ev; injection E as <- <-; rewrite Ev; easy. }
  destruct (stop (B ++ [nrm x]) atol (S k) m) as [|j i]; [|cbn [m_cus]; exact Hc1].
  specialize (IH cs1 (Some dx) xi1 (S k) (B ++ [nrm x]) Hw1 ltac:(congruence)).
  destruct (newton_loop gms chain nrm lin atol m fuel cs1 (Some dx) xi1 (S k) (B ++ [nrm x])) as [mm [| |]].
  - apply IH. intros w f Hin Hk. pose proof (Hc1 w f Hin) as H1. rewrite Hk in H1. cbn [Nat.eqb]. split; [easy|].
    unfold cs1 in Hin. apply in_map_iff in Hin. destruct Hin as ([v g] & E & Hin). cbn [fst] in E.
    destruct (newton_kind v) eqn:Ev; injection E as <- <-; now apply (Hf v g).
  - intros w f Hin. assert (Hfo : flags_ok newton_kind (if S k =? 0 then 0 else 1) cs1).
    { intros w' f' Hin' Hk. pose proof (Hc1 w' f' Hin') as H1. rewrite Hk in H1. cbn [Nat.eqb]. split; [easy|].
      unfold cs1 in Hin'. apply in_map_iff in Hin'. destruct Hin' as ([v g] & E & Hin'). cbn [fst] in E.
      destruct (newton_kind v) eqn:Ev; injection E as <- <-; now apply (Hf v g). }
    specialize (IH Hfo w f Hin). destruct (newton_kind w) eqn:Ew; [easy|]. specialize (Hc1 w f IH). now rewrite Ew in Hc1.
  - easy.
Qed.
Lemma set_x0_total cs : forall x, shape x = shape gms ->
  (forall u dofs vals (f : nat), In (SetX0 u dofs vals, f) cs -> f = 0 /\ u < length gms /\ length vals = length dofs) ->
  exists cs' x', set_x0 gms cs x = (cs', Some x') /\ shape x' = shape gms /\ forall w f, In (w, f) cs' -> (is_SetX0 w /\ f = 1) \/ (~ is_SetX0 w /\ In (w, f) cs).
Proof.
  induction cs as [|[w f] cs IH]; intros x Hs H; [now exists [], x|].
  assert (Hr : forall u dofs vals (f : nat), In (SetX0 u dofs vals, f) cs -> f = 0 /\ u < length gms /\ length vals = length dofs) by (intros; apply H; now right).
  cbn [set_x0]. destruct w as [uu dd|uu dd vv|uu dd p|uu dd vv].
  1,3,4: (destruct (IH x Hs Hr) as (cs' & x' & -> & Hx & Hc); eexists _, x'; split; [reflexivity|]; split; [easy|];
    intros w g [E|Hin]; [injection E as <- <-; right; split; [intros (? & ? & ? & ?); discriminate|now left]
                       |destruct (Hc w g Hin) as [K|[K1 K2]]; [now left|right; split; [easy|now right]]]).
  destruct (H uu dd vv f (or_introl eq_refl)) as (-> & Hu & Hl). cbn [Nat.eqb negb].
  destruct (nth_error gms uu) as [gm|] eqn:Eg; [|apply nth_error_None in Eg; lia].
  assert (Lx : length x = length gms) by (apply (f_equal (@length _)) in Hs; unfold shape in Hs; now rewrite !map_length in Hs).
  destruct (nth_error x uu) as [xu|] eqn:Ex; [|apply nth_error_None in Ex; lia].
  assert (Hxu : map (@length Qc) xu = map (@length nat) gm).
  { apply (f_equal (fun s => nth_error s uu)) in Hs. unfold shape in Hs. rewrite !nth_error_map, Eg, Ex in Hs. now injection Hs. }
  assert (P : exists y, put_dofs gm xu dd vv = Some y /\ map (@length Qc) y = map (@length nat) gm).
  { clear - Hxu Hl. revert xu vv Hl Hxu. induction dd as [|d dd IHd]; intros xu vv Hl Hxu; [now exists xu|].
    destruct vv as [|v vv]; [discriminate|]. cbn [put_dofs]. unfold put_dof.
    destruct (ozip2_total (fun g y => Some (if g =? d then v else y)) (fun a b => ex_intro _ _ eq_refl) gm xu (eq_sym Hxu)) as (y & -> & Hy).
    apply IHd; [now injection Hl|easy]. }
  destruct P as (y & -> & Hy).
  destruct (IH (replace_nth x uu y)) as (cs' & x' & -> & Hx & Hc); [|easy|].
  { rewrite <- Hs. unfold shape. clear - Ex Hy Hxu. revert uu Ex. induction x as [|a x IHx]; intros [|uu] Ex; try discriminate; cbn [replace_nth map].
    - injection Ex as ->. now rewrite Hy, Hxu.
    - now rewrite (IHx uu Ex). }
  eexists _, x'. split; [reflexivity|]. split; [easy|]. intros w g [E|Hin].
  - injection E as <- <-. left. split; [now eexists _, _, _|easy].
  - destruct (Hc w g Hin) as [K|[K1 K2]]; [now left|right; split; [easy|now right]].
Qed.
(** fresh customizations that Newton-Raphson knows, at most one extra row, systems that can be solved: no exception *)
Lemma solve_newton_total uniq h mm x0 (ws := map fst (m_cus mm ++ flat_map (unhold Newton) h)) :
  (forall xi, exists raw, lin xi ws = Some raw /\ length raw = N + extras ws) -> extras ws <= 1 ->
  (forall u e l d, at3 gms u e l = Some d -> chain u d < N) -> shape x0 = shape gms ->
  (forall w f, In (w, f) (m_cus mm) -> f = 0 /\ ~ is_SetDofs w) ->
  (forall u d p, In (AddFix u d p) ws -> p = (-1)%Z) ->
  (forall u dofs vals, In (SetX0 u dofs vals) ws -> u < length gms /\ length vals = length dofs) ->
  exists mm' x i B, solve' uniq Newton h mm x0 = (mm', Some (Local x, i, B)).
Proof.
  intros Hlin Hex Hch Hs Hfresh Hplace Hset. unfold solve. cbn zeta. cbn [m_store].
  set (cs := m_cus mm ++ flat_map (unhold Newton) h) in *.
  assert (Hz : forall w f, In (w, f) cs -> f = 0 /\ ~ is_SetDofs w).
  { intros w f Hin. apply in_app_or in Hin. destruct Hin as [Hin|Hin]; [now apply Hfresh|]. apply in_flat_map in Hin.
    destruct Hin as ([[u d] v] & _ & [E|[E|[]]]); injection E as <- <-; (split; [easy|intros (? & ? & ? & ?); discriminate]). }
  assert (E0 : forallb no_effect cs = true) by (apply forallb_forall; intros [w f] Hin; apply Hz in Hin; destruct Hin as [-> _]; easy).
  rewrite E0. cbn [negb]. unfold newton.
  destruct (set_x0_total cs x0 Hs) as (cs' & x' & Ex & Hx & Hc).
  { intros u dofs vals f Hin. split; [now apply (Hz _ f) in Hin|]. apply Hset. unfold ws. apply in_map_iff. now exists (SetX0 u dofs vals, f). }
  rewrite Ex. pose proof (set_x0_fst _ _ _ _ _ Ex) as Ef. fold ws in Ef.
  assert (Hfo : flags_ok newton_kind (if 0 =? 0 then 0 else 1) cs').
  { intros w f Hin Hk. cbn [Nat.eqb]. destruct (Hc w f Hin) as [[(u & d & v & ->) _]|[_ K]]; [discriminate|]. split; [now apply (Hz w f)|].
    destruct w; try easy. cbn [bad_place]. rewrite (Hplace u dof place); [easy|]. rewrite <- Ef. apply in_map_iff. now exists (AddFix u dof place, f). }
  pose proof (newton_loop_total ws Hlin Hex Hch (enough m) cs' (m_store mm) x' 0 [] Ef Hx Hfo) as T.
  pose proof (newton_fuel gms chain nrm lin atol m (enough m) cs' (m_store mm) x' 0 []) as F.
  destruct (newton_loop gms chain nrm lin atol m (enough m) cs' (m_store mm) x' 0 []) as [mm1 [|x k B j i|]]; [easy| |].
  - assert (E1 : forallb full_effect (m_cus mm1) = true).
    { apply forallb_forall. intros [w f] Hin. specialize (T w f Hin). unfold full_effect. cbn [snd]. apply Nat.eqb_eq.
      destruct (newton_kind w) eqn:Ew; [easy|]. destruct (Hc w f T) as [[_ K]|[K1 K2]]; [easy|].
      exfalso. destruct w; try discriminate; [apply K1; now eexists _, _, _|]. apply (Hz _ _ K2). now eexists _, _, _. }
    rewrite E1. now eexists _, _, _, _.
  - exfalso. apply F; [unfold enough; destruct m; lia|unfold enough, limit; destruct m; lia|easy].
Qed.
End Total.
