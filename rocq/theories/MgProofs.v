From Coq Require Import List ZArith Bool Lia Arith.
From Verif Require Import Dict MgModel MgSpec.
Import ListNotations.
Local Open Scope Z_scope.

(** ** walks *)
Lemma walk_app w : forall a v, walk a (w ++ v) = match walk a w with Some c => walk c v | None => None end.
Proof. induction w as [|[l|l] w IH]; intros a v; cbn [walk app]; auto; destruct (l =? a); auto. Qed.
Lemma visited_app w : forall a v x, In x (visited a (w ++ v)) -> In x (visited a w) \/ exists c, walk a w = Some c /\ In x (visited c v) \/ walk a w = None.
Proof.
  induction w as [|[l|l] w IH]; intros a v x; cbn [visited app walk].
  - right. exists a. left. auto.
  - intros [<-|H]; [left; now left|]. destruct (l =? a); [|right; exists a; now right]. destruct (IH _ _ _ H) as [?|(c & [?|?])]; [left; right; auto|right; exists c; auto|right; exists c; auto].
  - intros [<-|H]; [left; now left|]. destruct (l =? a); [|right; exists a; now right]. destruct (IH _ _ _ H) as [?|(c & [?|?])]; [left; right; auto|right; exists c; auto|right; exists c; auto].
Qed.
Lemma visited_app_l w : forall a v x, In x (visited a w) -> In x (visited a (w ++ v)).
Proof.
  induction w as [|[l|l] w IH]; intros a v x; cbn [visited app].
  - intros [<-|[]]. destruct v as [|[?|?] ?]; now left.
  - intros [<-|H]; [now left|right; auto].
  - intros [<-|H]; [now left|right; auto].
Qed.
Lemma walk_steps f : forall l, walk l (steps l f) = Some l.
Proof.
  induction f as [|s IHs r IHr]; intros l; cbn [steps walk]; auto. rewrite Z.eqb_refl, walk_app, IHs. cbn [walk]. rewrite Z.eqb_refl. replace (l - 1 + 1) with l by lia. auto.
Qed.
Fixpoint depth (f : form) : Z := match f with Done => 0 | Then s r => Z.max (depth s + 1) (depth r) end.
Lemma depth_nonneg f : 0 <= depth f. Proof. induction f; cbn [depth]; lia. Qed.
Lemma visited_steps f : forall l, Forall (fun v => l - depth f <= v <= l) (visited l (steps l f)).
Proof.
  induction f as [|s IHs r IHr]; intros l; cbn [steps visited depth].
  - constructor; [lia|constructor].
  - pose proof (depth_nonneg s). pose proof (depth_nonneg r). constructor; [lia|]. rewrite Forall_forall. intros x Hx. apply visited_app in Hx as [Hx|(c & [[Hc Hx]|Hc])].
    + specialize (IHs (l - 1)). rewrite Forall_forall in IHs. specialize (IHs x Hx). lia.
    + rewrite walk_steps in Hc. injection Hc as <-. cbn [visited] in Hx. destruct Hx as [<-|Hx]; [lia|]. replace (l - 1 + 1) with l in Hx by lia. specialize (IHr l). rewrite Forall_forall in IHr. specialize (IHr x Hx). lia.
    + rewrite walk_steps in Hc. discriminate.
Qed.
Lemma walk_full fs : forall l, walk l (full_steps l fs) = Some (l + Z.of_nat (length fs)).
Proof.
  induction fs as [|f fs IH]; intros l; cbn [full_steps walk length]; [f_equal; lia|]. rewrite Z.eqb_refl, walk_app, walk_steps, IH. f_equal. lia.
Qed.
(** all walks that stay below their end *)
Lemma decompose w : forall a e, walk a w = Some e -> Forall (fun v => v <= e) (visited a w) -> exists f fs, w = steps a f ++ full_steps a fs /\ a + Z.of_nat (length fs) = e.
Proof.
  induction w as [|[l|l] w IH]; intros a e H V; cbn [walk visited] in *.
  - injection H as <-. exists Done, []. cbn. split; auto. lia.
  - destruct (l =? a) eqn:E; [|discriminate]. apply Z.eqb_eq in E as ->. inversion V as [|? ? Va Vw]; subst. destruct (IH (a - 1) e H Vw) as (f & fs & -> & Hl).
    destruct fs as [|f1 fs]; cbn [length] in Hl; [lia|]. exists (Then f f1), fs. split; [|lia]. cbn [steps full_steps]. replace (a - 1 + 1) with a by lia. cbn [app]. rewrite <- app_assoc. reflexivity.
  - destruct (l =? a) eqn:E; [|discriminate]. apply Z.eqb_eq in E as ->. inversion V as [|? ? Va Vw]; subst. destruct (IH (a + 1) e H Vw) as (f & fs & -> & Hl).
    exists Done, (f :: fs). split; [reflexivity|]. cbn [length]. lia.
Qed.
Lemma Forall_visited_full fs : forall a e, e = a + Z.of_nat (length fs) -> Forall (fun v => v <= e) (visited a (full_steps a fs)).
Proof.
  induction fs as [|f fs IH]; intros a e E; cbn [full_steps visited length] in *; [constructor; [lia|constructor]|]. constructor; [lia|]. rewrite Forall_forall. intros x Hx. apply visited_app in Hx as [Hx|(c & [[Hc Hx]|Hc])].
  - pose proof (visited_steps f (a + 1)) as V. rewrite Forall_forall in V. specialize (V x Hx). lia.
  - rewrite walk_steps in Hc. injection Hc as <-. specialize (IH (a + 1) e ltac:(lia)). rewrite Forall_forall in IH. auto.
  - rewrite walk_steps in Hc. discriminate.
Qed.

(** ** the generated schedules *)
Fixpoint vform (k : nat) : form := match k with O => Done | S j => Then (vform j) Done end.
Lemma layers_S k : layers (S k) = layers k ++ [Z.of_nat k].
Proof. unfold layers. rewrite seq_S, map_app. reflexivity. Qed.
Lemma removelast_layers k : removelast (layers (S k)) = layers k.
Proof. rewrite layers_S. apply removelast_last. Qed.
Lemma removelast_rev_layers k : removelast (rev (layers (S k))) = rev (map Z.of_nat (seq 1 k)).
Proof. unfold layers. cbn [seq map rev]. apply removelast_last. Qed.
Lemma parse_V_steps k : parse_V (S k) = steps (Z.of_nat k) (vform k).
Proof.
  unfold parse_V. rewrite removelast_layers, removelast_rev_layers. induction k as [|k IH]; [reflexivity|]. rewrite seq_S, map_app, rev_app_distr, layers_S. cbn [map rev app vform steps]. rewrite map_app, app_assoc, IH.
  replace (Z.of_nat (S k) - 1) with (Z.of_nat k) by lia. replace (1 + k)%nat with (S k) by lia. reflexivity.
Qed.
Lemma vform_depth k : depth (vform k) = Z.of_nat k. Proof. induction k as [|k IH]; cbn [vform depth]; rewrite ?IH; lia. Qed.
Lemma visited_bottom k : forall l, In (l - Z.of_nat k) (visited l (steps l (vform k))).
Proof. induction k as [|k IH]; intros l; cbn [vform steps visited]; [left; lia|]. right. apply visited_app_l. replace (l - Z.of_nat (S k)) with (l - 1 - Z.of_nat k) by lia. apply IH. Qed.
Lemma V_walk n : (1 <= n)%nat -> walk (Z.of_nat n - 1) (parse_V n) = Some (Z.of_nat n - 1) /\ Forall (fun v => 0 <= v <= Z.of_nat n - 1) (visited (Z.of_nat n - 1) (parse_V n)) /\ In 0 (visited (Z.of_nat n - 1) (parse_V n)) /\ length (parse_V n) = (2 * (n - 1))%nat.
Proof.
  destruct n as [|k]; [lia|]. intros _. replace (Z.of_nat (S k) - 1) with (Z.of_nat k) by lia. split; [|split; [|split]].
  - rewrite parse_V_steps. apply walk_steps.
  - rewrite parse_V_steps. eapply Forall_impl; [|apply visited_steps]. cbn beta. rewrite vform_depth. intros; lia.
  - rewrite parse_V_steps. replace 0 with (Z.of_nat k - Z.of_nat k) by lia. apply visited_bottom.
  - unfold parse_V. rewrite removelast_layers, removelast_rev_layers, app_length, !map_length, rev_length, map_length, seq_length. unfold layers. rewrite map_length, seq_length. lia.
Qed.
Fixpoint ups (l : Z) (k : nat) : list step := match k with O => [] | S j => IS l :: ups (l + 1) j end.
Lemma ups_layers k : forall i, map IS (map Z.of_nat (seq i k)) = ups (Z.of_nat i) k.
Proof. induction k as [|k IH]; intros i; cbn [seq map ups]; auto. rewrite IH. do 2 f_equal. lia. Qed.
Lemma parse_N_steps k : parse_N (S k) = ups 0 k ++ parse_V (S k).
Proof. unfold parse_N, parse_V. f_equal. rewrite removelast_layers. unfold layers. apply (ups_layers k 0). Qed.
Lemma walk_ups k : forall l, walk l (ups l k) = Some (l + Z.of_nat k).
Proof. induction k as [|k IH]; intros l; cbn [ups walk]; [f_equal; lia|]. rewrite Z.eqb_refl, IH. f_equal. lia. Qed.
Lemma visited_ups k : forall l, Forall (fun v => l <= v <= l + Z.of_nat k) (visited l (ups l k)).
Proof. induction k as [|k IH]; intros l; cbn [ups visited]; (constructor; [lia|]); [constructor|]. eapply Forall_impl; [|apply IH]. cbn beta. intros; lia. Qed.
Lemma N_walk n : (1 <= n)%nat -> walk 0 (parse_N n) = Some (Z.of_nat n - 1) /\ Forall (fun v => 0 <= v <= Z.of_nat n - 1) (visited 0 (parse_N n)) /\ length (parse_N n) = (3 * (n - 1))%nat.
Proof.
  destruct n as [|k]; [lia|]. intros _. destruct (V_walk (S k) ltac:(lia)) as (A & B & _ & D). replace (Z.of_nat (S k) - 1) with (Z.of_nat k) in * by lia. rewrite parse_N_steps. split; [|split].
  - rewrite walk_app, walk_ups. exact A.
  - rewrite Forall_forall in *. intros x Hx. apply visited_app in Hx as [Hx|(c & [[Hc Hx]|Hc])].
    + pose proof (visited_ups k 0) as V. rewrite Forall_forall in V. specialize (V x Hx). lia.
    + rewrite walk_ups in Hc. injection Hc as <-. apply B. exact Hx.
    + rewrite walk_ups in Hc. discriminate.
  - rewrite app_length, D. assert (E : forall j l, length (ups l j) = j) by (induction j; intros; cbn [ups length]; auto). rewrite E. lia.
Qed.
Lemma moves_walk s : forall (dn : bool) l, walk l (fst (moves dn l s)) = Some (snd (moves dn l s)) /\ snd (moves dn l s) = l + (if dn then - Z.of_nat s else Z.of_nat s).
Proof.
  induction s as [|s IH]; intros dn l; cbn [moves]; [destruct dn; cbn; split; [reflexivity|lia|reflexivity|lia]|]. destruct dn.
  - destruct (moves true (l - 1) s) as [w l'] eqn:E. specialize (IH true (l - 1)). rewrite E in IH. cbn [fst snd walk] in *. rewrite Z.eqb_refl. split; [tauto|lia].
  - destruct (moves false (l + 1) s) as [w l'] eqn:E. specialize (IH false (l + 1)). rewrite E in IH. cbn [fst snd walk] in *. rewrite Z.eqb_refl. split; [tauto|lia].
Qed.
Lemma parse_seq_walk ss : forall dn l, exists e, walk l (parse_seq dn l ss) = Some e.
Proof.
  induction ss as [|s ss IH]; intros dn l; cbn [parse_seq]; [eexists; reflexivity|]. pose proof (moves_walk s dn l) as M. destruct (moves dn l s) as [w l']. cbn [fst snd] in M. destruct (IH (negb dn) l') as [e He]. exists e. rewrite walk_app. destruct M as [-> _]. exact He.
Qed.
Lemma check_last_walk n w a v e : walk a w = Some e -> check_last n w = Some v -> v = w /\ e = Z.of_nat n - 1 /\ exists q, w = q ++ [IS (Z.of_nat n - 2)].
Proof.
  intros H. unfold check_last. destruct (rev w) as [|x r] eqn:E; [discriminate|]. apply (f_equal (@rev step)) in E. rewrite rev_involutive in E. cbn in E. destruct x as [l|l]; [discriminate|]. destruct (l =? Z.of_nat n - 2) eqn:El; [|discriminate]. intros [= <-].
  apply Z.eqb_eq in El. subst w l. split; auto. rewrite walk_app in H. destruct (walk a (rev r)) as [c|]; [|discriminate]. cbn [walk] in H. destruct (Z.of_nat n - 2 =? c) eqn:Ec; [|discriminate]. apply Z.eqb_eq in Ec. injection H as <-. split; [lia|]. eauto.
Qed.
Lemma W_walk n ss w : parse_W n ss = Some w -> walk (Z.of_nat n - 1) w = Some (Z.of_nat n - 1).
Proof.
  unfold parse_W. destruct ss as [|s ss]; [discriminate|]. destruct (parse_seq_walk (s :: ss) true (Z.of_nat n - 1)) as [e He]. intros H. destruct (check_last_walk _ _ _ _ _ He H) as (-> & -> & _). exact He.
Qed.
Lemma FMG_walk n ss w : parse_FMG n ss = Some w -> walk 0 w = Some (Z.of_nat n - 1).
Proof.
  unfold parse_FMG. destruct ss as [|s ss]; [discriminate|]. destruct (parse_seq_walk (s :: ss) false 0) as [e He]. intros H. destruct (check_last_walk _ _ _ _ _ He H) as (-> & -> & _). exact He.
Qed.
Lemma W_levels_refuted : exists n ss w, parse_W n ss = Some w /\ In (-1) (visited (Z.of_nat n - 1) w) /\ exists d, pairs w = Some d.
Proof. exists 4%nat, [4; 4]%nat. eexists. split; [reflexivity|]. split; [cbn; intuition|eexists; reflexivity]. Qed.
Lemma W_above_refuted : exists n ss w, parse_W n ss = Some w /\ In (Z.of_nat n) (visited (Z.of_nat n - 1) w) /\ pairs w = None.
Proof. exists 4%nat, [1; 2; 2; 1]%nat. eexists. split; [reflexivity|]. split; [cbn; intuition|reflexivity]. Qed.

(** ** pairs *)
Fixpoint back (n : nat) (w : list step) : option (list nat * dict nat (option nat)) :=
  match w with
  | [] => Some ([], [])
  | x :: q => match back (S n) q with
              | None => None
              | Some (st, d) => match x with IS _ => Some (n :: st, d) | RS _ => match st with [] => None | j :: st' => Some (st', put Nat.eqb d j (Some n)) end end
              end
  end.
Lemma pair_loop_app u : forall v st d, pair_loop (u ++ v) st d = match pair_loop u st d with Some (st', d') => pair_loop v st' d' | None => None end.
Proof. induction u as [|[i [l|l]] u IH]; intros v st d; cbn [pair_loop app]; auto. destruct st; auto. Qed.
Lemma pair_loop_back w : forall n, pair_loop (rev (combine (seq n (length w)) w)) [] [] = back n w.
Proof.
  induction w as [|x w IH]; intros n; [reflexivity|]. cbn [length seq combine rev back]. rewrite pair_loop_app, IH. destruct (back (S n) w) as [[st d]|]; [|destruct x; reflexivity]. destruct x; cbn [pair_loop]; [destruct st|]; reflexivity.
Qed.
Lemma nested_app u : nested u -> forall v, nested v -> nested (u ++ v).
Proof. induction 1 as [|l m k q Hm IHm Hq IHq]; intros v Hv; cbn [app]; auto. rewrite <- app_assoc. cbn [app]. constructor; auto. Qed.
Lemma nested_unique m : nested m -> forall m' k q k' q', nested m' -> m ++ IS k :: q = m' ++ IS k' :: q' -> m = m' /\ k = k' /\ q = q'.
Proof.
  induction 1 as [|l a j c Ha IHa Hc IHc]; intros m' k q k' q' Hm'.
  - destruct Hm' as [|l' a' j' c' Ha' Hc']; cbn; intros E; injection E; [intros -> ->; auto|discriminate].
  - destruct Hm' as [|l' a' j' c' Ha' Hc']; cbn [app]; intros E; [discriminate|]. injection E as -> E. rewrite <- !app_assoc in E. cbn [app] in E. destruct (IHa _ _ _ _ _ Ha' E) as (-> & -> & E2). destruct (IHc _ _ _ _ _ Hc' E2) as (-> & -> & ->). auto.
Qed.
Fixpoint shape (n : nat) (w : list step) (st : list nat) : Prop :=
  match st with
  | [] => nested w
  | i :: st' => exists u k v, w = u ++ IS k :: v /\ nested u /\ i = (n + length u)%nat /\ shape (S i) v st'
  end.
Lemma shape_prefix u st : nested u -> forall n v, shape (n + length u) v st -> shape n (u ++ v) st.
Proof.
  intros Hu n v. destruct st as [|i st]; cbn [shape]; [apply nested_app; auto|]. intros (a & k & c & -> & Ha & -> & S). exists (u ++ a), k, c. rewrite <- app_assoc. split; auto. split; [apply nested_app; auto|]. rewrite app_length. split; [lia|exact S].
Qed.
Lemma Neqb a b : Nat.eqb a b = true <-> a = b. Proof. apply Nat.eqb_eq. Qed.
Notation dget := (get Nat.eqb).
Definition matched_from (n : nat) (w : list step) (r i : nat) : Prop :=
  exists p l m k q, w = p ++ RS l :: m ++ IS k :: q /\ nested m /\ r = (n + length p)%nat /\ i = (n + length p + 1 + length m)%nat.
Lemma shape_in st : forall n w i, shape n w st -> In i st -> (n <= i)%nat /\ exists k, nth_error w (i - n) = Some (IS k).
Proof.
  induction st as [|j st IH]; intros n w i Sh Hin; [destruct Hin|]. cbn [shape] in Sh. destruct Sh as (u & k & v & -> & Hu & Ej & Sh). destruct Hin as [Hin|Hin].
  - assert (i = n + length u)%nat as -> by lia. split; [lia|]. exists k. rewrite nth_error_app2 by lia. replace (n + length u - n - length u)%nat with 0%nat by lia. reflexivity.
  - destruct (IH _ _ _ Sh Hin) as (L & k' & Hk). split; [lia|]. exists k'. rewrite nth_error_app2 by lia. replace (i - n - length u)%nat with (S (i - S j))%nat by lia. exact Hk.
Qed.
Lemma shape_inc st : forall n w, shape n w st -> NoDup st /\ forall i, In i st -> (n <= i)%nat.
Proof.
  induction st as [|j st IH]; intros n w Sh; [split; [constructor|intros i []]|]. cbn [shape] in Sh. destruct Sh as (u & k & v & -> & Hu & Ej & Sh). destruct (IH _ _ Sh) as (A & B). split.
  - constructor; auto. intros H. specialize (B _ H). lia.
  - intros i [<-|H]; [lia|]. specialize (B _ H). lia.
Qed.
(** ** counting *)
Definition cR (w : list step) : nat := length (filter (fun x => match x with RS _ => true | IS _ => false end) w).
Definition cI (w : list step) : nat := length (filter (fun x => match x with RS _ => false | IS _ => true end) w).
Lemma cR_app u v : cR (u ++ v) = (cR u + cR v)%nat. Proof. unfold cR. now rewrite filter_app, app_length. Qed.
Lemma cI_app u v : cI (u ++ v) = (cI u + cI v)%nat. Proof. unfold cI. now rewrite filter_app, app_length. Qed.
Lemma cR_R l w : cR (RS l :: w) = S (cR w). Proof. reflexivity. Qed.
Lemma cR_I l w : cR (IS l :: w) = cR w. Proof. reflexivity. Qed.
Lemma cI_R l w : cI (RS l :: w) = cI w. Proof. reflexivity. Qed.
Lemma cI_I l w : cI (IS l :: w) = S (cI w). Proof. reflexivity. Qed.
Definition good (w : list step) : Prop := forall p q, w = p ++ q -> (cR q <= cI q)%nat.
Lemma nested_count w : nested w -> cR w = cI w.
Proof. induction 1; auto. rewrite cR_R, cI_R, cR_app, cI_app, cR_I, cI_I. lia. Qed.
Lemma good_app u v : good u -> good v -> good (u ++ v).
Proof.
  intros Hu Hv p q E. symmetry in E. apply app_eq_app in E as (z & [[E1 E2]|[E1 E2]]).
  - apply (Hv z q). exact E2.
  - subst q. rewrite cR_app, cI_app. specialize (Hu _ _ E1). specialize (Hv [] v eq_refl). lia.
Qed.
Lemma good_I k : good [IS k].
Proof. intros [|x p] q E; cbn [app] in E; [subst; cbn; lia|]. injection E as _ E. symmetry in E. apply app_eq_nil in E as [_ ->]. cbn; lia. Qed.
Lemma nested_good w : nested w -> good w.
Proof.
  induction 1 as [|l m k q Hm IHm Hq IHq]; intros p s E.
  - symmetry in E. apply app_eq_nil in E as [_ ->]. cbn; lia.
  - destruct p as [|y p]; cbn [app] in E.
    + subst s. rewrite cR_R, cI_R, cR_app, cI_app, cR_I, cI_I, (nested_count m), (nested_count q); auto. lia.
    + injection E as _ E. change (IS k :: q) with ([IS k] ++ q) in E. apply (good_app m ([IS k] ++ q) IHm (good_app _ _ (good_I k) IHq) p s E).
Qed.
Lemma good_unmatched P p l m : good P -> nested m -> P <> p ++ RS l :: m.
Proof. intros G N E. specialize (G _ _ E). rewrite cR_R, cI_R, (nested_count m N) in G. lia. Qed.
Lemma cut_prefix (P : list step) k q p l m k' q' : P ++ IS k :: q = p ++ RS l :: m ++ IS k' :: q' -> length P = (length p + 1 + length m)%nat -> P = p ++ RS l :: m.
Proof.
  intros E L. replace (p ++ RS l :: m ++ IS k' :: q') with ((p ++ RS l :: m) ++ IS k' :: q') in E by (rewrite <- app_assoc; reflexivity).
  apply (f_equal (firstn (length P))) in E. rewrite firstn_app, Nat.sub_diag, firstn_all, firstn_O, app_nil_r in E. rewrite firstn_app in E.
  replace (length P - length (p ++ RS l :: m))%nat with 0%nat in E by (rewrite app_length; cbn [length]; lia). rewrite firstn_O, app_nil_r, firstn_all2 in E; [exact E|rewrite app_length; cbn [length]; lia].
Qed.
Lemma back_spec w : forall n st d, back n w = Some (st, d) ->
  shape n w st /\ (forall i x, dget d i = Some x <-> exists r, x = Some r /\ matched_from n w r i) /\
  (forall i k, nth_error w i = Some (IS k) -> In (n + i)%nat st \/ exists r, dget d (n + i)%nat = Some (Some r)).
Proof.
  induction w as [|x w IH]; intros n st d; cbn [back].
  - intros [= <- <-]. split; [constructor|]. split; [|intros [|i] k; discriminate]. intros i x. split; [discriminate|]. intros (r & _ & p & l & m & k & q & E & _). destruct p; discriminate.
  - destruct (back (S n) w) as [[st0 d0]|] eqn:E; [|discriminate]. destruct (IH _ _ _ E) as (S0 & D0 & K0). destruct x as [l|l].
    + destruct st0 as [|j st1]; [discriminate|]. intros [= <- <-]. pose proof S0 as S0'. cbn [shape] in S0. destruct S0 as (u & k & v & -> & Hu & -> & S1). split; [|split].
      * replace (RS l :: u ++ IS k :: v) with ((RS l :: u ++ IS k :: []) ++ v) by (cbn; rewrite <- app_assoc; reflexivity). apply shape_prefix; [constructor; auto; constructor|]. cbn [length]. rewrite app_length. cbn [length].
        match goal with |- shape ?a _ _ => replace a with (S (S n + length u)) by lia end. exact S1.
      * intros i x. rewrite (get_put Nat.eqb Neqb). destruct (i =? S n + length u)%nat eqn:Ei.
        -- apply Nat.eqb_eq in Ei as ->. split.
           ++ intros [= <-]. exists n. split; auto. exists [], l, u, k, v. cbn [app length]. repeat split; auto; lia.
           ++ intros (r & -> & p & l' & m & k' & q & Eq & Hm & -> & Hi). f_equal. f_equal. destruct p as [|y p]; [cbn; lia|]. exfalso. cbn [app] in Eq. injection Eq as _ Eq. cbn [length] in Hi.
              (* the interpolation would be inside *)
              assert (X : exists r, Some r = Some r /\ matched_from (S n) (u ++ IS k :: v) r (S n + length u)) by (exists (S n + length p)%nat; split; auto; exists p, l', m, k', q; repeat split; auto; lia).
              assert (Y : exists x, dget d0 (S n + length u)%nat = Some x). { destruct X as (r & _ & M). exists (Some r). apply D0. eauto. }
              destruct X as (r & _ & M). assert (G : dget d0 (S n + length u)%nat = Some (Some r)) by (apply D0; eauto).
              destruct M as (p2 & l2 & m2 & k2 & q2 & E2 & Hm2 & _ & Hi2). clear - Hu E2 Hm2 Hi2.
              apply (good_unmatched u p2 l2 m2 (nested_good u Hu) Hm2). apply (cut_prefix _ _ _ _ _ _ _ _ E2). lia.
        -- apply Nat.eqb_neq in Ei. rewrite D0. split; intros (r & -> & p & l' & m & k' & q & Eq & Hm & -> & ->); eexists; (split; [reflexivity|]).
           ++ exists (RS l :: p), l', m, k', q. cbn [app length]. rewrite Eq. repeat split; auto; lia.
           ++ destruct p as [|y p]; cbn [app length] in *.
              ** injection Eq as -> Eq. destruct (nested_unique _ Hu _ _ _ _ _ Hm Eq) as (-> & _). lia.
              ** injection Eq as _ Eq. exists p, l', m, k', q. repeat split; auto; lia.
      * intros [|i] k' Hk; cbn [nth_error] in Hk; [discriminate|]. destruct (K0 i k' Hk) as [[Hj|Hin]|[r Hr]].
        -- right. exists n. rewrite (get_put Nat.eqb Neqb). replace (n + S i)%nat with (S n + length u)%nat by lia. rewrite Nat.eqb_refl. reflexivity.
        -- left. replace (n + S i)%nat with (S n + i)%nat by lia. exact Hin.
        -- right. rewrite (get_put Nat.eqb Neqb). replace (n + S i)%nat with (S n + i)%nat by lia. destruct (S n + i =? S n + length u)%nat; eauto.
    + intros [= <- <-]. split; [|split].
      * cbn [shape]. exists [], l, w. cbn [app length]. repeat split; [constructor|lia|]. exact S0.
      * intros i x. rewrite D0. split; intros (r & -> & p & l' & m & k' & q & Eq & Hm & -> & ->); eexists; (split; [reflexivity|]).
        -- exists (IS l :: p), l', m, k', q. cbn [app length]. rewrite Eq. repeat split; auto; lia.
        -- destruct p as [|y p]; cbn [app length] in *; [discriminate|]. injection Eq as _ Eq. exists p, l', m, k', q. repeat split; auto; lia.
      * intros [|i] k' Hk; cbn [nth_error] in Hk; [left; left; lia|]. replace (n + S i)%nat with (S n + i)%nat by lia. destruct (K0 i k' Hk) as [Hin|Hr]; [left; now right|right; exact Hr].
Qed.
Lemma shape_prefix_good st : forall n w i, shape n w st -> In i st -> exists P k q, w = P ++ IS k :: q /\ (n + length P = i)%nat /\ good P.
Proof.
  induction st as [|j st IH]; intros n w i Sh Hin; [destruct Hin|]. cbn [shape] in Sh. destruct Sh as (u & k & v & -> & Hu & Ej & Sh). destruct Hin as [<-|Hin].
  - exists u, k, v. split; auto. split; [lia|apply nested_good; auto].
  - destruct (IH _ _ _ Sh Hin) as (P & k' & q & -> & L & G). exists (u ++ [IS k] ++ P), k', q. rewrite <- !app_assoc. split; auto. rewrite !app_length. cbn [length]. split; [lia|]. apply good_app; [apply nested_good; auto|]. apply good_app; auto. apply good_I.
Qed.
Lemma fold_none st : forall d i, dget (fold_left (fun d i => put Nat.eqb d i (@None nat)) st d) i = if existsb (Nat.eqb i) st then Some None else dget d i.
Proof.
  induction st as [|j st IH]; intros d i; cbn [fold_left existsb]; auto. rewrite IH, (get_put Nat.eqb Neqb). destruct (existsb (Nat.eqb i) st); [now rewrite orb_true_r|]. destruct (i =? j)%nat; reflexivity.
Qed.
Lemma matched_from_0 w r i : matched_from 0 w r i <-> matched w r i.
Proof. split; intros H; exact H. Qed.
Lemma good_no_match P k q r : good P -> ~ matched (P ++ IS k :: q) r (length P).
Proof. intros G (p & l & m & k' & q' & E & Hm & _ & Hi). apply (good_unmatched P p l m G Hm). apply (cut_prefix _ _ _ _ _ _ _ _ E). lia. Qed.
Lemma matched_is w r i : matched w r i -> (r < i)%nat /\ exists l k, nth_error w r = Some (RS l) /\ nth_error w i = Some (IS k).
Proof.
  intros (p & l & m & k & q & -> & _ & -> & ->). split; [lia|]. exists l, k. split; (rewrite nth_error_app2 by lia).
  - now rewrite Nat.sub_diag.
  - replace (length p + 1 + length m - length p)%nat with (S (length m)) by lia. cbn [nth_error]. rewrite nth_error_app2, Nat.sub_diag by lia. reflexivity.
Qed.
Lemma pairs_spec w d : pairs w = Some d ->
  (forall i r, dget d i = Some (Some r) <-> matched w r i) /\ (forall i, dget d i = Some None <-> (exists k, nth_error w i = Some (IS k)) /\ forall r, ~ matched w r i).
Proof.
  unfold pairs. rewrite pair_loop_back. destruct (back 0 w) as [[st d0]|] eqn:E; [|discriminate]. intros [= <-]. destruct (back_spec w 0 st d0 E) as (Sh & D & K).
  assert (St : forall i, existsb (Nat.eqb i) (rev st) = true <-> In i st). { intros i. rewrite existsb_exists. split; [intros (x & Hx & Ex); apply Nat.eqb_eq in Ex as ->; now apply in_rev|]. intros H. exists i. split; [now apply -> in_rev|apply Nat.eqb_refl]. }
  assert (Un : forall i, In i st -> (exists k, nth_error w i = Some (IS k)) /\ forall r, ~ matched w r i).
  { intros i Hi. destruct (shape_prefix_good st 0 w i Sh Hi) as (P & k & q & -> & L & G). cbn in L. subst i. split; [exists k; rewrite nth_error_app2, Nat.sub_diag by lia; reflexivity|]. intros r. apply good_no_match. exact G. }
  split; intros i; [intros r|]; rewrite fold_none; destruct (existsb (Nat.eqb i) (rev st)) eqn:Ei.
  - apply St in Ei. split; [discriminate|]. intros M. exfalso. apply (proj2 (Un i Ei) r M).
  - rewrite D. split; [intros (x & [= ->] & M); exact M|]. intros M. exists r. auto.
  - apply St in Ei. split; auto.
  - split.
    + rewrite D. intros (x & ? & _). discriminate.
    + intros [[k Hk] Hno]. exfalso. destruct (K i k Hk) as [Hin|[r Hr]]; [apply St in Hin; cbn in Hin; congruence|]. cbn [Nat.add] in Hr. apply (Hno r). apply D in Hr as (x & [= ->] & M). exact M.
Qed.
(** defined exactly for the walks that stay below their end *)
Lemma back_walk w : forall n a e, walk a w = Some e -> match back n w with Some (st, _) => a + Z.of_nat (length st) = e /\ Forall (fun v => v <= e) (visited a w) | None => ~ Forall (fun v => v <= e) (visited a w) end.
Proof.
  induction w as [|[l|l] w IH]; intros n a e H; cbn [back visited walk] in *.
  - injection H as <-. cbn. split; [lia|]. constructor; [lia|constructor].
  - destruct (l =? a); [|discriminate]. specialize (IH (S n) (a - 1) e H). destruct (back (S n) w) as [[[|j st] d]|].
    + destruct IH as [A _]. cbn in A. intros F. inversion F. lia.
    + destruct IH as [A B]. cbn [length] in A. split; [lia|]. constructor; [lia|auto].
    + intros F. inversion F. auto.
  - destruct (l =? a); [|discriminate]. specialize (IH (S n) (a + 1) e H). destruct (back (S n) w) as [[st d]|].
    + destruct IH as [A B]. cbn [length]. split; [lia|]. constructor; [lia|auto].
    + intros F. inversion F. auto.
Qed.
Lemma pairs_defined w a e : walk a w = Some e -> (pairs w <> None <-> Forall (fun v => v <= e) (visited a w)).
Proof.
  intros H. pose proof (back_walk w 0 a e H) as B. unfold pairs. rewrite pair_loop_back. destruct (back 0 w) as [[st d]|]; split; intros; try congruence; try tauto.
Qed.
(** levels of pairs *)
Lemma nested_walk m : nested m -> forall a e, walk a m = Some e -> e = a.
Proof.
  induction 1 as [|l m k q Hm IHm Hq IHq]; intros a e; cbn [walk]; [congruence|]. destruct (l =? a); [|discriminate]. rewrite walk_app. destruct (walk (a - 1) m) as [c|] eqn:E; [|discriminate]. apply IHm in E as ->. cbn [walk]. destruct (k =? a - 1); [|discriminate]. intros H. apply IHq in H. lia.
Qed.
Lemma matched_levels w a e r i : walk a w = Some e -> matched w r i -> exists l, nth_error w r = Some (RS l) /\ nth_error w i = Some (IS (l - 1)).
Proof.
  intros H M. destruct (matched_is _ _ _ M) as (_ & l0 & k0 & Hr & Hi). destruct M as (p & l & m & k & q & -> & Hm & -> & ->). rewrite walk_app in H. destruct (walk a p) as [c|]; [|discriminate]. cbn [walk] in H. destruct (l =? c) eqn:E; [|discriminate]. apply Z.eqb_eq in E as <-.
  rewrite walk_app in H. destruct (walk (l - 1) m) as [c'|] eqn:Em; [|discriminate]. apply (nested_walk m Hm) in Em as ->. cbn [walk] in H. destruct (k =? l - 1) eqn:E; [|discriminate]. apply Z.eqb_eq in E as ->.
  rewrite nth_error_app2, Nat.sub_diag in Hr by lia. rewrite nth_error_app2 in Hi by lia. replace (length p + 1 + length m - length p)%nat with (S (length m)) in Hi by lia. cbn [nth_error] in *. rewrite nth_error_app2, Nat.sub_diag in Hi by lia. exists l. split.
  - rewrite nth_error_app2, Nat.sub_diag by lia. reflexivity.
  - rewrite nth_error_app2 by lia. replace (length p + 1 + length m - length p)%nat with (S (length m)) by lia. cbn [nth_error]. rewrite nth_error_app2, Nat.sub_diag by lia. reflexivity.
Qed.
(** one to one, properly nested *)
Lemma matched_fun_i w r i i' : matched w r i -> matched w r i' -> i = i'.
Proof.
  intros (p & l & m & k & q & E & Hm & Hr & ->) (p' & l' & m' & k' & q' & E' & Hm' & Hr' & ->). rewrite E in E'. assert (L : length p = length p') by lia.
  assert (p = p' /\ RS l :: m ++ IS k :: q = RS l' :: m' ++ IS k' :: q') as [-> E2].
  { clear - E' L. revert p' L E'. induction p as [|x p IH]; intros [|y p'] L E; cbn in *; try lia; auto. injection E as -> E. destruct (IH p' ltac:(lia) E) as [-> ?]. auto. }
  injection E2 as _ E2. destruct (nested_unique m Hm _ _ _ _ _ Hm' E2) as (-> & _). reflexivity.
Qed.
Lemma matched_fun_r w r r' i : matched w r i -> matched w r' i -> r = r'.
Proof.
  intros M M'. destruct (lt_eq_lt_dec r r') as [[L|]|L]; auto; exfalso.
  - destruct M as (p & l & m & k & q & -> & Hm & Hr & Hi). destruct M' as (p' & l' & m' & k' & q' & E' & Hm' & Hr' & Hi').
    assert (E : p ++ RS l :: m = p' ++ RS l' :: m') by (apply (cut_prefix (p ++ RS l :: m) k q p' l' m' k' q'); [rewrite <- app_assoc; exact E'|rewrite app_length; cbn [length]; lia]).
    apply app_eq_app in E as (z & [[E1 E2]|[E1 E2]]); [subst p; rewrite app_length in *; lia|]. destruct z as [|y z]; [rewrite app_nil_r in E1; subst; lia|]. cbn in E2. injection E2 as <- E2. apply (good_unmatched m z l' m' (nested_good m Hm) Hm' E2).
  - destruct M' as (p & l & m & k & q & -> & Hm & Hr & Hi). destruct M as (p' & l' & m' & k' & q' & E' & Hm' & Hr' & Hi').
    assert (E : p ++ RS l :: m = p' ++ RS l' :: m') by (apply (cut_prefix (p ++ RS l :: m) k q p' l' m' k' q'); [rewrite <- app_assoc; exact E'|rewrite app_length; cbn [length]; lia]).
    apply app_eq_app in E as (z & [[E1 E2]|[E1 E2]]); [subst p; rewrite app_length in *; lia|]. destruct z as [|y z]; [rewrite app_nil_r in E1; subst; lia|]. cbn in E2. injection E2 as <- E2. apply (good_unmatched m z l' m' (nested_good m Hm) Hm' E2).
Qed.
Lemma nested_closed m : nested m -> forall p l s, m = p ++ RS l :: s -> exists m' k q, s = m' ++ IS k :: q /\ nested m'.
Proof.
  induction 1 as [|l0 a k0 c Ha IHa Hc IHc]; intros p l s E; [destruct p; discriminate|]. destruct p as [|x p]; cbn [app] in E.
  - injection E as _ <-. eauto.
  - injection E as _ E. apply app_eq_app in E as (z & [[E1 E2]|[E1 E2]]).
    + destruct z as [|y z]; cbn [app] in E2; [discriminate|]. injection E2 as <- ->. destruct (IHa _ _ _ E1) as (m' & k & q & -> & N). exists m', k, (q ++ IS k0 :: c). rewrite <- app_assoc. auto.
    + destruct z as [|y z]; cbn [app] in E2; [discriminate|]. injection E2 as <- E2. exact (IHc _ _ _ E2).
Qed.
Lemma matched_nested w r i r' i' : matched w r i -> matched w r' i' -> (r < r' < i)%nat -> (i' < i)%nat.
Proof.
  intros M M' L. pose proof M' as M2. destruct M as (p & l & m & k & q & -> & Hm & Hr & Hi). destruct (matched_is _ _ _ M') as (_ & l' & k' & Hr' & _).
  rewrite nth_error_app2 in Hr' by lia. replace (r' - length p)%nat with (S (r' - length p - 1)) in Hr' by lia. cbn [nth_error] in Hr'. rewrite nth_error_app1 in Hr' by lia. apply nth_error_split in Hr' as (m1 & m2 & Em & L1).
  destruct (nested_closed m Hm _ _ _ Em) as (m' & k2 & q2 & -> & N). assert (i' = r' + 1 + length m')%nat.
  { apply (matched_fun_i _ _ _ _ M2). subst m. exists (p ++ RS l :: m1), l', m', k2, (q2 ++ IS k :: q). split; [repeat (rewrite <- app_assoc; cbn [app]); reflexivity|]. split; auto. rewrite app_length. cbn [length]. split; lia. }
  subst. rewrite !app_length in *. cbn [length] in *. rewrite app_length in *. cbn [length] in *. lia.
Qed.
(** every restriction is paired *)
Lemma restriction_paired w d r l : pairs w = Some d -> nth_error w r = Some (RS l) -> exists i, matched w r i.
Proof.
  unfold pairs. rewrite pair_loop_back. destruct (back 0 w) as [[st d0]|] eqn:E; [|discriminate]. intros _. revert st d0 r E. generalize 0%nat as n. induction w as [|x w IH]; intros n st d0 r E H; [destruct r; discriminate|]. cbn [back] in E.
  destruct (back (S n) w) as [[st1 d1]|] eqn:E1; [|discriminate]. destruct r as [|r]; cbn [nth_error] in H.
  - injection H as ->. destruct st1 as [|j st1]; [discriminate|]. destruct (back_spec _ _ _ _ E1) as (Sh & _). cbn [shape] in Sh. destruct Sh as (u & k & v & -> & Hu & _). exists (1 + length u)%nat. exists [], l, u, k, v. cbn. repeat split; auto.
  - destruct (IH _ _ _ _ E1 H) as (i & p & l' & m & k & q & -> & Hm & -> & ->). exists (S (length p + 1 + length m)). exists (x :: p), l', m, k, q. cbn. repeat split; auto.
Qed.
(** unpaired interpolations are the first visits of a layer *)
Lemma good_walk P : good P -> forall a e, walk a P = Some e -> Forall (fun v => v <= e) (visited a P).
Proof.
  induction P as [|[l|l] P IH]; intros G a e H; cbn [walk visited] in *.
  - injection H as <-. constructor; [lia|constructor].
  - destruct (l =? a); [|discriminate]. assert (GP : good P) by (intros p q E; apply (G (RS l :: p) q); cbn; now f_equal). specialize (IH GP _ _ H). constructor; auto.
    assert (C : forall w a e, walk a w = Some e -> e = a + Z.of_nat (cI w) - Z.of_nat (cR w)).
    { clear. induction w as [|[l|l] w IH]; intros a e; cbn [walk]; [intros [= <-]; cbn; lia| |]; (destruct (l =? a); [|discriminate]); intros H; apply IH in H; rewrite ?cR_R, ?cI_R, ?cR_I, ?cI_I; lia. }
    apply C in H. specialize (G [] _ eq_refl). rewrite cR_R, cI_R in G. lia.
  - destruct (l =? a); [|discriminate]. assert (GP : good P) by (intros p q E; apply (G (IS l :: p) q); cbn; now f_equal). specialize (IH GP _ _ H). constructor; auto.
    destruct P as [|[?|?] ?]; cbn [visited] in IH; inversion IH; lia.
Qed.
Lemma unpaired_first w d a e i : walk a w = Some e -> pairs w = Some d -> dget d i = Some None -> exists l, nth_error w i = Some (IS l) /\ Forall (fun v => v <= l) (visited a (firstn i w)).
Proof.
  intros H Hp Hd. unfold pairs in Hp. rewrite pair_loop_back in Hp. destruct (back 0 w) as [[st d0]|] eqn:E; [|discriminate]. injection Hp as <-. destruct (back_spec w 0 st d0 E) as (Sh & D & K). rewrite fold_none in Hd. destruct (existsb (Nat.eqb i) (rev st)) eqn:Ei.
  - apply existsb_exists in Ei as (x & Hx & Ex). apply Nat.eqb_eq in Ex as <-. apply in_rev in Hx. destruct (shape_prefix_good st 0 w i Sh Hx) as (P & k & q & -> & L & G). cbn in L. subst i. exists k. split; [rewrite nth_error_app2, Nat.sub_diag by lia; reflexivity|].
    rewrite firstn_app, Nat.sub_diag, firstn_all, firstn_O, app_nil_r. rewrite walk_app in H. destruct (walk a P) as [c|] eqn:Ec; [|discriminate]. cbn [walk] in H. destruct (k =? c) eqn:Ek; [|discriminate]. apply Z.eqb_eq in Ek as ->. apply (good_walk P G _ _ Ec).
  - apply D in Hd as (r & ? & _). discriminate.
Qed.
