From Coq Require Import List ZArith QArith Qround Bool String Ascii DecimalString DecimalFacts Lia.
From Verif Require Import MemoModel MemoProofs MiscModel MiscSpec MiscText TimeModel TimeSpec TimeText.
Import ListNotations.
Local Open Scope string_scope.

(** ** fuel *)
Lemma parse_more n : forall m lv ts x, (n <= m)%nat -> parse n lv ts = Some x -> parse m lv ts = Some x.
Proof.
  induction n as [|n IH]; intros m lv ts x Hm H; [discriminate|]. destruct m as [|m]; [lia|]. assert (Hm' : (n <= m)%nat) by lia.
  destruct lv as [| | | |a|a]; cbn [parse] in *.
  - destruct (parse n LT ts) as [[b r]|] eqn:E; [|discriminate]. rewrite (IH m _ _ _ Hm' E). eauto.
  - destruct (parse n LF ts) as [[b r]|] eqn:E; [|discriminate]. rewrite (IH m _ _ _ Hm' E). eauto.
  - assert (G : match parse n LA ts with Some (b, TPow :: r) => match parse n LF r with Some (e, r') => Some (Pow b e, r') | None => None end | o => o end = Some x ->
      match parse m LA ts with Some (b, TPow :: r) => match parse m LF r with Some (e, r') => Some (Pow b e, r') | None => None end | o => o end = Some x).
    { intros G. destruct (parse n LA ts) as [[b r]|] eqn:E; [|discriminate]. rewrite (IH m _ _ _ Hm' E). destruct r as [|[] r]; auto. destruct (parse n LF r) as [[e r']|] eqn:E2; [|discriminate]. rewrite (IH m _ _ _ Hm' E2). exact G. }
    destruct ts as [|[] r]; auto; (destruct (parse n LF r) as [[b r']|] eqn:E; [|discriminate]; rewrite (IH m _ _ _ Hm' E); exact H).
  - destruct ts as [|[] r]; auto. destruct (parse n LE r) as [[b r']|] eqn:E; [|discriminate]. rewrite (IH m _ _ _ Hm' E). exact H.
  - destruct ts as [|[] r]; auto; (destruct (parse n LT r) as [[b r']|] eqn:E; [|discriminate]; rewrite (IH m _ _ _ Hm' E); eauto).
  - destruct ts as [|[] r]; auto; (destruct (parse n LF r) as [[b r']|] eqn:E; [|discriminate]; rewrite (IH m _ _ _ Hm' E); eauto).
Qed.
Lemma parse_up n lv ts x m : parse n lv ts = Some x -> (n <= m)%nat -> parse m lv ts = Some x.
Proof. intros H L. eapply parse_more; eauto. Qed.
Definition rank (lv : level) : nat := match lv with LE => 4 | LT => 3 | LF => 2 | _ => 1 end.
Definition uses (lv : level) : nat := match lv with LEr _ | LTr _ => 0 | _ => 1 end.
Lemma parse_fuel n : forall lv ts a r, parse n lv ts = Some (a, r) -> (List.length r + uses lv <= List.length ts)%nat /\ parse (8 * List.length ts + rank lv) lv ts = Some (a, r).
Proof.
  induction n as [|n IH]; intros lv ts a r H; [discriminate|].
  assert (S8 : forall k, exists k', (8 * k + rank lv = S k')%nat) by (intros k; destruct lv; cbn [rank]; eexists; rewrite Nat.add_comm; reflexivity).
  destruct (S8 (List.length ts)) as [k Ek]. rewrite Ek. clear S8.
  destruct lv as [| | | |b|b]; cbn [parse uses rank] in *.
  - destruct (parse n LT ts) as [[b r1]|] eqn:E; [|discriminate]. apply IH in E as [L1 E]. apply IH in H as [L2 H]. cbn [uses rank] in *. split; [lia|]. rewrite (parse_up _ _ _ _ k E ltac:(lia)). apply (parse_up _ _ _ _ k H ltac:(lia)).
  - destruct (parse n LF ts) as [[b r1]|] eqn:E; [|discriminate]. apply IH in E as [L1 E]. apply IH in H as [L2 H]. cbn [uses rank] in *. split; [lia|]. rewrite (parse_up _ _ _ _ k E ltac:(lia)). apply (parse_up _ _ _ _ k H ltac:(lia)).
  - assert (G : match parse n LA ts with Some (b, TPow :: r) => match parse n LF r with Some (e, r') => Some (Pow b e, r') | None => None end | o => o end = Some (a, r) ->
      (List.length r + 1 <= List.length ts)%nat /\ match parse k LA ts with Some (b, TPow :: r) => match parse k LF r with Some (e, r') => Some (Pow b e, r') | None => None end | o => o end = Some (a, r)).
    { intros G. destruct (parse n LA ts) as [[b r1]|] eqn:E; [|discriminate]. apply IH in E as [L1 E]. cbn [uses rank] in *. rewrite (parse_up _ _ _ _ k E ltac:(lia)).
      assert (G' : Some (b, r1) = Some (a, r) -> (List.length r + 1 <= List.length ts)%nat) by (intros X; injection X as _ <-; lia).
      destruct r1 as [|x r1]; [split; auto|]. destruct x; try (split; auto; fail). destruct (parse n LF r1) as [[e r2]|] eqn:E2; [|discriminate]. apply IH in E2 as [L2 E2]. cbn [uses rank List.length] in *. rewrite (parse_up _ _ _ _ k E2 ltac:(lia)). injection G as <- <-. split; [lia|reflexivity]. }
    destruct ts as [|x ts]; [apply G, H|]. destruct x; try (apply G, H); clear G; (destruct (parse n LF ts) as [[b r1]|] eqn:E; [|discriminate]; injection H as <- <-; apply IH in E as [L1 E]; cbn [uses rank List.length] in *; rewrite (parse_up _ _ _ _ k E ltac:(lia)); split; [lia|reflexivity]).
  - destruct ts as [|x ts]; [discriminate|]. destruct x; try discriminate; try (injection H as <- <-; cbn [List.length]; split; [lia|reflexivity]).
    destruct (parse n LE ts) as [[b r1]|] eqn:E; [|discriminate]. apply IH in E as [L1 E]. cbn [uses rank List.length] in *. rewrite (parse_up _ _ _ _ k E ltac:(lia)). destruct r1 as [|[] r1]; try discriminate. injection H as <- <-. cbn [List.length] in *. split; [lia|reflexivity].
  - destruct ts as [|x ts]; [injection H as <- <-; split; [cbn; lia|reflexivity]|]. destruct x; try (injection H as <- <-; cbn [List.length]; split; [lia|reflexivity]);
    (destruct (parse n LT ts) as [[e r1]|] eqn:E; [|discriminate]; apply IH in E as [L1 E]; apply IH in H as [L2 H]; cbn [uses rank List.length] in *; split; [lia|]; rewrite (parse_up _ _ _ _ k E ltac:(lia)); apply (parse_up _ _ _ _ k H ltac:(lia))).
  - destruct ts as [|x ts]; [injection H as <- <-; split; [cbn; lia|reflexivity]|]. destruct x; try (injection H as <- <-; cbn [List.length]; split; [lia|reflexivity]);
    (destruct (parse n LF ts) as [[e r1]|] eqn:E; [|discriminate]; apply IH in E as [L1 E]; apply IH in H as [L2 H]; cbn [uses rank List.length] in *; split; [lia|]; rewrite (parse_up _ _ _ _ k E ltac:(lia)); apply (parse_up _ _ _ _ k H ltac:(lia))).
Qed.
Lemma parse_all_spec ts a : parse_all ts = Some a <-> exists n, parse n LE ts = Some (a, []).
Proof.
  unfold parse_all. split.
  - destruct (parse _ LE ts) as [[b r]|] eqn:E; [|discriminate]. destruct r; [|discriminate]. intros H. injection H as <-. eauto.
  - intros [n H]. apply parse_fuel in H as [_ H]. cbn [rank] in H. now rewrite H.
Qed.

(** ** substitution in the tree *)
Fixpoint asub (c : ascii) (u : ast) (a : ast) : ast :=
  match a with
  | Num q => Num q | Var d => if Ascii.eqb d c then u else Var d
  | Pos a => Pos (asub c u a) | Neg a => Neg (asub c u a)
  | Add a b => Add (asub c u a) (asub c u b) | Sub a b => Sub (asub c u a) (asub c u b) | Mul a b => Mul (asub c u a) (asub c u b) | Div a b => Div (asub c u a) (asub c u b) | Pow a b => Pow (asub c u a) (asub c u b)
  end.
Definition lsub (c : ascii) (u : ast) (lv : level) : level := match lv with LEr a => LEr (asub c u a) | LTr a => LTr (asub c u a) | l => l end.
Lemma value_asub c u v env env' a : value env' u = Some v -> env c = Some v -> (forall d, d <> c -> env d = env' d) -> value env' (asub c u a) = value env a.
Proof.
  intros Hu Hc Hd. induction a; cbn [asub value]; rewrite ?IHa, ?IHa1, ?IHa2; auto. destruct (Ascii.eqb_spec c0 c) as [->|N]; [now rewrite Hu, Hc|cbn [value]; symmetry; auto].
Qed.
(** an unsigned literal: one token for one token *)
Section Unsigned.
  Variables (c : ascii) (q : Q).
  Notation sgl := (flat_map (sg c [TNum q])).
  Lemma sgl_cons x r : sgl (x :: r) = (sg c [TNum q] x ++ sgl r)%list. Proof. reflexivity. Qed.
  Definition pmap (o : option (ast * list tok)) : option (ast * list tok) := option_map (fun p => (asub c (Num q) (fst p), sgl (snd p))) o.
  Lemma parse_unsigned n : forall lv ts, parse n (lsub c (Num q) lv) (sgl ts) = pmap (parse n lv ts).
  Proof.
    induction n as [|n IH]; intros lv ts; [reflexivity|].
    assert (HE := IH LE). assert (HT := IH LT). assert (HF := IH LF). assert (HA := IH LA). cbn [lsub] in HE, HT, HF, HA.
    destruct lv as [| | | |a|a]; cbn [lsub parse].
    - rewrite HT. destruct (parse n LT ts) as [[b r]|]; [|reflexivity]. exact (IH (LEr b) r).
    - rewrite HF. destruct (parse n LF ts) as [[b r]|]; [|reflexivity]. exact (IH (LTr b) r).
    - assert (G : match parse n LA (sgl ts) with Some (b, TPow :: r) => match parse n LF r with Some (e, r') => Some (Pow b e, r') | None => None end | o => o end = pmap match parse n LA ts with Some (b, TPow :: r) => match parse n LF r with Some (e, r') => Some (Pow b e, r') | None => None end | o => o end).
      { rewrite HA. destruct (parse n LA ts) as [[b r]|]; [|reflexivity]. cbn [pmap option_map fst snd]. destruct r as [|x r]; [reflexivity|]. rewrite sgl_cons. destruct x; cbn [sg app]; try reflexivity.
        - destruct (Ascii.eqb c0 c) eqn:Ec; cbn [app option_map pmap]; unfold pmap; cbn [option_map fst snd]; rewrite sgl_cons; cbn [sg]; rewrite Ec; reflexivity.
        - rewrite HF. destruct (parse n LF r) as [[e r']|]; reflexivity. }
      destruct ts as [|x ts]; [exact G|]. rewrite sgl_cons in *. destruct x; cbn [sg app] in *; try exact G.
      + destruct (Ascii.eqb c0 c); exact G.
      + rewrite HF. destruct (parse n LF ts) as [[e r']|]; reflexivity.
      + rewrite HF. destruct (parse n LF ts) as [[e r']|]; reflexivity.
    - destruct ts as [|x ts]; [reflexivity|]. rewrite sgl_cons. destruct x; cbn [sg app]; try reflexivity.
      + unfold pmap. cbn [option_map fst snd asub]. destruct (Ascii.eqb c0 c); reflexivity.
      + rewrite HE. destruct (parse n LE ts) as [[b r]|]; [|reflexivity]. cbn [pmap option_map fst snd]. destruct r as [|y r]; [reflexivity|]. rewrite sgl_cons. destruct y; cbn [sg app]; try reflexivity. destruct (Ascii.eqb c0 c); reflexivity.
    - destruct ts as [|x ts]; [reflexivity|]. rewrite sgl_cons. destruct x; cbn [sg app]; try reflexivity.
      + unfold pmap. cbn [option_map fst snd]. rewrite sgl_cons. cbn [sg]. destruct (Ascii.eqb c0 c); reflexivity.
      + rewrite HT. destruct (parse n LT ts) as [[b r]|]; [|reflexivity]. exact (IH (LEr (Add a b)) r).
      + rewrite HT. destruct (parse n LT ts) as [[b r]|]; [|reflexivity]. exact (IH (LEr (Sub a b)) r).
    - destruct ts as [|x ts]; [reflexivity|]. rewrite sgl_cons. destruct x; cbn [sg app]; try reflexivity.
      + unfold pmap. cbn [option_map fst snd]. rewrite sgl_cons. cbn [sg]. destruct (Ascii.eqb c0 c); reflexivity.
      + rewrite HF. destruct (parse n LF ts) as [[b r]|]; [|reflexivity]. exact (IH (LTr (Mul a b)) r).
      + rewrite HF. destruct (parse n LF ts) as [[b r]|]; [|reflexivity]. exact (IH (LTr (Div a b)) r).
  Qed.
  Lemma sgl_length ts : List.length (sgl ts) = List.length ts.
  Proof. induction ts as [|x ts IH]; [reflexivity|]. rewrite sgl_cons, app_length, IH. destruct x; cbn [sg]; try reflexivity. destruct (Ascii.eqb c0 c); reflexivity. Qed.
  Lemma parse_all_unsigned ts : parse_all (sgl ts) = option_map (asub c (Num q)) (parse_all ts).
  Proof. unfold parse_all. rewrite sgl_length. change LE with (lsub c (Num q) LE) at 1. rewrite parse_unsigned. destruct (parse _ LE ts) as [[a r]|]; [|reflexivity]. cbn [pmap option_map fst snd]. destruct r as [|x r]; [reflexivity|]. rewrite sgl_cons. destruct x; cbn [sg app]; try reflexivity. destruct (Ascii.eqb c0 c); reflexivity. Qed.
End Unsigned.
(** a signed literal: two tokens, where no power follows *)
Section Signed.
  Variables (c : ascii) (q : Q).
  Notation sgl := (flat_map (sg c [TMinus; TNum q])).
  Notation u := (Neg (Num q)).
  Lemma sgm_cons x r : sgl (x :: r) = (sg c [TMinus; TNum q] x ++ sgl r)%list. Proof. reflexivity. Qed.
  Definition at_var (ts : list tok) : bool := match ts with TVar d :: _ => Ascii.eqb d c | _ => false end.
  Lemma tpow_tail x ts : tpow c (x :: ts) = false -> tpow c ts = false.
  Proof. cbn [tpow]. intros H. now apply orb_false_iff in H as [_ H]. Qed.
  Lemma tpow_head d ts : tpow c (TVar d :: ts) = false -> Ascii.eqb d c = true -> match ts with TPow :: _ => False | _ => True end.
  Proof. cbn [tpow]. intros H E. apply orb_false_iff in H as [H _]. destruct ts as [|[] ts]; auto. congruence. Qed.
  Lemma parse_suffix n : forall lv ts a r, parse n lv ts = Some (a, r) -> tpow c ts = false -> tpow c r = false.
  Proof.
    induction n as [|n IH]; intros lv ts a r H P; [discriminate|]. destruct lv as [| | | |b|b]; cbn [parse] in H.
    - destruct (parse n LT ts) as [[b r1]|] eqn:E; [|discriminate]. eauto.
    - destruct (parse n LF ts) as [[b r1]|] eqn:E; [|discriminate]. eauto.
    - assert (G : match parse n LA ts with Some (b, TPow :: r) => match parse n LF r with Some (e, r') => Some (Pow b e, r') | None => None end | o => o end = Some (a, r) -> tpow c r = false).
      { intros G. destruct (parse n LA ts) as [[b r1]|] eqn:E; [|discriminate]. apply IH in E; auto. destruct r1 as [|x r1]; [injection G as _ <-; auto|]. destruct x; try (injection G as _ <-; auto; fail). destruct (parse n LF r1) as [[e r2]|] eqn:E2; [|discriminate]. injection G as _ <-. apply tpow_tail in E. eauto. }
      destruct ts as [|x ts]; [auto|]. destruct x; auto; (destruct (parse n LF ts) as [[b r1]|] eqn:E; [|discriminate]; injection H as _ <-; apply tpow_tail in P; eauto).
    - destruct ts as [|x ts]; [discriminate|]. pose proof (tpow_tail _ _ P). destruct x; try discriminate; try (injection H as _ <-; auto; fail). destruct (parse n LE ts) as [[b r1]|] eqn:E; [|discriminate]. destruct r1 as [|[] r1]; try discriminate. injection H as _ <-. apply IH in E; auto. 
    - destruct ts as [|x ts]; [injection H as _ <-; auto|]. pose proof (tpow_tail _ _ P). destruct x; try (injection H as _ <-; auto; fail); (destruct (parse n LT ts) as [[e r1]|] eqn:E; [|discriminate]; eauto).
    - destruct ts as [|x ts]; [injection H as _ <-; auto|]. pose proof (tpow_tail _ _ P). destruct x; try (injection H as _ <-; auto; fail); (destruct (parse n LF ts) as [[e r1]|] eqn:E; [|discriminate]; eauto).
  Qed.
  (** the rests of sums and terms stop at a letter *)
  Lemma rest_at_var n lv ts a r : parse n lv ts = Some (a, r) -> match lv with LEr _ | LTr _ => True | _ => False end -> at_var ts = true -> at_var r = true.
  Proof. destruct n; [discriminate|]. destruct lv; try contradiction; intros H _ V; (destruct ts as [|x ts]; [discriminate|]; destruct x; try discriminate; cbn [parse] in H; injection H as _ <-; exact V). Qed.
  Lemma at_var_dec ts : at_var ts = true \/ at_var ts = false. Proof. destruct (at_var ts); auto. Qed.
  Lemma sgl_head_pow ts : at_var ts = false -> forall r, sgl ts = TPow :: r -> exists r', ts = TPow :: r' /\ r = sgl r'.
  Proof. destruct ts as [|x ts]; intros V r H; [discriminate|]. rewrite sgm_cons in H. destruct x; cbn [sg app] in H; try discriminate; [cbn [at_var] in V; rewrite V in H; discriminate|]. injection H as <-. eauto. Qed.
  (** a token list whose head stays *)
  Lemma sgl_head x ts : at_var (x :: ts) = false -> sgl (x :: ts) = x :: sgl ts.
  Proof. intros V. rewrite sgm_cons. destruct x; try reflexivity. cbn [at_var] in V. cbn [sg]. now rewrite V. Qed.
  Lemma parse_signed n : forall lv ts a r, parse n lv ts = Some (a, r) -> tpow c ts = false -> at_var r = false -> (lv = LA -> at_var ts = false) ->
    exists m, parse m (lsub c u lv) (sgl ts) = Some (asub c u a, sgl r).
  Proof.
    induction n as [|n IH]; intros lv ts a r H P V A; [discriminate|].
    destruct lv as [| | | |b|b]; cbn [parse] in H; cbn [lsub].
    - destruct (parse n LT ts) as [[b r1]|] eqn:E; [|discriminate].
      assert (V1 : at_var r1 = false). { destruct (at_var_dec r1) as [X|X]; [|exact X]. rewrite (rest_at_var _ _ _ _ _ H I X) in V. discriminate. }
      pose proof (parse_suffix _ _ _ _ _ E P) as P1. apply IH in E as [m1 E]; [|auto|auto|discriminate]. apply IH in H as [m2 H]; [|auto|auto|discriminate]. cbn [lsub] in *.
      exists (S (m1 + m2)). cbn [parse]. rewrite (parse_up _ _ _ _ (m1 + m2) E ltac:(lia)). apply (parse_up _ _ _ _ (m1 + m2) H ltac:(lia)).
    - destruct (parse n LF ts) as [[b r1]|] eqn:E; [|discriminate].
      assert (V1 : at_var r1 = false). { destruct (at_var_dec r1) as [X|X]; [|exact X]. rewrite (rest_at_var _ _ _ _ _ H I X) in V. discriminate. }
      pose proof (parse_suffix _ _ _ _ _ E P) as P1. apply IH in E as [m1 E]; [|auto|auto|discriminate]. apply IH in H as [m2 H]; [|auto|auto|discriminate]. cbn [lsub] in *.
      exists (S (m1 + m2)). cbn [parse]. rewrite (parse_up _ _ _ _ (m1 + m2) E ltac:(lia)). apply (parse_up _ _ _ _ (m1 + m2) H ltac:(lia)).
    - destruct (at_var_dec ts) as [W|W].
      + (* the letter itself *)
        destruct ts as [|[] ts]; try discriminate. cbn [at_var] in W. destruct n as [|n]; [discriminate|]. cbn [parse] in H. pose proof (tpow_head _ _ P W) as Hp.
        assert (E : a = Var c0 /\ r = ts) by (destruct ts as [|[] ts]; try contradiction; injection H as <- <-; auto). destruct E as [-> ->].
        exists 3%nat. rewrite sgm_cons. cbn [sg asub]. rewrite W. cbn [app parse].
        destruct ts as [|x ts]; [reflexivity|]. rewrite (sgl_head x ts V). destruct x; try reflexivity. contradiction.
      + assert (G : match parse n LA ts with Some (b, TPow :: r) => match parse n LF r with Some (e, r') => Some (Pow b e, r') | None => None end | o => o end = Some (a, r) ->
          exists m, match parse m LA (sgl ts) with Some (b, TPow :: r) => match parse m LF r with Some (e, r') => Some (Pow b e, r') | None => None end | o => o end = Some (asub c u a, sgl r)).
        { intros G. destruct (parse n LA ts) as [[b r1]|] eqn:E; [|discriminate]. pose proof (parse_suffix _ _ _ _ _ E P) as P1.
          assert (V1 : at_var r1 = false). { destruct r1 as [|x r1]; [reflexivity|]. destruct x; try reflexivity. injection G as _ <-. exact V. }
          apply IH in E as [m1 E]; [|auto|auto|intros _; exact W]. cbn [lsub] in E.
          destruct r1 as [|x r1]; [injection G as <- <-; exists m1; rewrite E; reflexivity|].
          rewrite (sgl_head x r1 V1) in E. destruct x; try (injection G as <- <-; exists m1; rewrite E; rewrite (sgl_head _ r1 V1); reflexivity).
          destruct (parse n LF r1) as [[e r2]|] eqn:E2; [|discriminate]. injection G as <- <-. apply tpow_tail in P1. apply IH in E2 as [m2 E2]; [|auto|auto|discriminate]. cbn [lsub] in E2.
          exists (m1 + m2)%nat. rewrite (parse_up _ _ _ _ (m1 + m2) E ltac:(lia)), (parse_up _ _ _ _ (m1 + m2) E2 ltac:(lia)). reflexivity. }
        destruct ts as [|x ts]; [destruct (G H) as [m Hm]; exists (S m); exact Hm|]. rewrite (sgl_head x ts W) in G |- *.
        destruct x; try (destruct (G H) as [m Hm]; exists (S m); exact Hm); clear G;
        (destruct (parse n LF ts) as [[e r2]|] eqn:E; [|discriminate]; injection H as <- <-; apply tpow_tail in P; apply IH in E as [m E]; [|auto|auto|discriminate]; cbn [lsub] in E; exists (S m); cbn [parse]; rewrite E; reflexivity).
    - specialize (A eq_refl). destruct ts as [|x ts]; [discriminate|]. rewrite (sgl_head x ts A). pose proof (tpow_tail _ _ P) as P1. destruct x; try discriminate.
      + injection H as <- <-. exists 1%nat. reflexivity.
      + injection H as <- <-. exists 1%nat. cbn [parse asub]. cbn [at_var] in A. now rewrite A.
      + destruct (parse n LE ts) as [[b r1]|] eqn:E; [|discriminate]. destruct r1 as [|y r1]; [discriminate|]. destruct y; try discriminate. injection H as <- <-. apply IH in E as [m E]; [|auto|reflexivity|discriminate]. cbn [lsub] in E. rewrite (sgl_head TClose r1 eq_refl) in E. exists (S m). cbn [parse]. rewrite E. reflexivity.
    - destruct ts as [|x ts]; [injection H as <- <-; exists 1%nat; reflexivity|]. pose proof (tpow_tail _ _ P) as P1.
      assert (G : Some (b, x :: ts) = Some (a, r) -> match x with TPlus | TMinus => False | _ => True end -> exists m, parse m (LEr (asub c u b)) (sgl (x :: ts)) = Some (asub c u a, sgl r)).
      { intros G X. injection G as <- <-. exists 1%nat. rewrite (sgl_head x ts V). destruct x; try contradiction; reflexivity. }
      destruct x; try (apply G; [exact H|exact I]); clear G;
      (destruct (parse n LT ts) as [[e r1]|] eqn:E; [|discriminate];
       assert (V1 : at_var r1 = false) by (destruct (at_var_dec r1) as [X|X]; [|exact X]; rewrite (rest_at_var _ _ _ _ _ H I X) in V; discriminate);
       pose proof (parse_suffix _ _ _ _ _ E P1) as P2; apply IH in E as [m1 E]; [|auto|auto|discriminate]; apply IH in H as [m2 H]; [|auto|auto|discriminate]; cbn [lsub asub] in *;
       exists (S (m1 + m2)); rewrite sgl_head by reflexivity; cbn [parse]; rewrite (parse_up _ _ _ _ (m1 + m2) E ltac:(lia)); apply (parse_up _ _ _ _ (m1 + m2) H ltac:(lia))).
    - destruct ts as [|x ts]; [injection H as <- <-; exists 1%nat; reflexivity|]. pose proof (tpow_tail _ _ P) as P1.
      assert (G : Some (b, x :: ts) = Some (a, r) -> match x with TMul | TDiv => False | _ => True end -> exists m, parse m (LTr (asub c u b)) (sgl (x :: ts)) = Some (asub c u a, sgl r)).
      { intros G X. injection G as <- <-. exists 1%nat. rewrite (sgl_head x ts V). destruct x; try contradiction; reflexivity. }
      destruct x; try (apply G; [exact H|exact I]); clear G;
      (destruct (parse n LF ts) as [[e r1]|] eqn:E; [|discriminate];
       assert (V1 : at_var r1 = false) by (destruct (at_var_dec r1) as [X|X]; [|exact X]; rewrite (rest_at_var _ _ _ _ _ H I X) in V; discriminate);
       pose proof (parse_suffix _ _ _ _ _ E P1) as P2; apply IH in E as [m1 E]; [|auto|auto|discriminate]; apply IH in H as [m2 H]; [|auto|auto|discriminate]; cbn [lsub asub] in *;
       exists (S (m1 + m2)); rewrite sgl_head by reflexivity; cbn [parse]; rewrite (parse_up _ _ _ _ (m1 + m2) E ltac:(lia)); apply (parse_up _ _ _ _ (m1 + m2) H ltac:(lia))).
  Qed.
  Lemma parse_all_signed ts a : parse_all ts = Some a -> tpow c ts = false -> parse_all (sgl ts) = Some (asub c u a).
  Proof. intros H P. apply parse_all_spec in H as [n H]. apply parse_signed in H as [m H]; auto; [|discriminate]. apply parse_all_spec. exists m. exact H. Qed.
End Signed.
