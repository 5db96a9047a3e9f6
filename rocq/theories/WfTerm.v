(** What the derivations do to the terms, what the temporal discretization does, and how
    expressions are read. *)
From Coq Require Import Ascii String Reals Lra Bool Arith Lia List Permutation.
From Verif Require Import WfModel WfSpec WfStr WfThms.
Import ListNotations.
Local Open Scope list_scope.
Local Open Scope R_scope.

(* ------------------------------------------------ terms *)

Lemma by_parts_value I s t periodic drop new :
  green I -> (periodic || drop = true -> closed I) -> t_restricted t = false ->
  by_parts periodic drop t = Some new -> total (value I s) new = value I s t.
Proof.
  intros G C N. unfold by_parts. destruct t as [k c f0 f1 rs]. cbn [t_kind t_f0 t_f1 t_factor t_restricted] in *.
  subst rs. destruct k; [|discriminate]. destruct f0; try discriminate.
  destruct (periodic || drop).
  - intros [= <-]. cbn [total sg]. unfold value, value_in. cbn [t_kind t_f0 t_f1 t_factor t_restricted eval].
    rewrite G, (C eq_refl). lra.
  - intros [= <-]. cbn [total sg]. unfold value, value_in. cbn [t_kind t_f0 t_f1 t_factor t_restricted eval].
    rewrite G. lra.
Qed.

Lemma by_parts_dropped I s t bf new :
  green I -> t_restricted t = false -> t_f0 t = Codiff bf -> by_parts false true t = Some new ->
  total (value I s) new = value I s t + t_factor t * i_pair I Dual false (eval I (i_root I) (Tr (Star bf)) s) (eval I (i_root I) (Tr (t_f1 t)) s).
Proof.
  intros G N F. unfold by_parts. destruct t as [k c f0 f1 rs]. cbn [t_kind t_f0 t_f1 t_factor t_restricted] in *.
  subst rs f0. destruct k; [|discriminate]. cbn [orb].
  intros [= <-]. cbn [total sg]. unfold value, value_in. cbn [t_kind t_f0 t_f1 t_factor t_restricted eval].
  rewrite G. lra.
Qed.

Lemma split_total I s k g cs l :
  total (value I s) (map (fun e : sgn * form * R => (fst (fst e), mkTerm k (snd e) (snd (fst e)) g false)) (combine cs l))
  = combination (fun f => i_pair I k false (eval I (i_root I) f s) (eval I (i_root I) g s)) (combine cs l).
Proof.
  revert l. induction cs as [|[sn f] cs IH]; intros [|c l]; try reflexivity.
  cbn [combine map total combination fst snd]. rewrite IH. reflexivity.
Qed.

Lemma split_total1 I s k g cs l :
  total (value I s) (map (fun e : sgn * form * R => (fst (fst e), mkTerm k (snd e) g (snd (fst e)) false)) (combine cs l))
  = combination (fun f => i_pair I k false (eval I (i_root I) g s) (eval I (i_root I) f s)) (combine cs l).
Proof.
  revert l. induction cs as [|[sn f] cs IH]; intros [|c l]; try reflexivity.
  cbn [combine map total combination fst snd]. rewrite IH. reflexivity.
Qed.

Lemma split_value I s of_f0 into signs factors t new :
  split_term of_f0 into signs factors t = Some new ->
  total (value I s) new = combination (paired I s of_f0 t) (combine (combine signs into) (factors_of into factors)).
Proof.
  unfold split_term. fold (factors_of into factors). destruct (_ && _); [|discriminate].
  intros [= <-]. destruct of_f0; [apply split_total | apply split_total1].
Qed.

Lemma split_keeps I s of_f0 into signs factors t new :
  split_term of_f0 into signs factors t = Some new ->
  paired I s of_f0 t (if of_f0 then t_f0 t else t_f1 t)
    = combination (paired I s of_f0 t) (combine (combine signs into) (factors_of into factors)) ->
  value I s t = t_factor t * total (value I s) new.
Proof.
  intros H C. rewrite (split_value _ _ _ _ _ _ _ _ H), <- C.
  assert (N : t_restricted t = false).
  { unfold split_term in H. destruct (t_restricted t); [|reflexivity]. cbn [negb] in H. rewrite andb_false_r in H. discriminate. }
  unfold value, value_in, paired. rewrite N. destruct of_f0; reflexivity.
Qed.

Lemma split_runs of_f0 into signs factors t :
  (exists new, split_term of_f0 into signs factors t = Some new) <->
  (into <> [] /\ length into = length signs /\ length signs = length (factors_of into factors) /\ t_restricted t = false).
Proof.
  unfold split_term. fold (factors_of into factors).
  destruct (_ && _) eqn:B.
  - apply andb_true_iff in B. destruct B as [B B4]. apply andb_true_iff in B. destruct B as [B B3].
    apply andb_true_iff in B. destruct B as [B1 B2].
    apply Nat.leb_le in B1. apply Nat.eqb_eq in B2, B3. split; [intros _ | eauto].
    split; [intro E; subst; cbn in B1; lia|]. split; [exact B2|]. split; [exact B3|].
    now destruct (t_restricted t).
  - split; [intros (new & H); discriminate|]. intros (H1 & H2 & H3 & H4). exfalso.
    rewrite H4, <- H3, <- H2, !Nat.eqb_refl in B. destruct into; [congruence|]. discriminate.
Qed.

Lemma to_duality_value I s t new : hodge I -> t_restricted t = false -> to_duality t = Some new ->
  total (value I s) new = value I s t.
Proof.
  intros [H1 H2] N. unfold to_duality. destruct t as [k c f0 f1 rs]. cbn [t_kind t_f0 t_f1 t_factor t_restricted] in *.
  subst rs. destruct k; [|discriminate].
  assert (X : forall a b, total (value I s) [(Plus, mkTerm Dual c a b false)]
              = c * i_pair I Dual false (eval I (i_root I) a s) (eval I (i_root I) b s)).
  { intros a b. cbn [total sg]. unfold value, value_in. cbn [t_kind t_f0 t_f1 t_factor t_restricted]. lra. }
  destruct f0; (try (destruct f1; try discriminate));
    intros [= <-]; rewrite X; unfold value, value_in; cbn [t_kind t_f0 t_f1 t_factor t_restricted eval];
    rewrite ?H1, ?H2; try reflexivity; rewrite <- ?H1, <- ?H2; try reflexivity.
Qed.

(* ------------------------------------------------ the triple product *)

Lemma letter_cases p q r c x : letter_of p q r c = Some x ->
  (x = LA /\ c = p) \/ (x = LB /\ c = q) \/ (x = LC /\ c = r).
Proof.
  unfold letter_of.
  destruct (Ascii.eqb_spec c r); [intros [= <-]; tauto|].
  destruct (Ascii.eqb_spec c q); [intros [= <-]; tauto|].
  destruct (Ascii.eqb_spec c p); [intros [= <-]; tauto | discriminate].
Qed.

Lemma triple_all I k a b c : triple I ->
  let p := i_pair I k false in let x := i_cross I in
  p b (x c a) = p a (x b c) /\ p c (x a b) = p a (x b c) /\
  p a (x c b) = - p a (x b c) /\ p b (x a c) = - p a (x b c) /\ p c (x b a) = - p a (x b c).
Proof.
  intros (S1 & S2 & S3). cbv zeta.
  assert (E1 : i_pair I k false b (i_cross I c a) = i_pair I k false a (i_cross I b c)) by (symmetry; apply S2).
  assert (E2 : i_pair I k false c (i_cross I a b) = i_pair I k false a (i_cross I b c)) by (rewrite <- E1; symmetry; apply S2).
  split; [exact E1|]. split; [exact E2|]. split; [rewrite (S3 k a b c); lra|].
  split; [rewrite (S3 k b a c), E1; reflexivity | rewrite (S3 k c b a), E2; reflexivity].
Qed.

Lemma commute_value I s cur tgt t new : triple I -> t_restricted t = false ->
  commute cur tgt t = Some new -> total (value I s) new = value I s t.
Proof.
  intros TR N. unfold commute.
  destruct (read_format (t_kind t) cur) as [[[[fst0 p] q] r]|]; [|discriminate].
  destruct (read_format (t_kind t) tgt) as [[[[fst1 p'] q'] r']|]; [|discriminate].
  destruct (letter_of p q r p') as [x|]; [|discriminate].
  destruct (letter_of p q r q') as [y|]; [|discriminate].
  destruct (letter_of p q r r') as [z|]; [|discriminate].
  destruct (triple_sign x y z) as [sn|] eqn:TS; [|discriminate].
  destruct t as [k c f0 f1 rs]. cbn [t_kind t_f0 t_f1 t_factor t_restricted] in *. subst rs.
  destruct (if fst0 then (f0, f1) else (f1, f0)) as [A BC] eqn:AB.
  destruct BC as [| | | | | | | | B C | | |]; try discriminate.
  set (E := fun f => eval I (i_root I) f s).
  assert (OLD : value I s (mkTerm k c f0 f1 false) = c * i_pair I k false (E A) (i_cross I (E B) (E C))).
  { unfold value, value_in. cbn [t_kind t_f0 t_f1 t_factor t_restricted].
    destruct fst0; injection AB as -> ->; [reflexivity|]. cbn [eval]. f_equal. apply TR. }
  intros [= <-]. rewrite OLD. cbn [total].
  set (pick := fun l => match l with LA => A | LB => B | LC => C end).
  assert (NEW : value I s (if fst1 then mkTerm k c (pick x) (Crossp (pick y) (pick z)) false
                           else mkTerm k c (Crossp (pick y) (pick z)) (pick x) false)
                = c * i_pair I k false (E (pick x)) (i_cross I (E (pick y)) (E (pick z)))).
  { destruct fst1; unfold value, value_in; cbn [t_kind t_f0 t_f1 t_factor t_restricted eval]; [reflexivity|].
    f_equal. apply TR. }
  fold (pick x) (pick y) (pick z). rewrite NEW.
  destruct (triple_all I k (E A) (E B) (E C) TR) as (T1 & T2 & T3 & T4 & T5).
  destruct x, y, z; cbn [triple_sign] in TS; try discriminate; injection TS as <-; cbn [pick sg];
    rewrite ?T1, ?T2, ?T3, ?T4, ?T5; lra.
Qed.

(** the result is written as the target says *)
Lemma commute_format cur tgt t new env :
  commute cur tgt t = Some new ->
  (forall x, read_format (t_kind t) cur = Some x -> described env x (t_f0 t) (t_f1 t)) ->
  exists sn x t', new = [(sn, t')] /\ read_format (t_kind t) tgt = Some x /\
    described env x (t_f0 t') (t_f1 t') /\ t_kind t' = t_kind t /\ t_factor t' = t_factor t.
Proof.
  unfold commute.
  destruct (read_format (t_kind t) cur) as [[[[fst0 p] q] r]|]; [|discriminate].
  destruct (read_format (t_kind t) tgt) as [[[[fst1 p'] q'] r']|]; [|discriminate].
  destruct (letter_of p q r p') as [x|] eqn:X; [|discriminate].
  destruct (letter_of p q r q') as [y|] eqn:Y; [|discriminate].
  destruct (letter_of p q r r') as [z|] eqn:Z; [|discriminate].
  destruct (triple_sign x y z) as [sn|] eqn:TS; [|discriminate].
  intros H D. specialize (D _ eq_refl). cbn in D.
  assert (AB : (if fst0 then (t_f0 t, t_f1 t) else (t_f1 t, t_f0 t)) = (env p, Crossp (env q) (env r))).
  { destruct fst0; destruct D as [-> ->]; reflexivity. }
  rewrite AB in H. injection H as <-.
  set (pick := fun l => match l with LA => env p | LB => env q | LC => env r end).
  assert (PK : forall c l, letter_of p q r c = Some l -> pick l = env c).
  { intros c l L. apply letter_cases in L. destruct L as [[-> ->]|[[-> ->]|[-> ->]]]; reflexivity. }
  exists sn, (fst1, p', q', r').
  exists (if fst1 then mkTerm (t_kind t) (t_factor t) (pick x) (Crossp (pick y) (pick z)) false
          else mkTerm (t_kind t) (t_factor t) (Crossp (pick y) (pick z)) (pick x) false).
  split; [reflexivity|]. split; [reflexivity|].
  rewrite (PK _ _ X), (PK _ _ Y), (PK _ _ Z).
  destruct fst1; cbn; auto.
Qed.

(* ------------------------------------------------ temporal discretization *)

Lemma subst_eval I rho a g f : ext_dt I -> forall s,
  eval I rho (subst a g f) s = eval I (upd rho a (eval I rho g)) f s.
Proof.
  intro X. induction f; intro s; cbn [subst eval]; try now rewrite ?IHf, ?IHf1, ?IHf2.
  - unfold upd. destruct (Nat.eqb a0 a); reflexivity.
  - apply X. exact IHf.
Qed.

Lemma replace_value I s a g t : ext_dt I ->
  value I s (snd (term_replace a g t)) = value_in I (upd (i_root I) a (eval I (i_root I) g)) s t.
Proof.
  intro X. unfold value, value_in, term_replace. cbn [snd t_kind t_f0 t_f1 t_factor t_restricted].
  now rewrite !(subst_eval I _ a g _ X).
Qed.

Lemma sum_list_app a b : sum_list (a ++ b) = sum_list a + sum_list b.
Proof. induction a; cbn; lra. Qed.

Lemma fold_average I s k a g rest acc : linear_first I ->
  i_pair I k false (eval I (i_root I) (fold_left (fun x u => Addf x (At (Root a) u)) rest acc) s) g
  = i_pair I k false (eval I (i_root I) acc s) g + sum_list (map (fun u => i_pair I k false (i_root I a (i_time I u)) g) rest).
Proof.
  intro L. revert acc. induction rest as [|u rest IH]; intro acc; cbn [fold_left map sum_list]; [lra|].
  rewrite IH. cbn [eval]. destruct (L k) as (A & _ & _). rewrite A. lra.
Qed.

Lemma average_value I s k a instants f g : linear_first I -> average_form a instants = Some f ->
  i_pair I k false (eval I (i_root I) f s) g
  = sum_list (map (fun u => i_pair I k false (i_root I a (i_time I u)) g) instants) / INR (length instants).
Proof.
  intro L. unfold average_form. destruct instants as [|t [|t' r]]; [discriminate| |].
  - intros [= <-]. cbn. lra.
  - intros [= <-]. set (n := INR (length (t :: t' :: r))).
    assert (NZ : n <> 0) by (apply not_0_INR; discriminate).
    cbn [eval]. destruct (L k) as (A & _ & D). rewrite D.
    + rewrite (fold_average I s k a g r _ L). cbn [eval map sum_list]. rewrite A. f_equal. lra.
    + exact NZ.
Qed.

Section TdThms.
  Context (defined : list nat) (time : nat -> R).

  Definition current (st : list (nat * (sgn * term))) (k : nat) (own : term) : term :=
    match find (fun x => Nat.eqb (fst x) k) st with Some (_, (_, t)) => t | None => own end.

  Definition all_plus (st : list (nat * (sgn * term))) : Prop := forall x, In x st -> fst (snd x) = Plus.

  Lemma in_defined u : existsb (Nat.eqb u) defined = true <-> In u defined.
  Proof.
    rewrite existsb_exists. split.
    - intros (x & H & E). apply Nat.eqb_eq in E. now subst x.
    - intro H. exists u. split; [exact H | apply Nat.eqb_refl].
  Qed.

  Lemma td_step_sound e st o st' : td_step defined time e st o = Some st' -> all_plus st ->
    all_plus st' /\
    forall k own, option_map snd (nth_error (fst e ++ snd e) k) = Some own ->
      forall l t', becomes defined time k own (current st' k own) l t' -> becomes defined time k own (current st k own) (o :: l) t'.
  Proof.
    intros H P. destruct o as [j ks ke|j a ts]; cbn [td_step] in H.
    - destruct (existsb (Nat.eqb ks) defined && existsb (Nat.eqb ke) defined) eqn:D; [|discriminate].
      apply andb_true_iff in D. destruct D as [D1 D2]. apply in_defined in D1, D2.
      destruct (option_map snd (nth_error (fst e ++ snd e) j)) as [tj|] eqn:J; [|discriminate].
      destruct (t_kind tj) eqn:K; [|discriminate]. destruct (t_f0 tj) as [| |f| | | | | | | | |] eqn:F; try discriminate.
      destruct f as [a| | | | | | | | | | |]; try discriminate. injection H as <-. split.
      + intros x [<-|I]; [reflexivity | now apply P].
      + intros k own O l t' B. destruct (Nat.eq_dec j k) as [->|N].
        * assert (own = tj) by congruence. subst tj.
          unfold current in B. cbn [find fst] in B. rewrite Nat.eqb_refl in B.
          now apply b_diff with a.
        * apply b_other; [exact N|]. unfold current in B. cbn [find fst] in B.
          apply Nat.eqb_neq in N. rewrite N in B. exact B.
    - destruct (forallb _ ts) eqn:D; [|discriminate].
      assert (D' : forall u, In u ts -> In u defined).
      { rewrite forallb_forall in D. intros u U. now apply in_defined, D. }
      destruct (average_form a ts) as [f|] eqn:A; [|discriminate].
      destruct (find (fun x => Nat.eqb (fst x) j) st) as [[j' [old tj]]|] eqn:Fi.
      + injection H as <-. apply find_some in Fi as Fi'. destruct Fi' as [Fi1 Fi2].
        specialize (P _ Fi1) as P0. cbn in P0. subst old. split.
        * intros x [<-|I]; [reflexivity | now apply P].
        * intros k own O l t' B. destruct (Nat.eq_dec j k) as [->|N].
          -- apply b_avg with f; [exact D' | exact A|]. unfold current in B |- *. cbn [find fst] in B.
             rewrite Nat.eqb_refl in B. rewrite Fi. exact B.
          -- apply b_other; [exact N|]. unfold current in B. cbn [find fst] in B.
             apply Nat.eqb_neq in N. rewrite N in B. exact B.
      + destruct (option_map snd (nth_error (fst e ++ snd e) j)) as [tj|] eqn:J; [|discriminate].
        injection H as <-. split.
        * intros x [<-|I]; [reflexivity | now apply P].
        * intros k own O l t' B. destruct (Nat.eq_dec j k) as [->|N].
          -- assert (own = tj) by congruence. subst tj.
             apply b_avg with f; [exact D' | exact A|]. unfold current in B |- *. cbn [find fst] in B.
             rewrite Nat.eqb_refl in B. rewrite Fi. exact B.
          -- apply b_other; [exact N|]. unfold current in B. cbn [find fst] in B.
             apply Nat.eqb_neq in N. rewrite N in B. exact B.
  Qed.

  Lemma td_steps_sound e st l st' : td_steps defined time e st l = Some st' -> all_plus st ->
    all_plus st' /\
    forall k own, option_map snd (nth_error (fst e ++ snd e) k) = Some own ->
      becomes defined time k own (current st k own) l (current st' k own).
  Proof.
    revert st. induction l as [|o l IH]; cbn [td_steps]; intros st H P.
    - injection H as <-. split; [exact P | intros; constructor].
    - destruct (td_step defined time e st o) as [st1|] eqn:S; [|discriminate].
      destruct (td_step_sound _ _ _ _ S P) as [P1 B1]. destruct (IH st1 H P1) as [P2 B2].
      split; [exact P2|]. intros k own O. apply (B1 k own O). now apply B2.
  Qed.

  Lemma td_side_nth st k0 l j : all_plus st ->
    nth_error (td_side st k0 l) j = option_map (fun x => (fst x, current st (k0 + j) (snd x))) (nth_error l j).
  Proof.
    intro P. revert k0 j. induction l as [|[s t] l IH]; intros k0 [|j]; cbn [td_side nth_error option_map]; try reflexivity.
    - rewrite Nat.add_0_r. unfold current. destruct (find _ st) as [[k' [s' t']]|] eqn:F; [|reflexivity].
      apply find_some in F. specialize (P _ (proj1 F)). cbn in P. subst s'. destruct s; reflexivity.
    - rewrite IH. now replace (S k0 + j)%nat with (k0 + S j)%nat by lia.
  Qed.

  Lemma td_side_length st k0 l : length (td_side st k0 l) = length l.
  Proof. revert k0. induction l as [|[s t] l IH]; intro k0; cbn; [reflexivity | now rewrite IH]. Qed.

  Lemma td_call_sound e l e' : td_call defined time e l = Some e' ->
    length (fst e') = length (fst e) /\ length (snd e') = length (snd e) /\
    forall k s t, nth_error (fst e ++ snd e) k = Some (s, t) ->
      exists t', nth_error (fst e' ++ snd e') k = Some (s, t') /\ becomes defined time k t t l t'.
  Proof.
    unfold td_call. destruct (td_steps defined time e [] l) as [st|] eqn:S; [|discriminate].
    intros [= <-]. cbn [fst snd]. split; [apply td_side_length|]. split; [apply td_side_length|].
    assert (P0 : all_plus []) by (intros x []).
    destruct (td_steps_sound _ _ _ _ S P0) as [P B].
    intros k s t K. exists (current st k t). split.
    - destruct (lt_dec k (length (fst e))) as [L|L].
      + rewrite nth_error_app1 in K by lia. rewrite nth_error_app1 by (rewrite td_side_length; lia).
        rewrite td_side_nth by exact P. now rewrite K.
      + rewrite nth_error_app2 in K by lia. rewrite nth_error_app2 by (rewrite td_side_length; lia).
        rewrite td_side_length, td_side_nth by exact P. rewrite K. cbn.
        now replace (length (fst e) + (k - length (fst e)))%nat with k by lia.
    - specialize (B k t). rewrite K in B. cbn in B. exact (B eq_refl).
  Qed.

  Lemma quotient_value I s own a ks ke : linear_first I -> (forall u, i_time I u = time u) -> time ke <> time ks ->
    t_kind own = Inner -> t_restricted own = false -> t_f0 own = TimeDer (Root a) ->
    (forall g, i_pair I Inner false (i_root I a (time ke)) g - i_pair I Inner false (i_root I a (time ks)) g
               = (time ke - time ks) * i_pair I Inner false (i_dt I (i_root I a) s) g) ->
    value I s own = t_factor own * value I s (quotient time own a ks ke).
  Proof.
    intros L TT N K RS F D. unfold value, value_in, quotient. cbn [t_kind t_f0 t_f1 t_factor t_restricted].
    rewrite K, RS, F. cbn [eval]. destruct (L Inner) as (_ & Sb & Dv).
    rewrite Dv by lra. rewrite Sb, !TT, D.
    replace (i_dt I (fun s0 : R => i_root I a s0) s) with (i_dt I (i_root I a) s) by reflexivity.
    field. lra.
  Qed.
End TdThms.

(* ------------------------------------------------ expressions *)

Lemma plus_minus_free s : count_char "-" s = 0%nat -> plus_minus s = s.
Proof.
  induction s as [|a s IH]; cbn [count_char plus_minus]; [reflexivity|].
  destruct (Ascii.eqb a "-"); intro H; [lia | now rewrite IH].
Qed.
Lemma plus_minus_append a b : plus_minus (String.append a b) = String.append (plus_minus a) (plus_minus b).
Proof.
  induction a as [|x a IH]; cbn [String.append plus_minus]; [reflexivity|].
  destruct (Ascii.eqb x "-"); cbn [String.append]; now rewrite IH.
Qed.
Lemma plus_minus_count c s : Ascii.eqb "+" c = false -> count_char c (plus_minus s) = count_char c s.
Proof.
  intro N. induction s as [|a s IH]; cbn [count_char plus_minus]; [reflexivity|].
  destruct (Ascii.eqb_spec a "-") as [->|E]; cbn [count_char]; rewrite IH; [rewrite N|]; reflexivity.
Qed.

Definition piece (x : sgn * string) : string := match fst x with Plus => snd x | Minus => String "-" (snd x) end.

Lemma piece_count c x : plain (snd x) -> Ascii.eqb "-" c = false -> count_char c (snd x) = 0%nat -> count_char c (piece x) = 0%nat.
Proof. intros P N H. unfold piece. destruct (fst x); [exact H|]. cbn [count_char]. now rewrite N, H. Qed.

Lemma signed_pieces x l : plain x -> Forall (fun y => plain (snd y)) l -> forall s,
  split "+" (String.append (piece (s, x)) (plus_minus (signed_text l))) = piece (s, x) :: map piece l.
Proof.
  intros Hx Hl. revert x Hx. induction Hl as [|[s' y] l Hy Hl IH]; intros x Hx s; cbn [signed_text map].
  - cbn [plus_minus]. rewrite append_nil. apply split_free. apply (piece_count "+" (s, x)); [exact Hx | reflexivity | apply Hx].
  - cbn [snd] in Hy.
    assert (E : plus_minus (String (sign_char s') (String.append y (signed_text l)))
                = String "+" (String.append (piece (s', y)) (plus_minus (signed_text l)))).
    { cbn [plus_minus]. destruct s'; cbn [sign_char].
      - change (Ascii.eqb "+" "-") with false. cbv iota. unfold piece. cbn [fst snd].
        rewrite plus_minus_append, (plus_minus_free y) by apply Hy. reflexivity.
      - change (Ascii.eqb "-" "-") with true. cbv iota. unfold piece. cbn [fst snd String.append].
        rewrite plus_minus_append, (plus_minus_free y) by apply Hy. reflexivity. }
    rewrite E. rewrite split_app by (apply (piece_count "+" (s, x)); [exact Hx | reflexivity | apply Hx]).
    f_equal. now apply IH.
Qed.

Section Read.
  Context {T : Type} (interpreter : list (string * T)).

  Lemma read_pieces l l' : Forall (fun y => plain (snd y)) l -> Forall2 (stands interpreter) l l' ->
    read_terms interpreter (map piece l) = Some l'.
  Proof.
    intros H F. revert H. induction F as [|[s x] [s' t] l l' [S1 S2] F IH]; intro H; [reflexivity|].
    inversion H as [|? ? Hx Hl]; subst. cbn [fst snd] in *. subst s'. cbn [map read_terms].
    destruct Hx as (X0 & X1 & X2 & X3 & X4 & X5).
    assert (A : String.eqb (piece (s, x)) "" || String.eqb (piece (s, x)) "-" || String.eqb (piece (s, x)) "0" = false).
    { apply orb_false_iff. split; [apply orb_false_iff; split|]; apply String.eqb_neq; unfold piece; cbn [fst snd]; destruct s; try discriminate; try assumption.
      - intro E. subst x. discriminate.
      - intro E. injection E as E. contradiction. }
    rewrite A. rewrite (IH Hl).
    destruct s; unfold piece; cbn [fst snd].
    - destruct x as [|a x]; [contradiction|].
      cbn [count_char] in X4. destruct (Ascii.eqb a "-"); [lia|]. now rewrite S2.
    - change (Ascii.eqb "-" "-") with true. cbv iota. now rewrite S2.
  Qed.

  Lemma read_side_text l s l' : side_text l s -> Forall (fun y => plain (snd y)) l -> Forall2 (stands interpreter) l l' ->
    read_side interpreter (plus_minus s) = Some l'.
  Proof.
    intros S H F. unfold read_side. destruct S as [l|x l|].
    - destruct l as [|[s x] l].
      + inversion F. reflexivity.
      + inversion H as [|? ? Hx Hl]; subst. cbn [snd] in Hx.
        assert (E : split "+" (plus_minus (signed_text ((s, x) :: l))) = EmptyString :: map piece ((s, x) :: l)).
        { cbn [signed_text plus_minus]. destruct s; cbn [sign_char].
          - change (Ascii.eqb "+" "-") with false. cbv iota. cbn [split]. change (Ascii.eqb "+" "+") with true. cbv iota.
            f_equal. rewrite plus_minus_append, (plus_minus_free x) by apply Hx. apply (signed_pieces x l Hx Hl Plus).
          - change (Ascii.eqb "-" "-") with true. cbv iota. cbn [split]. change (Ascii.eqb "+" "+") with true. cbv iota.
            f_equal. rewrite plus_minus_append, (plus_minus_free x) by apply Hx. apply (signed_pieces x l Hx Hl Minus). }
        rewrite E. cbn [read_terms]. change (String.eqb "" "" || String.eqb "" "-" || String.eqb "" "0") with true. cbv iota.
        now apply read_pieces.
    - inversion H as [|? ? Hx Hl]; subst. cbn [snd] in Hx.
      rewrite plus_minus_append, (plus_minus_free x) by apply Hx.
      change x with (piece (Plus, x)) at 1. rewrite (signed_pieces x l Hx Hl Plus). now apply (read_pieces ((Plus, x) :: l)).
    - inversion F. reflexivity.
  Qed.

  Lemma signed_no_equal l : Forall (fun y => plain (snd y)) l -> count_char "=" (signed_text l) = 0%nat.
  Proof.
    induction 1 as [|[s x] l Hx Hl IH]; [reflexivity|]. cbn [signed_text count_char].
    rewrite count_append, IH. cbn [snd] in Hx. destruct Hx as (_ & _ & _ & _ & _ & ->). destruct s; reflexivity.
  Qed.
  Lemma side_no_equal l s : side_text l s -> Forall (fun y => plain (snd y)) l -> count_char "=" s = 0%nat.
  Proof.
    intros S H. destruct S as [l|x l|]; [now apply signed_no_equal| |reflexivity].
    inversion H as [|? ? Hx Hl]; subst. cbn [snd] in Hx. rewrite count_append, signed_no_equal by exact Hl.
    destruct Hx as (_ & _ & _ & _ & _ & ->). reflexivity.
  Qed.

  Lemma read_equation_text l r s l' r' : equation_text l r s ->
    Forall (fun y => plain (snd y)) (l ++ r) ->
    Forall2 (stands interpreter) l l' -> Forall2 (stands interpreter) r r' ->
    read_equation interpreter s = Some (l', r').
  Proof.
    intros (sl & sr & SL & SR & SP) H FL FR. apply Forall_app in H. destruct H as [HL HR].
    unfold read_equation. unfold spaced in SP. rewrite SP, plus_minus_append.
    assert (E : plus_minus (String "=" sr) = String "=" (plus_minus sr)) by reflexivity. rewrite E.
    rewrite split_app by (rewrite plus_minus_count by reflexivity; now apply (side_no_equal l)).
    rewrite split_free by (rewrite plus_minus_count by reflexivity; now apply (side_no_equal r)).
    cbn [map_opt]. rewrite (read_side_text l sl l' SL HL FL), (read_side_text r sr r' SR HR FR). reflexivity.
  Qed.

  (** several signs before a name: the last one is taken *)
  Lemma read_signs ss x t : ss <> [] -> plain x -> sget x interpreter = Some t ->
    read_side interpreter (plus_minus (String.append (signs_text ss) x)) = Some [(last ss Plus, t)].
  Proof.
    intros N Hx G. unfold read_side.
    assert (X : forall s, plus_minus (String (sign_char s) x) = String "+" (piece (s, x))).
    { intro s. cbn [plus_minus]. destruct s; cbn [sign_char]; unfold piece; cbn [fst snd].
      - change (Ascii.eqb "+" "-") with false. cbv iota. now rewrite plus_minus_free by apply Hx.
      - change (Ascii.eqb "-" "-") with true. cbv iota. now rewrite plus_minus_free by apply Hx. }
    assert (L : forall s, read_terms interpreter (split "+" (plus_minus (String (sign_char s) x))) = Some [(s, t)]).
    { intro s. rewrite X. cbn [split]. change (Ascii.eqb "+" "+") with true. cbv iota.
      assert (SP := signed_pieces x [] Hx (Forall_nil _) s). cbn [signed_text plus_minus map] in SP.
      rewrite append_nil in SP. rewrite SP. cbn [read_terms].
      change (String.eqb "" "" || String.eqb "" "-" || String.eqb "" "0") with true. cbv iota.
      apply (read_pieces [(s, x)] [(s, t)]); repeat constructor; try exact G; exact Hx || apply Hx. }
    induction ss as [|s ss IH]; [contradiction|]. destruct ss as [|s' ss].
    - exact (L s).
    - specialize (IH ltac:(discriminate)).
      change (last (s :: s' :: ss) Plus) with (last (s' :: ss) Plus). rewrite <- IH.
      assert (Q : exists u, plus_minus (String.append (signs_text (s' :: ss)) x) = String "+" u).
      { cbn [signs_text String.append plus_minus]. destruct s'; cbn [sign_char].
        - change (Ascii.eqb "+" "-") with false. cbv iota. eauto.
        - change (Ascii.eqb "-" "-") with true. cbv iota. eauto. }
      destruct Q as (u & Q).
      assert (Y : plus_minus (String.append (signs_text (s :: s' :: ss)) x)
                  = match s with Plus => String "+" (String "+" u) | Minus => String "+" (String "-" (String "+" u)) end).
      { change (signs_text (s :: s' :: ss)) with (String (sign_char s) (signs_text (s' :: ss))).
        cbn [String.append plus_minus]. rewrite Q. destruct s; reflexivity. }
      rewrite Y, Q. destruct s; reflexivity.
  Qed.

  Lemma read_pde_one expression eqs : read_pde interpreter expression = Some eqs ->
    forall s, In s expression -> count_char "=" s = 1%nat.
  Proof.
    unfold read_pde. destruct (forallb _ expression) eqn:F; [|discriminate]. intros _ s S.
    rewrite forallb_forall in F. specialize (F s S). apply andb_true_iff in F. apply Nat.eqb_eq. tauto.
  Qed.
End Read.
