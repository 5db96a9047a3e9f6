From Coq Require Import List ZArith QArith Qround Bool String Ascii DecimalString DecimalFacts Lia.
From Verif Require Import MemoModel MemoProofs MiscModel MiscSpec MiscText TimeModel TimeSpec.
Import ListNotations.
Local Open Scope string_scope.

(** ** words *)
Definition bnd (r : string) : bool := match r with "" => true | String a _ => negb (word_char a) end.
Fixpoint all_b (P : ascii -> bool) (s : string) : bool := match s with "" => true | String a r => P a && all_b P r end.
Lemma letter_word a : letter a = true -> word_char a = true. Proof. unfold word_char. now intros ->. Qed.
Lemma cat_nil o : cat o (Some []) = o. Proof. destruct o; cbn; [now rewrite List.app_nil_r|reflexivity]. Qed.
Lemma cat_nil_l o : cat (Some []) o = o. Proof. now destruct o. Qed.
Lemma cat_assoc a b c : cat (cat a b) c = cat a (cat b c).
Proof. destruct a, b, c; cbn; auto. now rewrite List.app_assoc. Qed.
Lemma lex_bnd r w : bnd r = true -> lex r w = cat (flush w) (lex r "").
Proof.
  destruct r as [|a r]; cbn [bnd lex]; intros H; [now rewrite cat_nil|]. apply negb_true_iff in H. rewrite H. cbn [flush]. now rewrite cat_nil_l.
Qed.
Lemma lex_word t : forall r w, all_b word_char t = true -> lex (t ++ r) w = lex r (w ++ t).
Proof.
  induction t as [|a t IH]; intros r w H; cbn [append]; [now rewrite append_nil|]. cbn [all_b] in H. apply andb_true_iff in H as [H1 H2]. cbn [lex]. rewrite H1, (IH _ _ H2), append_assoc. reflexivity.
Qed.
Lemma split_ne c w : split c w <> [].
Proof. destruct w as [|x w]; cbn [split]; [discriminate|]. destruct (Ascii.eqb x c); [discriminate|]. destruct (split c w); discriminate. Qed.
Lemma split1 c w : forall a, split c w = [a] -> w = a.
Proof.
  induction w as [|x w IH]; cbn [split]; intros a H; [now injection H|]. pose proof (split_ne c w) as N. destruct (Ascii.eqb x c); [injection H; congruence|].
  destruct (split c w) as [|h t]; [congruence|]. injection H as <- ->. now rewrite (IH h).
Qed.
Lemma split2 c w : forall a b, split c w = [a; b] -> w = a ++ String c b.
Proof.
  induction w as [|x w IH]; cbn [split]; intros a b H; [discriminate|]. pose proof (split_ne c w) as N. destruct (Ascii.eqb_spec x c) as [->|].
  - injection H as <- H. cbn [append]. f_equal. now apply split1 in H.
  - destruct (split c w) as [|h t]; [congruence|]. injection H as <- ->. cbn [append]. f_equal. now apply IH.
Qed.
Definition num_c (a : ascii) : bool := digit a || Ascii.eqb a ".".
Lemma num_word a : num_c a = true -> word_char a = true /\ letter a = false.
Proof. destruct a as [[] [] [] [] [] [] [] []]; vm_compute; intuition congruence. Qed.
Lemma all_b_app P s t : all_b P (s ++ t) = all_b P s && all_b P t.
Proof. induction s as [|a s IH]; [reflexivity|]. cbn [append all_b]. now rewrite IH, andb_assoc. Qed.
Lemma uint_char a o d : uint_of_char a o = Some d -> digit a = true.
Proof. destruct o; [|destruct a as [[] [] [] [] [] [] [] []]; discriminate]. destruct a as [[] [] [] [] [] [] [] []]; vm_compute; congruence. Qed.
Lemma uint_digits s : forall u, NilEmpty.uint_of_string s = Some u -> all_b digit s = true.
Proof.
  induction s as [|a s IH]; intros u H; [reflexivity|]. cbn [NilEmpty.uint_of_string] in H. cbn [all_b]. rewrite (uint_char _ _ _ H). destruct (NilEmpty.uint_of_string s) as [v|]; [now rewrite (IH v)|]. destruct a as [[] [] [] [] [] [] [] []]; discriminate.
Qed.
Lemma all_b_impl (P R : ascii -> bool) s : (forall a, P a = true -> R a = true) -> all_b P s = true -> all_b R s = true.
Proof. intros H. induction s as [|a s IH]; [reflexivity|]. cbn [all_b]. rewrite !andb_true_iff. intros [A B]. auto. Qed.
Lemma number_chars w q : number w = Some q -> all_b num_c w = true /\ w <> "".
Proof.
  assert (D : forall a, digit a = true -> num_c a = true) by (intros a H; unfold num_c; now rewrite H).
  unfold number. destruct (split "." w) as [|a [|b [|]]] eqn:E; try discriminate.
  - apply split1 in E as <-. unfold int_literal. destruct (NilZero.uint_of_string w) as [u|] eqn:U; [|discriminate]. intros _. unfold NilZero.uint_of_string in U. destruct w; [discriminate|]. split; [|discriminate]. eapply all_b_impl; [exact D|]. eapply uint_digits; eauto.
  - apply split2 in E as ->. intros H. assert (H2 : exists u v, NilEmpty.uint_of_string a = Some u /\ NilEmpty.uint_of_string b = Some v).
    { destruct (NilEmpty.uint_of_string a) as [u|]; [destruct (NilEmpty.uint_of_string b) as [v|]; [eauto|]|]; destruct a, b; discriminate. }
    destruct H2 as (u & v & H1 & H2). split; [|destruct a; discriminate]. rewrite all_b_app. cbn [all_b]. rewrite (all_b_impl _ _ _ D (uint_digits _ _ H1)), (all_b_impl _ _ _ D (uint_digits _ _ H2)). reflexivity.
Qed.
Lemma flush_number w q : number w = Some q -> flush w = Some [TNum q].
Proof.
  intros H. destruct (number_chars _ _ H) as [C N]. destruct w as [|a [|b w]]; [congruence| |].
  - cbn [flush word_tok]. cbn [all_b] in C. rewrite andb_true_r in C. destruct (num_word _ C) as [_ ->]. rewrite H. reflexivity.
  - cbn [flush word_tok]. rewrite H. reflexivity.
Qed.
Lemma word_no_letters w q : number w = Some q -> all_b word_char w = true /\ all_b (fun a => negb (letter a)) w = true.
Proof. intros H. destruct (number_chars _ _ H) as [C _]. split; eapply all_b_impl; try exact C; intros a Ha; destruct (num_word _ Ha) as [A B]; [exact A|now rewrite B]. Qed.

(** the tokens of the text of a value *)
Definition lit_toks (t : string) (tt : list tok) (v : Q) : Prop := (exists q, number t = Some q /\ tt = [TNum q] /\ v = q) \/ (exists w q, t = String "-" w /\ number w = Some q /\ tt = [TMinus; TNum q] /\ v = Qopp q).
Lemma lit_lex t tt v r : lit_toks t tt v -> bnd r = true -> lex (t ++ r) "" = cat (Some tt) (lex r "").
Proof.
  intros [(q & H & -> & _)|(w & q & -> & H & -> & _)] B.
  - destruct (word_no_letters _ _ H) as [W _]. rewrite lex_word by auto. cbn [append]. rewrite lex_bnd by auto. now rewrite (flush_number _ _ H).
  - destruct (word_no_letters _ _ H) as [W _]. cbn [append lex]. change (word_char "-") with false. cbv iota. cbn [flush]. rewrite cat_nil_l. change (op_tok "-") with (Some TMinus). change (Ascii.eqb "-" "*") with false. cbn [andb]. cbv iota.
    assert (L : lex (w ++ r) "" = cat (Some [TNum q]) (lex r "")). { rewrite lex_word by auto. cbn [append]. rewrite lex_bnd by auto. now rewrite (flush_number _ _ H). }
    replace (match w ++ r with "" => cat (Some [TMinus]) (lex (w ++ r) "") | String _ _ => cat (Some [TMinus]) (lex (w ++ r) "") end) with (cat (Some [TMinus]) (lex (w ++ r) "")) by now destruct (w ++ r).
    rewrite L, <- cat_assoc. reflexivity.
Qed.
Lemma lit_head t tt v : lit_toks t tt v -> exists a t', t = String a t' /\ a <> "*"%char.
Proof.
  intros [(q & H & _)|(w & q & -> & _)]; [|eexists _, _; split; [reflexivity|discriminate]]. destruct (number_chars _ _ H) as [C N]. destruct t as [|a t]; [congruence|]. eexists _, _. split; [reflexivity|]. intros ->. cbn [all_b] in C. discriminate.
Qed.
Lemma lit_nolet t tt v : lit_toks t tt v -> all_b (fun a => negb (letter a)) t = true.
Proof. intros [(q & H & _)|(w & q & -> & H & _)]; destruct (word_no_letters _ _ H) as [_ L]; [exact L|]. cbn [all_b]. now rewrite L. Qed.

(** ** letters apart *)
Fixpoint iso (prev : bool) (s : string) : bool :=
  match s with "" => true | String a r => if letter a then negb prev && bnd r && iso true r else iso (word_char a) r end.
Lemma iso_bnd p p' r : bnd r = true -> iso p r = iso p' r.
Proof. destruct r as [|a r]; [reflexivity|]. cbn [bnd iso]. intros H. apply negb_true_iff in H. destruct (letter a) eqn:L; [apply letter_word in L; congruence|reflexivity]. Qed.
Lemma app_snoc_inv p x p' a : p ++ String x "" = p' ++ String a "" -> x = a.
Proof.
  revert p'. induction p as [|y p IH]; intros [|z p'] H; cbn [append] in H.
  - now injection H. - injection H as _ H. destruct p'; discriminate. - injection H as _ H. destruct p; discriminate. - injection H as _ H. eauto.
Qed.
Lemma apart_iso s : apart s -> iso false s = true.
Proof.
  intros H. assert (W : forall r p, s = p ++ r -> forall prev, (prev = true -> exists p' a, p = p' ++ String a "" /\ word_char a = true) -> iso prev r = true).
  { induction r as [|a r IH]; intros p E prev Hp; [reflexivity|]. cbn [iso].
    assert (E' : s = (p ++ String a "") ++ r) by (rewrite append_assoc; exact E).
    destruct (letter a) eqn:L.
    - destruct (H p a r E L) as [H1 H2]. rewrite !andb_true_iff. split; [split|].
      + destruct prev; [|reflexivity]. destruct (Hp eq_refl) as (p' & b & E1 & E2). apply H1 in E1. congruence.
      + destruct r as [|b r]; [reflexivity|]. cbn [bnd]. now rewrite (H2 b r).
      + apply (IH _ E'). intros _. exists p, a. split; [reflexivity|]. now apply letter_word.
    - apply (IH _ E'). intros Hw. eauto. }
  apply (W s "" eq_refl). discriminate.
Qed.
Lemma replace_bnd c t r : letter c = true -> bnd r = true -> bnd (replace c t r) = true.
Proof. intros L. destruct r as [|a r]; [reflexivity|]. cbn [bnd replace]. destruct (Ascii.eqb_spec a c) as [->|]; [|auto]. apply letter_word in L. rewrite L. discriminate. Qed.
Lemma iso_app_nolet t : all_b (fun a => negb (letter a)) t = true -> forall r p, bnd r = true -> iso p (t ++ r) = iso false r.
Proof.
  induction t as [|a t IH]; intros H r p B; cbn [append]; [now apply iso_bnd|]. cbn [all_b] in H. apply andb_true_iff in H as [H1 H2]. cbn [iso]. apply negb_true_iff in H1. rewrite H1. now apply IH.
Qed.
Lemma iso_replace c t tt v : letter c = true -> lit_toks t tt v -> forall s p, iso p s = true -> iso p (replace c t s) = true.
Proof.
  intros L T. induction s as [|a s IH]; intros p H; [reflexivity|]. cbn [replace]. cbn [iso] in H. destruct (Ascii.eqb_spec a c) as [->|N].
  - rewrite L in H. rewrite !andb_true_iff in H. destruct H as [[_ B] H]. rewrite iso_app_nolet; [|eapply lit_nolet; eauto|now apply replace_bnd]. rewrite (iso_bnd false true) by now apply replace_bnd. auto.
  - cbn [iso]. destruct (letter a) eqn:La; [|now apply IH]. rewrite !andb_true_iff in H |- *. destruct H as [[H1 B] H]. repeat split; auto. now apply replace_bnd.
Qed.

(** ** replacing letters replaces tokens *)
Definition sg (c : ascii) (tt : list tok) (x : tok) : list tok := match x with TVar a => if Ascii.eqb a c then tt else [x] | _ => [x] end.
Lemma cat_map (f : list tok -> list tok) a b : (forall x y, f (x ++ y)%list = (f x ++ f y)%list) -> cat (option_map f a) (option_map f b) = option_map f (cat a b).
Proof. intros H. destruct a, b; cbn; auto. now rewrite H. Qed.
Lemma flush_nolet c tt w : all_b (fun a => negb (letter a)) w = true -> option_map (flat_map (sg c tt)) (flush w) = flush w.
Proof.
  intros H. destruct w as [|a [|b w]]; [reflexivity| |].
  - cbn [all_b] in H. rewrite andb_true_r in H. apply negb_true_iff in H. cbn [flush word_tok]. rewrite H. destruct (number _); reflexivity.
  - cbn [flush word_tok]. destruct (number _); reflexivity.
Qed.
Lemma lex_letter a r : letter a = true -> bnd r = true -> lex (String a r) "" = cat (Some [TVar a]) (lex r "").
Proof. intros L B. cbn [lex]. rewrite (letter_word _ L). cbn [append]. rewrite lex_bnd by auto. cbn [flush word_tok]. now rewrite L. Qed.
Definition op_lex (a : ascii) (r : string) : option (list tok) :=
  match r with
  | String b r' => if Ascii.eqb a "*" && Ascii.eqb b "*" then cat (Some [TPow]) (lex r' "") else match op_tok a with Some t => cat (Some [t]) (lex r "") | None => None end
  | "" => match op_tok a with Some t => cat (Some [t]) (lex r "") | None => None end
  end.
Lemma lex_op a r w : word_char a = false -> lex (String a r) w = cat (flush w) (op_lex a r).
Proof. intros H. cbn [lex]. rewrite H. reflexivity. Qed.
Lemma op_lex_cases a r : (exists r', a = "*"%char /\ r = String "*" r' /\ op_lex a r = cat (Some [TPow]) (lex r' "")) \/
  ((forall r', ~ (a = "*"%char /\ r = String "*" r')) /\ op_lex a r = match op_tok a with Some t => cat (Some [t]) (lex r "") | None => None end).
Proof.
  destruct r as [|b r]; [right; split; [intros r' []; discriminate|reflexivity]|]. cbn [op_lex]. destruct (Ascii.eqb_spec a "*") as [->|N]; [|right; cbn [andb]; split; [intros r' [? _]; congruence|reflexivity]].
  destruct (Ascii.eqb_spec b "*") as [->|N]; cbn [andb]; [left; eauto|right; split; [|reflexivity]]. intros r' [_ H]. congruence.
Qed.
Lemma op_tok_sg c tt a x : op_tok a = Some x -> sg c tt x = [x].
Proof. unfold op_tok. repeat match goal with |- context [if ?b then _ else _] => destruct b end; intros H; try discriminate; now injection H as <-. Qed.
Lemma op_lex_plain a r : (forall r', ~ (a = "*"%char /\ r = String "*" r')) -> op_lex a r = match op_tok a with Some t => cat (Some [t]) (lex r "") | None => None end.
Proof. intros H. destruct (op_lex_cases a r) as [(r' & H1 & H2 & _)|[_ E]]; [exfalso; eapply H; eauto|exact E]. Qed.
Lemma lex_replace c t tt v : letter c = true -> lit_toks t tt v -> forall n s p w, (String.length s <= n)%nat -> iso p s = true -> all_b (fun a => negb (letter a)) w = true -> (p = false -> w = "") ->
  lex (replace c t s) w = option_map (flat_map (sg c tt)) (lex s w).
Proof.
  intros L T. induction n as [|n IH]; intros s p w Hn Hi Hw Hp.
  { destruct s; [|cbn in Hn; lia]. cbn [replace lex]. symmetry. now apply flush_nolet. }
  destruct s as [|a r]; [cbn [replace lex]; symmetry; now apply flush_nolet|]. cbn [String.length] in Hn. cbn [replace iso] in *. destruct (letter a) eqn:La.
  - rewrite !andb_true_iff in Hi. destruct Hi as [[Hp' B] Hi]. apply negb_true_iff in Hp'. rewrite (Hp Hp'). rewrite (lex_letter a r La B), <- cat_map by apply flat_map_app.
    assert (Er : lex (replace c t r) "" = option_map (flat_map (sg c tt)) (lex r "")). { apply (IH _ false); auto; [lia|]. now rewrite (iso_bnd false true). }
    rewrite <- Er. cbn [option_map flat_map sg]. rewrite List.app_nil_r. destruct (Ascii.eqb_spec a c) as [->|N].
    + apply (lit_lex _ _ _ _ T). now apply replace_bnd.
    + apply lex_letter; auto. now apply replace_bnd.
  - destruct (Ascii.eqb_spec a c) as [->|N]; [congruence|]. destruct (word_char a) eqn:Wa.
    + cbn [lex]. rewrite Wa. apply (IH _ true); auto; [lia| |discriminate]. rewrite all_b_app, Hw. cbn [all_b]. now rewrite La.
    + rewrite !lex_op by auto. rewrite <- cat_map by apply flat_map_app. rewrite flush_nolet by auto. f_equal.
      destruct (op_lex_cases a r) as [(r' & -> & -> & E)|[Nr E]].
      * rewrite E. cbn [replace]. destruct (Ascii.eqb_spec "*" c) as [<-|_]; [discriminate|]. cbn [op_lex]. cbn [Ascii.eqb Bool.eqb andb]. rewrite <- cat_map by apply flat_map_app. f_equal. cbn [iso] in Hi. change (letter "*") with false in Hi. cbv iota in Hi. change (word_char "*") with false in Hi.
        apply (IH _ false); auto. cbn in Hn. lia.
      * rewrite E. rewrite op_lex_plain.
        -- destruct (op_tok a) as [x|] eqn:Ex; [|reflexivity]. rewrite <- cat_map by apply flat_map_app. cbn [option_map flat_map]. rewrite (op_tok_sg _ _ _ _ Ex). f_equal. apply (IH _ false); auto. lia.
        -- intros r' [-> E']. destruct r as [|b r]; [discriminate|]. cbn [replace] in E'. destruct (Ascii.eqb_spec b c) as [->|].
           ++ destruct (lit_head _ _ _ T) as (h & t' & -> & Hh). injection E' as E' _. congruence.
           ++ injection E' as -> _. eapply Nr. eauto.
Qed.
(** powers *)
Fixpoint tpow (c : ascii) (ts : list tok) : bool := match ts with [] => false | x :: r => match x, r with TVar a, TPow :: _ => Ascii.eqb a c | _, _ => false end || tpow c r end.
Definition tpow_b (c : ascii) (s : string) : bool := match s with String a (String x (String y _)) => Ascii.eqb a c && Ascii.eqb x "*" && Ascii.eqb y "*" | _ => false end.
Fixpoint bpow (c : ascii) (s : string) : bool := match s with "" => false | String _ r => tpow_b c s || bpow c r end.
Lemma bpow_spec c s : bpow c s = true -> base_of_power c s.
Proof.
  induction s as [|a s IH]; [discriminate|]. cbn [bpow]. intros H. apply orb_true_iff in H as [H|H].
  - destruct s as [|x [|y s]]; try discriminate. cbn [tpow_b] in H. rewrite !andb_true_iff in H. destruct H as [[H1 H2] H3]. apply Ascii.eqb_eq in H1, H2, H3. subst. exists "", s. reflexivity.
  - destruct (IH H) as (p & q & ->). exists (String a p), q. reflexivity.
Qed.
Lemma tpow_app_num c x ts : match x with TVar _ => false | _ => true end = true -> tpow c (x :: ts) = tpow c ts.
Proof. destruct x; try discriminate; reflexivity. Qed.
Lemma flush_cases w ts : all_b (fun a => negb (letter a)) w = true -> flush w = Some ts -> ts = [] \/ exists q, ts = [TNum q].
Proof.
  intros H E. destruct w as [|a [|b w]]; cbn [flush] in E; [injection E as <-; auto| |].
  - cbn [all_b] in H. rewrite andb_true_r in H. apply negb_true_iff in H. cbn [word_tok] in E. rewrite H in E. destruct (number _); [|discriminate]. injection E as <-. eauto.
  - cbn [word_tok] in E. destruct (number _); [|discriminate]. injection E as <-. eauto.
Qed.
Lemma cat_some a b ts : cat a b = Some ts -> exists x y, a = Some x /\ b = Some y /\ ts = (x ++ y)%list.
Proof. destruct a, b; try discriminate. intros H. injection H as <-. eauto. Qed.
Lemma op_tok_plain a x : op_tok a = Some x -> x <> TPow /\ match x with TVar _ => false | _ => true end = true.
Proof. unfold op_tok. repeat match goal with |- context [if ?b then _ else _] => destruct b end; intros H; try discriminate; injection H as <-; split; auto; discriminate. Qed.
Lemma lex_bpow c : forall n s p w ts, (String.length s <= n)%nat -> iso p s = true -> all_b (fun a => negb (letter a)) w = true -> (p = false -> w = "") -> lex s w = Some ts -> tpow c ts = true -> bpow c s = true.
Proof.
  induction n as [|n IH]; intros s p w ts Hn Hi Hw Hp Hl Ht.
  { destruct s; [|cbn in Hn; lia]. cbn [lex] in Hl. destruct (flush_cases _ _ Hw Hl) as [->|[q ->]]; discriminate. }
  destruct s as [|a r]. { cbn [lex] in Hl. destruct (flush_cases _ _ Hw Hl) as [->|[q ->]]; discriminate. }
  cbn [String.length] in Hn. cbn [iso bpow] in *. apply orb_true_iff. destruct (letter a) eqn:La.
  - rewrite !andb_true_iff in Hi. destruct Hi as [[Hp' B] Hi]. apply negb_true_iff in Hp'. rewrite (Hp Hp') in Hl. rewrite (lex_letter a r La B) in Hl. apply cat_some in Hl as (x & ts' & Ex & Hl & ->). injection Ex as <-. cbn [app tpow] in Ht. apply orb_true_iff in Ht as [Ht|Ht].
    + left. destruct ts' as [|[] ts']; try discriminate. destruct r as [|b r]; [discriminate|]. cbn [bnd] in B. apply negb_true_iff in B. rewrite lex_op in Hl by auto. cbn [flush] in Hl. rewrite cat_nil_l in Hl.
      destruct (op_lex_cases b r) as [(r' & -> & -> & E)|[_ E]]; [cbn [tpow_b]; now rewrite Ht|]. rewrite E in Hl. destruct (op_tok b) as [y|] eqn:Ey; [|discriminate]. apply cat_some in Hl as (z & u & Ez & _ & El). injection Ez as <-. injection El as E1 _. destruct (op_tok_plain _ _ Ey); congruence.
    + right. eapply (IH r false "" ts'); auto; [lia|]. now rewrite (iso_bnd false true).
  - right. destruct (word_char a) eqn:Wa.
    + cbn [lex] in Hl. rewrite Wa in Hl. eapply (IH r true _ _ ltac:(lia) Hi); [|discriminate|exact Hl|exact Ht]. rewrite all_b_app, Hw. cbn [all_b]. now rewrite La.
    + rewrite lex_op in Hl by auto. apply cat_some in Hl as (x & y & Ex & Ey & ->).
      assert (Ht' : tpow c y = true). { destruct (flush_cases _ _ Hw Ex) as [->|[q ->]]; [exact Ht|]. cbn [app] in Ht. now rewrite tpow_app_num in Ht. }
      destruct (op_lex_cases a r) as [(r' & -> & -> & E)|[_ E]]; rewrite E in Ey.
      * apply cat_some in Ey as (u & z & Eu & Ez & ->). injection Eu as <-. cbn [app] in Ht'. rewrite tpow_app_num in Ht' by reflexivity. cbn [iso] in Hi. change (letter "*") with false in Hi. cbv iota in Hi. change (word_char "*") with false in Hi.
        cbn [bpow]. apply orb_true_iff. right. eapply (IH r' false ""); eauto. cbn in Hn. lia.
      * destruct (op_tok a) as [k|] eqn:Ek; [|discriminate]. apply cat_some in Ey as (u & z & Eu & Ez & ->). injection Eu as <-. cbn [app] in Ht'. rewrite tpow_app_num in Ht' by apply (op_tok_plain _ _ Ek). eapply (IH r false ""); eauto. lia.
Qed.
