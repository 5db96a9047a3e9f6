From Coq Require Import List ZArith QArith Qround Bool String Ascii DecimalString DecimalFacts Lia Lqa.
From Verif Require Import MemoModel MemoProofs MiscModel MiscSpec MiscText TimeModel TimeSpec TimeConst TimeText TimeParse.
Import ListNotations.
Local Open Scope string_scope.

Lemma lit_of t v : literal t v -> exists tt, lit_toks t tt v.
Proof. intros [(q & H & ->)|(w & q & -> & H & ->)]; eexists; [left|right]; eauto 8. Qed.
Lemma tpow_sg c d tt ts : c <> d -> (exists q, tt = [TNum q] \/ tt = [TMinus; TNum q]) -> tpow d (flat_map (sg c tt) ts) = true -> tpow d ts = true.
Proof.
  intros N (q & Hq). induction ts as [|x ts IH]; [discriminate|]. cbn [flat_map]. intros H. cbn [tpow]. apply orb_true_iff.
  assert (C : tpow d (flat_map (sg c tt) ts) = true -> tpow d ts = true) by exact IH. 
  destruct x; cbn [sg app] in H; try (right; apply C; exact H).
  destruct (Ascii.eqb_spec c0 c) as [->|N2].
  - right. apply C. destruct Hq as [-> | ->]; exact H.
  - cbn [app tpow] in H. apply orb_true_iff in H as [H|H]; [|auto]. destruct ts as [|y ts]; [discriminate|]. cbn [flat_map] in H. destruct y; cbn [sg app] in H; try discriminate; [|left; exact H].
    destruct (Ascii.eqb c1 c); [destruct Hq as [-> | ->]|]; discriminate.
Qed.
Section One.
  Variables (c : ascii) (env env' : ascii -> option Q).
  Hypothesis Hl : letter c = true.
  Hypothesis Ha : forall d, d <> c -> env d = env' d.
  Lemma one_unsigned t q s : number t = Some q -> env c = Some q -> iso false s = true -> eval env' (replace c t s) = eval env s.
  Proof.
    intros Ht Hc Hi. unfold eval. assert (T : lit_toks t [TNum q] q) by (left; eauto). rewrite (lex_replace c t _ _ Hl T (String.length s) s false ""); auto.
    destruct (lex s "") as [ts|]; [|reflexivity]. cbn [option_map]. rewrite parse_all_unsigned. destruct (parse_all ts) as [a|]; [|reflexivity]. cbn [option_map]. eapply value_asub; eauto. reflexivity.
  Qed.
  Lemma one_signed t q s x : number t = Some q -> env c = Some (Qopp q) -> iso false s = true -> (forall ts, lex s "" = Some ts -> tpow c ts = false) -> eval env s = Some x -> eval env' (replace c (String "-" t) s) = Some x.
  Proof.
    intros Ht Hc Hi Hp H. unfold eval in *. assert (T : lit_toks (String "-" t) [TMinus; TNum q] (Qopp q)) by (right; eauto 6). rewrite (lex_replace c _ _ _ Hl T (String.length s) s false ""); auto.
    destruct (lex s "") as [ts|]; [|discriminate]. cbn [option_map]. destruct (parse_all ts) as [a|] eqn:E; [|discriminate]. rewrite (parse_all_signed _ _ _ _ E (Hp _ eq_refl)). rewrite <- H. eapply value_asub; eauto. reflexivity.
  Qed.
End One.
Lemma lex_replace_iso c t tt v s : letter c = true -> lit_toks t tt v -> iso false s = true -> lex (replace c t s) "" = option_map (flat_map (sg c tt)) (lex s "").
Proof. intros L T I. eapply (lex_replace c t tt v L T (String.length s) s false ""); auto. Qed.
Definition texts (kw : list (ascii * (string * Q))) : list (ascii * string) := map (fun x => (fst x, fst (snd x))) kw.
Definition vals (kw : list (ascii * (string * Q))) : list (ascii * Q) := map (fun x => (fst x, snd (snd x))) kw.
Lemma env_head c v l : env_of ((c, v) :: l) c = Some v. Proof. cbn [env_of]. now rewrite Ascii.eqb_refl. Qed.
Lemma env_tail c v l d : d <> c -> env_of ((c, v) :: l) d = env_of l d. Proof. intros N. cbn [env_of]. destruct (Ascii.eqb_spec c d); [congruence|reflexivity]. Qed.
Lemma fill_sound keys kw : forall s x, iso false s = true ->
  (forall c t v, In (c, (t, v)) kw -> In c keys /\ letter c = true /\ literal t v /\ ((exists w, t = String "-" w) -> forall ts, lex s "" = Some ts -> tpow c ts = false)) ->
  NoDup (map fst kw) -> eval (env_of (vals kw)) s = Some x -> exists s', fill keys s (texts kw) = Some s' /\ eval (fun _ => None) s' = Some x.
Proof.
  induction kw as [|[c [t v]] kw IH]; intros s x Hi Hkw Nd H; [exists s; auto|].
  destruct (Hkw c t v (or_introl eq_refl)) as (Hk & Hl & Hv & Hp). cbn [texts map fst snd fill]. assert (Ek : existsb (Ascii.eqb c) keys = true) by (apply existsb_exists; exists c; split; auto; apply Ascii.eqb_refl). rewrite Ek.
  inversion_clear Nd as [|? ? Nin Nd']. cbn [vals map fst snd] in H. destruct (lit_of _ _ Hv) as [tt T].
  apply IH; auto.
  - eapply iso_replace; eauto.
  - intros d t' v' Hd. destruct (Hkw d t' v' (or_intror Hd)) as (K1 & K2 & K3 & K4). repeat split; auto. intros Hs ts' El. rewrite (lex_replace_iso _ _ _ _ _ Hl T Hi) in El. destruct (lex s "") as [ts|] eqn:Es; [|discriminate]. injection El as <-.
    destruct (tpow d (flat_map (sg c tt) ts)) eqn:E; [|reflexivity]. apply tpow_sg in E.
    + rewrite (K4 Hs ts eq_refl) in E. discriminate.
    + intros ->. apply Nin. apply in_map_iff. exists (d, (t', v')). auto.
    + destruct T as [(q & _ & -> & _)|(w & q & _ & _ & -> & _)]; eauto.
  - destruct Hv as [(q & Hn & ->)|(w & q & -> & Hn & ->)].
    + rewrite (one_unsigned c (env_of ((c, q) :: vals kw)) (env_of (vals kw)) Hl (env_tail _ _ _) t q s Hn (env_head _ _ _) Hi). exact H.
    + eapply (one_signed c (env_of ((c, Qopp q) :: vals kw)) _ Hl (env_tail _ _ _) w q s x Hn (env_head _ _ _) Hi); [|exact H]. apply Hp. eauto.
Qed.
Lemma fill_exact keys kw : forall s, iso false s = true ->
  (forall c t v, In (c, (t, v)) kw -> In c keys /\ letter c = true /\ number t = Some v) ->
  exists s', fill keys s (texts kw) = Some s' /\ eval (fun _ => None) s' = eval (env_of (vals kw)) s.
Proof.
  induction kw as [|[c [t v]] kw IH]; intros s Hi Hkw; [exists s; auto|].
  destruct (Hkw c t v (or_introl eq_refl)) as (Hk & Hl & Hv). cbn [texts map fst snd fill]. assert (Ek : existsb (Ascii.eqb c) keys = true) by (apply existsb_exists; exists c; split; auto; apply Ascii.eqb_refl). rewrite Ek.
  assert (T : lit_toks t [TNum v] v) by (left; eauto). destruct (IH (replace c t s)) as (s' & E & V); [eapply iso_replace; eauto|intros; apply Hkw; now right|].
  exists s'. split; [exact E|]. rewrite V. cbn [vals map fst snd]. apply (one_unsigned c (env_of ((c, v) :: vals kw)) (env_of (vals kw)) Hl (env_tail _ _ _) t v s Hv (env_head _ _ _) Hi).
Qed.
Lemma iso_adjacent s : forall p, iso p s = true -> adjacent s = false.
Proof.
  induction s as [|a s IH]; intros p H; [reflexivity|]. cbn [iso] in H. destruct s as [|b s]; [reflexivity|]. cbn [adjacent]. destruct (letter a) eqn:La.
  - rewrite !andb_true_iff in H. destruct H as [[_ B] H]. cbn [bnd] in B. apply negb_true_iff in B. apply orb_false_iff. split; [|eapply IH; eauto]. destruct (letter b) eqn:Lb; [apply letter_word in Lb; congruence|reflexivity].
  - cbn [andb orb]. eapply IH; eauto.
Qed.
Lemma in_letters c p q : letter c = true -> In c (letters (p ++ String c q)).
Proof. intros L. induction p as [|a p IH]; cbn [append letters]; [rewrite L; now left|]. destruct (letter a); [now right|exact IH]. Qed.
(** ** the statements *)
Lemma step_of_sound s kw x : apart s -> NoDup (map fst kw) ->
  (forall c t v, In (c, (t, v)) kw -> (exists p q, s = p ++ String c q) /\ letter c = true /\ literal t v /\ ((exists w, t = String "-" w) -> ~ base_of_power c s)) ->
  eval (env_of (vals kw)) s = Some x -> step_of s (texts kw) = Some x.
Proof.
  intros Ap Nd Hkw H. pose proof (apart_iso _ Ap) as Hi. unfold step_of, parse_k. rewrite (iso_adjacent _ _ Hi).
  destruct (fill_sound (letters s) kw s x Hi) as (s' & -> & E); auto.
  intros c t v Hin. destruct (Hkw c t v Hin) as ((p & q & E) & L & V & P). split; [rewrite E; now apply in_letters|]. repeat split; auto. intros Hw ts Hts. destruct (tpow c ts) eqn:Et; [|reflexivity]. exfalso. apply P; auto. apply bpow_spec. eapply (lex_bpow c (String.length s) s false ""); eauto.
Qed.
Lemma step_of_exact s kw : apart s -> (forall c t v, In (c, (t, v)) kw -> (exists p q, s = p ++ String c q) /\ letter c = true /\ number t = Some v) -> step_of s (texts kw) = eval (env_of (vals kw)) s.
Proof.
  intros Ap Hkw. pose proof (apart_iso _ Ap) as Hi. unfold step_of, parse_k. rewrite (iso_adjacent _ _ Hi).
  destruct (fill_exact (letters s) kw s Hi) as (s' & -> & E); auto.
  intros c t v Hin. destruct (Hkw c t v Hin) as ((p & q & E) & L & V). split; [rewrite E; now apply in_letters|]. auto.
Qed.
Lemma letters_occur c s : In c (letters s) -> exists p q, s = p ++ String c q.
Proof.
  induction s as [|a s IH]; [intros []|]. cbn [letters]. intros H. assert (D : a = c \/ In c (letters s)) by (destruct (letter a); [destruct H; auto|auto]).
  destruct D as [->|D]; [exists "", s; reflexivity|]. destruct (IH D) as (p & q & ->). exists (String a p), q. reflexivity.
Qed.
Lemma unknown_key s kw : (exists c t, In (c, t) kw /\ ~ (exists p q, s = p ++ String c q)) -> step_of s kw = None.
Proof.
  intros (c & t & Hin & Hn). unfold step_of. destruct (parse_k s) as [keys|] eqn:E; [|reflexivity]. unfold parse_k in E. destruct (adjacent s); [discriminate|]. injection E as <-.
  assert (W : forall kw s', In (c, t) kw -> fill (letters s) s' kw = None).
  { clear kw Hin. induction kw as [|[d u] kw IH]; intros s' H; [contradiction|]. cbn [fill]. destruct (existsb (Ascii.eqb d) (letters s)) eqn:Ex; [|reflexivity]. destruct H as [H|H]; [|auto]. injection H as -> ->. exfalso. apply Hn. apply existsb_exists in Ex as (y & Hy & E). apply Ascii.eqb_eq in E as <-. now apply letters_occur. }
  now rewrite W.
Qed.
Lemma adjacent_app p a b q : letter a = true -> letter b = true -> adjacent (p ++ String a (String b q)) = true.
Proof.
  intros La Lb. induction p as [|x p IH]; cbn [append]; [cbn [adjacent]; now rewrite La, Lb|]. destruct p as [|y p]; cbn [append adjacent] in *; rewrite IH; apply orb_true_r.
Qed.
Lemma neighbours s kw : (exists p a b q, s = p ++ String a (String b q) /\ letter a = true /\ letter b = true) -> step_of s kw = None.
Proof. intros (p & a & b & q & -> & La & Lb). unfold step_of, parse_k. now rewrite adjacent_app. Qed.

(** ** texts of integers *)
Lemma split_digits w : all_b digit w = true -> split "." w = [w].
Proof.
  intros H. apply split_no. intros X. assert (D : forall s, all_b digit s = true -> ~ In "."%char (list_ascii_of_string s)). { induction s as [|a s IH]; cbn; [tauto|]. rewrite andb_true_iff. intros [A B] [E|E]; [subst; discriminate|now apply IH]. } now apply (D w).
Qed.
Lemma to_uint_lead p u : Pos.to_uint p = Decimal.D0 u -> False.
Proof.
  intros E. pose proof (DecimalPos.Unsigned.to_uint_nonnil p) as N. pose proof (DecimalN.Unsigned.to_of (N.to_uint (Npos p))) as H. rewrite DecimalN.Unsigned.of_to in H. cbn [N.to_uint] in H. rewrite E in H.
  destruct (Decimal.uint_eq_dec u Decimal.Nil) as [->|Nu].
  - pose proof (DecimalPos.Unsigned.of_to p) as P. rewrite E in P. discriminate.
  - rewrite unorm_D0 in H by exact Nu. pose proof (nb_digits_unorm u Nu) as L. rewrite <- H in L. cbn in L. lia.
Qed.
Lemma number_nat z : (0 <= z)%Z -> number (str_z z) = Some (inject_Z z).
Proof.
  intros Hz. destruct z as [|p|p]; [reflexivity| |lia].
  assert (Es : str_z (Zpos p) = NilEmpty.string_of_uint (Pos.to_uint p)). { unfold str_z. cbn [Z.to_int NilZero.string_of_int NilZero.string_of_uint]. pose proof (DecimalPos.Unsigned.to_uint_nonnil p). destruct (Pos.to_uint p); congruence || reflexivity. }
  assert (Eu : NilEmpty.uint_of_string (str_z (Zpos p)) = Some (Pos.to_uint p)) by (rewrite Es; apply NilEmpty.usu).
  unfold number. rewrite split_digits by (eapply uint_digits; exact Eu). unfold int_literal, NilZero.uint_of_string.
  destruct (str_z (Zpos p)) as [|a s] eqn:E. { pose proof (DecimalPos.Unsigned.to_uint_nonnil p). injection Eu. congruence. }
  rewrite Eu. assert (V : Z.of_uint (Pos.to_uint p) = Zpos p) by (exact (DecimalZ.of_to (Zpos p))). rewrite V.
  assert (A : a <> "0"%char). { intros ->. symmetry in Es. pose proof (to_uint_lead p) as L. destruct (Pos.to_uint p) as [|d|d|d|d|d|d|d|d|d|d]; cbn in Es; try discriminate. eapply L. reflexivity. }
  destruct a as [[] [] [] [] [] [] [] []]; try reflexivity. congruence.
Qed.
Lemma literal_int z : literal (str_z z) (inject_Z z).
Proof.
  destruct (Z_le_gt_dec 0 z) as [H|H]; [left; eexists; split; [now apply number_nat|reflexivity]|]. right. exists (str_z (- z)), (inject_Z (- z)). split; [|split; [apply number_nat; lia|rewrite inject_Z_opp; destruct (inject_Z z) as [a b]; unfold Qopp; cbn; now rewrite Z.opp_involutive]].
  destruct z as [|p|p]; try lia. reflexivity.
Qed.
Lemma signed_int z : (exists w, str_z z = String "-" w) <-> (z < 0)%Z.
Proof.
  split.
  - intros [w E]. destruct z as [|p|p]; [discriminate| |lia]. exfalso. pose proof (number_nat (Zpos p) ltac:(lia)) as N. rewrite E in N. apply number_chars in N as [N _]. cbn [all_b] in N. discriminate.
  - destruct z as [|p|p]; try lia. intros _. eexists. reflexivity.
Qed.
(** ** whole and half steps of constant sequences *)
Lemma iso_apart s : iso false s = true -> apart s.
Proof.
  intros H p c q E L. subst s. assert (W : forall p b, iso b (p ++ String c q) = true -> (forall p' a, p = p' ++ String a "" -> word_char a = false) /\ (p = "" -> b = false) /\ bnd q = true).
  { clear H p. induction p as [|a p IH]; intros b H; cbn [append iso] in H.
    - rewrite L in H. rewrite !andb_true_iff in H. destruct H as [[Hb B] _]. split; [intros p' a E; destruct p'; discriminate|]. split; auto. intros _. now apply negb_true_iff in Hb.
    - assert (H' : iso (word_char a) (p ++ String c q) = true). { destruct (letter a) eqn:La; [|exact H]. rewrite !andb_true_iff in H. destruct H as [_ H]. now rewrite (letter_word _ La). }
      apply IH in H' as (H1 & H2 & H3). split; [|split; [discriminate|exact H3]]. intros p' x E. destruct p' as [|y p']; cbn [append] in E; injection E as -> E; [|eauto]. apply H2. exact E. }
  destruct (W p false H) as (H1 & _ & H3). split; [exact H1|]. intros a q' ->. cbn [bnd] in H3. now apply negb_true_iff in H3.
Qed.
Lemma k_step s z x : iso false s = true -> (exists p q, s = p ++ String "k" q) -> bpow "k" s = false -> eval (env_of [("k"%char, inject_Z z)]) s = Some x -> step_of s [("k"%char, str_z z)] = Some x.
Proof.
  intros Hi Ho Hb He. apply (step_of_sound s [("k"%char, (str_z z, inject_Z z))] x); auto.
  - now apply iso_apart.
  - constructor; [intros []|constructor].
  - intros c t v [E|[]]. injection E as <- <- <-. repeat split; auto using literal_int. intros _ (p & q & E). assert (W : forall p, bpow "k" (p ++ String "k" (String "*" (String "*" q))) = true). { induction p0 as [|a p0 IH]; cbn [append bpow]; [reflexivity|]. rewrite IH. apply orb_true_r. } rewrite E, W in Hb. discriminate.
Qed.
Lemma interval_dt t0 tmax n factor c z : new_cseq t0 tmax n factor = Some c -> (0 <= z <= c_kmax c + 1)%Z -> exists d, interval c "k-1" "k" [("k"%char, str_z z)] = Some d /\ (d == c_dt c)%Q.
Proof.
  intros Hc Hz. destruct (new_cseq_spec _ _ _ _ _ Hc) as (_ & Hf & _). pose proof (inj_pos _ Hf) as Fp. unfold interval, instant.
  rewrite (k_step "k-1" z (inject_Z z - 1)%Q eq_refl (ex_intro _ "" (ex_intro _ "-1" eq_refl)) eq_refl eq_refl). rewrite (k_step "k" z (inject_Z z) eq_refl (ex_intro _ "" (ex_intro _ "" eq_refl)) eq_refl eq_refl).
  assert (A : forall x, (-1 <= x <= c_kmax c + 1)%Z -> forall k, (k == inject_Z x)%Q -> cget c k = Some (c_t0 c + k * c_dt c)%Q).
  { intros x Hx k Ek. apply (cget_spec _ _ _ _ _ Hc). split; [reflexivity|]. pose proof (inj_le _ _ (proj1 Hx)) as L1. pose proof (inj_le _ _ (proj2 Hx)) as L2. rewrite inject_Z_plus in L2. change (inject_Z 1) with 1%Q in L2. change (inject_Z (-1)) with (-1)%Q in L1. split; [lra|]. split; [lra|].
    assert (E0 : (k == inject_Z x + inject_Z 0 / inject_Z factor)%Q) by (rewrite Ek; change (inject_Z 0) with 0%Q; field; lra).
    destruct (mod1_unique k x (inject_Z 0 / inject_Z factor) E0) as [M _]; [change (inject_Z 0) with 0%Q; unfold Qdiv; rewrite Qmult_0_l; lra|]. rewrite (round8_comp _ _ M). eapply allowed_frac; eauto. lia. }
  rewrite (A (z - 1)%Z ltac:(lia) (inject_Z z - 1)%Q) by (rewrite inj_sub; reflexivity). rewrite (A z ltac:(lia) (inject_Z z)) by reflexivity.
  pose proof (dt_pos _ _ _ _ _ Hc) as D. assert (Ed : (c_t0 c + inject_Z z * c_dt c - (c_t0 c + (inject_Z z - 1) * c_dt c) == c_dt c)%Q) by ring.
  assert (P : qlt 0 (c_t0 c + inject_Z z * c_dt c - (c_t0 c + (inject_Z z - 1) * c_dt c)) = true) by (apply qlt_spec; lra). rewrite P. eexists. split; [reflexivity|exact Ed].
Qed.
Lemma midpoint t0 tmax n factor c z : new_cseq t0 tmax n factor = Some c -> (factor mod 2 = 0)%Z -> (0 <= z <= c_kmax c + 1)%Z ->
  exists a m b, instant c "k-1" [("k"%char, str_z z)] = Some a /\ instant c "k-1/2" [("k"%char, str_z z)] = Some m /\ instant c "k" [("k"%char, str_z z)] = Some b /\ (m == (a + b) / 2)%Q.
Proof.
  intros Hc Hev Hz. destruct (new_cseq_spec _ _ _ _ _ Hc) as (_ & Hf & _). pose proof (inj_pos _ Hf) as Fp. unfold instant.
  rewrite (k_step "k-1" z (inject_Z z - 1)%Q eq_refl (ex_intro _ "" (ex_intro _ "-1" eq_refl)) eq_refl eq_refl). rewrite (k_step "k" z (inject_Z z) eq_refl (ex_intro _ "" (ex_intro _ "" eq_refl)) eq_refl eq_refl).
  rewrite (k_step "k-1/2" z (inject_Z z - 1 / 2)%Q eq_refl (ex_intro _ "" (ex_intro _ "-1/2" eq_refl)) eq_refl eq_refl).
  assert (A : forall x i k, (-1 <= x)%Z -> (x < c_kmax c + 1 \/ x = c_kmax c + 1 /\ i = 0)%Z -> (0 <= i < factor)%Z -> (k == inject_Z x + inject_Z i / inject_Z factor)%Q -> cget c k = Some (c_t0 c + k * c_dt c)%Q).
  { intros x i k H1 H2 Hi Ek. pose proof (frac_range _ _ _ _ _ Hc i Hi) as [G1 G2]. assert (G3 : (0 < 1 / inject_Z factor)%Q) by (apply Qlt_shift_div_l; lra).
    apply (cget_spec _ _ _ _ _ Hc). split; [reflexivity|]. pose proof (inj_le _ _ H1) as L1. change (inject_Z (-1)) with (-1)%Q in L1. split; [lra|]. split.
    - destruct H2 as [H2|[-> ->]]. + pose proof (inj_le (x + 1) (c_kmax c + 1) ltac:(lia)) as L2. rewrite !inject_Z_plus in L2. change (inject_Z 1) with 1%Q in L2. lra.
      + rewrite Ek. rewrite inject_Z_plus. change (inject_Z 0) with 0%Q. change (inject_Z 1) with 1%Q. unfold Qdiv. rewrite Qmult_0_l. lra.
    - destruct (mod1_unique k x _ Ek ltac:(lra)) as [M _]. rewrite (round8_comp _ _ M). eapply allowed_frac; eauto. }
  assert (Z0 : (inject_Z 0 / inject_Z factor == 0)%Q) by (change (inject_Z 0) with 0%Q; unfold Qdiv; now rewrite Qmult_0_l).
  rewrite (A (z - 1) 0 (inject_Z z - 1)%Q)%Z; [|lia|lia|lia|rewrite Z0, inj_sub; change (inject_Z 1) with 1%Q; lra]. rewrite (A z 0 (inject_Z z))%Z; [|lia|lia|lia|rewrite Z0; lra].
  rewrite (A (z - 1) (factor / 2) (inject_Z z - 1 / 2)%Q)%Z; [|lia|lia| |].
  - eexists _, _, _. do 3 (split; [reflexivity|]). field.
  - split; [apply Z.div_pos; lia|apply Z.div_lt; lia].
  - pose proof (Z.div_mod factor 2 ltac:(lia)) as Dm. rewrite Hev, Z.add_0_r in Dm. set (h := (factor / 2)%Z) in *. rewrite Dm, inject_Z_mult, inj_sub. change (inject_Z 2) with 2%Q. change (inject_Z 1) with 1%Q.
    rewrite Dm, inject_Z_mult in Fp. change (inject_Z 2) with 2%Q in Fp. field. lra.
Qed.
(** ** findings *)
Lemma power_of_negative : step_of "k**2" [("k"%char, str_z (-1))] = Some (-1)%Q /\ eval (env_of [("k"%char, (-1)%Q)]) "k**2" = Some 1%Q.
Proof. vm_compute. auto. Qed.
Lemma factor_in_front : step_of "2k" [("k"%char, str_z 3)] = Some 23%Q /\ eval (env_of [("k"%char, 3%Q)]) "2k" = None.
Proof. vm_compute. auto. Qed.
Lemma base_bpow c s : base_of_power c s -> bpow c s = true.
Proof. intros (p & q & ->). induction p as [|a p IH]; cbn [append bpow tpow_b]; [now rewrite Ascii.eqb_refl|]. rewrite IH. apply orb_true_r. Qed.
