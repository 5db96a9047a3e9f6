From Coq Require Import List ZArith QArith Qround Bool String Ascii DecimalString Lia Lqa.
From Verif Require Import Dict MemoModel MemoProofs MiscModel MiscSpec.
Import ListNotations.
Local Open Scope Z_scope.
Local Open Scope string_scope.

(** ** texts *)
Lemma no_nil c : no_char c "". Proof. intros []. Qed.
Lemma no_cons c a s : no_char c (String a s) <-> a <> c /\ no_char c s.
Proof. unfold no_char. cbn. intuition. Qed.
Lemma chars_app s : forall t, list_ascii_of_string (s ++ t) = (list_ascii_of_string s ++ list_ascii_of_string t)%list.
Proof. induction s as [|a s IH]; intros t; cbn; [reflexivity|now rewrite IH]. Qed.
Lemma no_app c s t : no_char c (s ++ t) <-> no_char c s /\ no_char c t.
Proof. unfold no_char. rewrite chars_app, in_app_iff. tauto. Qed.
Lemma no_all P c s : all_chars P s -> P c = false -> no_char c s.
Proof. intros H E Hc. rewrite (H _ Hc) in E. discriminate. Qed.
Lemma split_no c s : no_char c s -> split c s = [s].
Proof. induction s as [|a s IH]; intros H; [reflexivity|]. apply no_cons in H as [H1 H2]. cbn [split]. destruct (Ascii.eqb_spec a c); [congruence|]. now rewrite (IH H2). Qed.
Lemma split_app c s r : no_char c s -> split c (s ++ String c r) = s :: split c r.
Proof.
  induction s as [|a s IH]; intros H; cbn [append split]; [now rewrite Ascii.eqb_refl|]. apply no_cons in H as [H1 H2]. destruct (Ascii.eqb_spec a c); [congruence|]. now rewrite (IH H2).
Qed.
Lemma cut_last_app s a : cut_last (s ++ String a "") = s.
Proof. induction s as [|b s IH]; [reflexivity|]. cbn [append cut_last]. rewrite IH. destruct s; reflexivity. Qed.
Lemma append_assoc s : forall t u, (s ++ t) ++ u = s ++ (t ++ u).
Proof. induction s as [|a s IH]; intros; cbn; [reflexivity|now rewrite IH]. Qed.
Lemma append_nil s : s ++ "" = s. Proof. induction s as [|a s IH]; cbn; congruence. Qed.
(** ** numbers *)
Lemma int_of_str z : int_of (str_z z) = Some z.
Proof. unfold int_of, str_z. destruct (to_int_proper z). rewrite NilZero.isi by auto. cbn. now rewrite DecimalZ.of_to. Qed.
Lemma uint_zeros k s u : NilEmpty.uint_of_string s = Some u -> NilEmpty.uint_of_string (zeros k ++ s) = Some (Nat.iter k Decimal.D0 u).
Proof. intros H. induction k as [|k IH]; [exact H|]. cbn [zeros append NilEmpty.uint_of_string]. rewrite IH. reflexivity. Qed.
Lemma of_uint_zeros k u : Z.of_uint (Nat.iter k Decimal.D0 u) = Z.of_uint u.
Proof. induction k as [|k IH]; [reflexivity|]. exact IH. Qed.
Lemma str_z_pos z : 0 <= z -> exists u, str_z z = NilZero.string_of_uint u /\ Z.of_uint u = z /\ u <> Decimal.Nil.
Proof.
  intros H. destruct z as [|p|p]; [exists (Decimal.D0 Decimal.Nil)|exists (Pos.to_uint p)|lia]; (split; [reflexivity|]); [split; [reflexivity|discriminate]|]. split; [|apply DecimalPos.Unsigned.to_uint_nonnil]. pose proof (DecimalZ.of_to (Zpos p)) as E. exact E.
Qed.
Lemma zeros_nat k z : 0 <= z -> int_of (zeros k ++ str_z z) = Some z /\ int_of ("-" ++ zeros k ++ str_z z) = Some (- z).
Proof.
  intros H. destruct (str_z_pos z H) as (u & E & Hu & Hn). rewrite E. unfold int_of.
  assert (Hs : NilEmpty.uint_of_string (NilZero.string_of_uint u) = Some u).
  { unfold NilZero.string_of_uint. destruct u; try congruence; apply NilEmpty.usu. }
  assert (Hne : NilZero.string_of_uint u <> "") by (unfold NilZero.string_of_uint; destruct u; cbn; discriminate).
  pose proof (uint_zeros k _ _ Hs) as Hz.
  assert (Hc : exists a r, zeros k ++ NilZero.string_of_uint u = String a r /\ a <> "-"%char).
  { destruct k; cbn; [|eexists _, _; split; [reflexivity|discriminate]]. destruct u; cbn; try congruence; eexists _, _; (split; [reflexivity|discriminate]). }
  destruct Hc as (a & r & Ea & Ha). rewrite Ea in Hz |- *. split.
  - unfold NilZero.int_of_string. destruct (Ascii.eqb_spec a "-"); [congruence|]. unfold NilZero.uint_of_string. rewrite Hz. cbn. now rewrite of_uint_zeros, Hu.
  - unfold NilZero.int_of_string. cbn [append]. rewrite Ascii.eqb_refl. unfold NilZero.uint_of_string. rewrite Hz. cbn. change (Z.of_uint (Nat.iter k Decimal.D0 u)) with (Z.of_uint (Nat.iter k Decimal.D0 u)). now rewrite of_uint_zeros, Hu.
Qed.
Lemma int_of_pad n z : int_of (pad n z) = Some z.
Proof. unfold pad. destruct (Z.ltb_spec z 0); [rewrite (proj2 (zeros_nat _ (- z) ltac:(lia))); f_equal; lia|apply zeros_nat; lia]. Qed.
Lemma zeros_chars k : all_chars num_char (zeros k).
Proof. induction k; cbn; [apply all_nil|]. apply all_cons. auto. Qed.
Lemma all_app P s t : all_chars P s -> all_chars P t -> all_chars P (s ++ t).
Proof. intros H1 H2 c. rewrite chars_app, in_app_iff. intros [?|?]; auto. Qed.
Lemma pad_chars n z : all_chars num_char (pad n z).
Proof. unfold pad. destruct (z <? 0)%Z; repeat apply all_app; auto using zeros_chars, str_z_chars. intros c [<-|[]]; reflexivity. Qed.
Lemma pad_no n z c : num_char c = false -> no_char c (pad n z).
Proof. intros H. eapply no_all; eauto using pad_chars. Qed.
Lemma str_no z c : num_char c = false -> no_char c (str_z z).
Proof. intros H. eapply no_all; eauto using str_z_chars. Qed.

(** ** seconds *)
Lemma trunc_Z z : trunc (inject_Z z) = z.
Proof. unfold trunc, inject_Z. cbn. apply Z.quot_1_r. Qed.
Lemma trunc_nonneg x : (0 <= x)%Q -> trunc x = Qfloor x.
Proof. intros H. unfold trunc, Qfloor. destruct x as [n d]. cbn. unfold Qle in H. cbn in H. apply Z.quot_div_nonneg; lia. Qed.
Lemma trunc_neg x : (x < 0)%Q -> trunc x = - Qfloor (- x).
Proof. intros H. unfold trunc, Qfloor. destruct x as [n d]. cbn. unfold Qlt in H. cbn in H. rewrite <- Z.quot_div_nonneg by lia. rewrite Z.quot_opp_l by lia. lia. Qed.
Lemma floor_unique x z : (inject_Z z <= x)%Q -> (x < inject_Z (z + 1))%Q -> Qfloor x = z.
Proof.
  intros H1 H2. pose proof (Qfloor_le x) as F1. pose proof (Qlt_floor x) as F2.
  assert (A : (inject_Z z < inject_Z (Qfloor x + 1))%Q) by (eapply Qle_lt_trans; eauto). assert (B : (inject_Z (Qfloor x) < inject_Z (z + 1))%Q) by (eapply Qle_lt_trans; eauto).
  rewrite <- Zlt_Qlt in A, B. lia.
Qed.
Lemma divmod_spec x m : 0 < m -> let (q, r) := divmod x m in (x == inject_Z m * inject_Z q + r)%Q /\ (0 <= r < inject_Z m)%Q.
Proof.
  intros Hm. unfold divmod. set (q := Qfloor (x / inject_Z m)). pose proof (Qfloor_le (x / inject_Z m)) as F1. pose proof (Qlt_floor (x / inject_Z m)) as F2. fold q in F1, F2.
  assert (P : (0 < inject_Z m)%Q) by (change 0%Q with (inject_Z 0); rewrite <- Zlt_Qlt; lia). assert (N : ~ (inject_Z m == 0)%Q) by (intros E; rewrite E in P; discriminate P).
  assert (E : (x == inject_Z m * (x / inject_Z m))%Q) by (rewrite Qmult_div_r; auto; reflexivity).
  split; [ring|]. split.
  - rewrite E at 1. assert (inject_Z m * inject_Z q <= inject_Z m * (x / inject_Z m))%Q by (apply Qmult_le_l; auto). lra.
  - rewrite inject_Z_plus in F2. rewrite E at 1. assert (inject_Z m * (x / inject_Z m) < inject_Z m * (inject_Z q + inject_Z 1))%Q by (apply Qmult_lt_l; auto). change (inject_Z 1) with 1%Q in H. lra.
Qed.
(** hours, minutes, seconds *)
Lemma fields x : let (minutes, seconds) := divmod x 60 in let (hours, minutes) := divmod (inject_Z minutes) 60 in
  0 <= trunc minutes < 60 /\ 0 <= trunc seconds < 60 /\ hours * 3600 + trunc minutes * 60 + trunc seconds = Qfloor x.
Proof.
  pose proof (divmod_spec x 60 ltac:(lia)) as D1. destruct (divmod x 60) as [m s]. pose proof (divmod_spec (inject_Z m) 60 ltac:(lia)) as D2. destruct (divmod (inject_Z m) 60) as [h m'].
  destruct D1 as (E1 & L1 & U1). destruct D2 as (E2 & L2 & U2). rewrite !trunc_nonneg by auto.
  assert (M' : (m' == inject_Z (m - 60 * h))%Q) by (unfold Z.sub; rewrite inject_Z_plus, inject_Z_opp, inject_Z_mult; lra).
  assert (Em' : Qfloor m' = m - 60 * h) by (rewrite (Qfloor_comp _ _ M'); apply Qfloor_Z).
  rewrite M' in L2, U2. change 0%Q with (inject_Z 0) in L2. rewrite <- Zle_Qle in L2. rewrite <- Zlt_Qlt in U2. rewrite Em'. split; [lia|].
  pose proof (Qfloor_le s) as F1. pose proof (Qlt_floor s) as F2. assert (S1 : 0 <= Qfloor s < 60).
  { split; [change 0 with (Qfloor 0); now apply Qfloor_resp_le|]. rewrite Zlt_Qlt. eapply Qle_lt_trans; eauto. }
  split; [exact S1|]. symmetry. apply floor_unique.
  - rewrite E1. replace (h * 3600 + (m - 60 * h) * 60 + Qfloor s) with (60 * m + Qfloor s) by ring. rewrite inject_Z_plus, inject_Z_mult. lra.
  - rewrite E1. replace (h * 3600 + (m - 60 * h) * 60 + Qfloor s + 1) with (60 * m + (Qfloor s + 1)) by ring. rewrite (inject_Z_plus (60 * m)), inject_Z_mult. lra.
Qed.
Ltac unapp := repeat (rewrite append_assoc; cbn [append]).
Lemma cut_three a b c : no_char ":" a -> no_char ":" b -> no_char ":" c ->
  split ":" (a ++ String ":" (b ++ String ":" c)) = [a; b; c].
Proof. intros. rewrite !split_app by auto. now rewrite split_no. Qed.
Lemma cut_four a b c d : no_char ":" a -> no_char ":" b -> no_char ":" c -> no_char ":" d ->
  split ":" (a ++ String ":" (b ++ String ":" (c ++ String ":" d))) = [a; b; c; d].
Proof. intros. rewrite !split_app by auto. now rewrite split_no. Qed.
Lemma cut_end3 a b c e : cut_last (a ++ String ":" (b ++ String ":" (c ++ String e ""))) = a ++ String ":" (b ++ String ":" c).
Proof.
  replace (a ++ String ":" (b ++ String ":" (c ++ String e ""))) with ((a ++ String ":" (b ++ String ":" c)) ++ String e ""); [apply cut_last_app|].
  rewrite append_assoc. cbn [append]. rewrite append_assoc. reflexivity.
Qed.
Lemma hms_fields x : exists h m s, split ":" (cut_last (tail (seconds2hms x))) = [pad 2 h; pad 2 m; pad 2 s] /\ 0 <= m < 60 /\ 0 <= s < 60 /\ h * 3600 + m * 60 + s = Qfloor x.
Proof.
  pose proof (fields x) as F. unfold seconds2hms. destruct (divmod x 60) as [m s]. destruct (divmod (inject_Z m) 60) as [h m']. exists h, (trunc m'), (trunc s). split; [|exact F].
  cbn [append tail]. rewrite cut_end3. apply cut_three; apply pad_no; reflexivity.
Qed.
Lemma hms_round x : hms2seconds (seconds2hms x) = Some (Qfloor x).
Proof. destruct (hms_fields x) as (h & m & s & E & _ & _ & F). unfold hms2seconds. rewrite E, !int_of_pad. now rewrite F. Qed.
Lemma day_floor x d : Qfloor (x - 86400 * inject_Z d) = Qfloor x - 86400 * d.
Proof.
  apply floor_unique.
  - pose proof (Qfloor_le x). unfold Z.sub. rewrite inject_Z_plus, inject_Z_opp, inject_Z_mult. change (inject_Z 86400) with 86400%Q. lra.
  - pose proof (Qlt_floor x). unfold Z.sub. replace (Qfloor x + - (86400 * d) + 1) with (Qfloor x + 1 + - (86400 * d)) by ring. rewrite inject_Z_plus, inject_Z_opp, inject_Z_mult. change (inject_Z 86400) with 86400%Q. lra.
Qed.
Lemma cut_end4 a b c d e : cut_last (a ++ String ":" (b ++ String ":" (c ++ String ":" (d ++ String e "")))) = a ++ String ":" (b ++ String ":" (c ++ String ":" d)).
Proof.
  replace (a ++ String ":" (b ++ String ":" (c ++ String ":" (d ++ String e "")))) with ((a ++ String ":" (b ++ String ":" (c ++ String ":" d))) ++ String e ""); [apply cut_last_app|].
  rewrite append_assoc. cbn [append]. rewrite append_assoc. cbn [append]. rewrite append_assoc. reflexivity.
Qed.
Lemma dhms_fields x : exists d h m s, split ":" (cut_last (tail (seconds2dhms x))) = [str_z d; pad 2 h; pad 2 m; pad 2 s] /\ 0 <= m < 60 /\ 0 <= s < 60 /\ d * 86400 + h * 3600 + m * 60 + s = Qfloor x /\ ((0 <= x)%Q -> 0 <= d /\ 0 <= h < 24).
Proof.
  unfold seconds2dhms. set (d := trunc (x / 86400)). set (y := (x - 86400 * inject_Z d)%Q). pose proof (fields y) as F. pose proof (divmod_spec y 60 ltac:(lia)) as D1. destruct (divmod y 60) as [m s]. pose proof (divmod_spec (inject_Z m) 60 ltac:(lia)) as D2. destruct (divmod (inject_Z m) 60) as [h m'].
  exists d, h, (trunc m'), (trunc s). destruct F as (F1 & F2 & F3). unfold y in F3. rewrite day_floor in F3. split; [|split; [auto|split; [auto|split; [lia|]]]].
  - cbn [append tail]. rewrite cut_end4. apply cut_four; try (apply pad_no; reflexivity). apply str_no. reflexivity.
  - intros Hx. assert (Hd : 0 <= d /\ 0 <= Qfloor x - 86400 * d < 86400).
    { assert (Hq : (0 <= x / 86400)%Q) by (unfold Qdiv; apply Qmult_le_0_compat; auto; discriminate). unfold d. rewrite trunc_nonneg by auto. pose proof (Qfloor_le (x / 86400)) as A. pose proof (Qlt_floor (x / 86400)) as B. set (k := Qfloor (x / 86400)) in *.
      assert (E : (x == 86400 * (x / 86400))%Q) by (rewrite Qmult_div_r; [reflexivity|discriminate]).
      split; [change 0 with (Qfloor 0); now apply Qfloor_resp_le|]. split.
      - assert (86400 * k <= Qfloor x); [|lia]. rewrite <- (Qfloor_Z (86400 * k)). apply Qfloor_resp_le. rewrite inject_Z_mult. change (inject_Z 86400) with 86400%Q. lra.
      - rewrite inject_Z_plus in B. change (inject_Z 1) with 1%Q in B. assert (Qfloor x < 86400 * k + 86400); [|lia]. rewrite Zlt_Qlt. eapply Qle_lt_trans; [apply Qfloor_le|]. rewrite inject_Z_plus, inject_Z_mult. change (inject_Z 86400) with 86400%Q. lra. }
    lia.
Qed.
Lemma dhms_round x : dhms2seconds (seconds2dhms x) = Some (Qfloor x).
Proof. destruct (dhms_fields x) as (d & h & m & s & E & _ & _ & F & _). unfold dhms2seconds. rewrite E, !int_of_pad, int_of_str. now rewrite F. Qed.
Lemma dhmsm_round x : (0 <= x)%Q -> exists y, dhmsm2seconds (seconds2dhmsm x) = Some y /\ (y == inject_Z (Qfloor (1000 * x)) / 1000)%Q.
Proof.
  intros Hx. unfold seconds2dhmsm. set (d := trunc (x / 86400)). set (y := (x - 86400 * inject_Z d)%Q). pose proof (fields y) as F. destruct (divmod y 60) as [m s]. destruct (divmod (inject_Z m) 60) as [h m']. destruct F as (_ & _ & F). unfold y in F. rewrite day_floor in F.
  set (ms := trunc ((x - inject_Z (trunc x)) * 1000)). unfold dhmsm2seconds.
  set (A := "[" ++ str_z d ++ ":" ++ pad 2 h ++ ":" ++ pad 2 (trunc m') ++ ":" ++ pad 2 (trunc s)).
  assert (E : "[" ++ str_z d ++ ":" ++ pad 2 h ++ ":" ++ pad 2 (trunc m') ++ ":" ++ pad 2 (trunc s) ++ "." ++ pad 3 ms ++ "]" = A ++ String "." (pad 3 ms ++ "]")).
  { unfold A. cbn [append]. rewrite append_assoc. cbn [append]. rewrite append_assoc. cbn [append]. rewrite append_assoc. cbn [append]. reflexivity. }
  rewrite E. rewrite split_app.
  2:{ unfold A. cbn [append]. apply no_cons. split; [discriminate|]. apply no_app. split; [apply str_no; reflexivity|]. repeat (apply no_cons; split; [discriminate|]; try (apply no_app; split); try (apply pad_no; reflexivity)). }
  rewrite split_no by (apply no_app; split; [apply pad_no; reflexivity|apply no_cons; split; [discriminate|apply no_nil]]).
  rewrite cut_last_app, int_of_pad. replace (split ":" (tail A)) with [str_z d; pad 2 h; pad 2 (trunc m'); pad 2 (trunc s)].
  2:{ symmetry. unfold A. cbn [append tail]. apply cut_four; try (apply pad_no; reflexivity). apply str_no. reflexivity. }
  rewrite !int_of_pad, int_of_str. eexists. split; [reflexivity|]. replace (d * 86400 + h * 3600 + trunc m' * 60 + trunc s) with (Qfloor x) by lia.
  assert (M : Qfloor (1000 * x) = 1000 * Qfloor x + ms).
  { unfold ms. rewrite trunc_nonneg.
    - rewrite trunc_nonneg by auto. set (k := Qfloor x). set (z := ((x - inject_Z k) * 1000)%Q). apply floor_unique.
      + pose proof (Qfloor_le z). rewrite inject_Z_plus, inject_Z_mult. change (inject_Z 1000) with 1000%Q. unfold z in *. lra.
      + pose proof (Qlt_floor z). replace (1000 * k + Qfloor z + 1) with (1000 * k + (Qfloor z + 1)) by ring. rewrite inject_Z_plus, inject_Z_mult. change (inject_Z 1000) with 1000%Q. unfold z in *. lra.
    - rewrite trunc_nonneg by auto. pose proof (Qfloor_le x). apply Qmult_le_0_compat; [lra|discriminate]. }
  rewrite M, inject_Z_plus, inject_Z_mult. change (inject_Z 1000) with 1000%Q. field.
Qed.
Lemma dhmsm_negative : exists x y, dhmsm2seconds (seconds2dhmsm x) = Some y /\ ~ (y == x)%Q /\ (x == inject_Z (Qfloor (1000 * x)) / 1000)%Q.
Proof. exists (-1 # 2)%Q. eexists. split; [vm_compute; reflexivity|]. split; [discriminate|reflexivity]. Qed.
