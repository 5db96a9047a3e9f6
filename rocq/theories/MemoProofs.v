From Coq Require Import List ZArith QArith Qcanon Bool String Ascii DecimalString Decimal DecimalZ Lia Arith.
From Verif Require Import Dict MemoModel MemoSpec.
Import ListNotations.
Local Open Scope nat_scope.
Local Open Scope string_scope.
Local Open Scope list_scope.

(** ** memoising in general *)
Section MemoThms.
  Context {A R : Type}.
  Variable same : A -> A -> bool.
  Variable f : A -> option R.
  Lemma look_some (t : list (A * R)) a r : look same t a = Some r -> exists b, In (b, r) t /\ same b a = true.
  Proof. induction t as [|[b x] t IH]; cbn; [discriminate|]. destruct (same b a) eqn:E; [injection 1 as ->; eauto|]. intros H. destruct (IH H) as (c & ? & ?). eauto. Qed.
  Lemma look_none (t : list (A * R)) a : look same t a = None -> forall b r, In (b, r) t -> same b a = false.
  Proof. induction t as [|[b x] t IH]; cbn; [tauto|]. destruct (same b a) eqn:E; [discriminate|]. intros H c r [[= -> ->]|Hin]; eauto. Qed.
  Definition tinv (L : list A) (t : list (A * R)) : Prop := forall b r, In (b, r) t -> In b L /\ f b = Some r.
  Lemma call_right L t a : tinv L t -> let '(t', (r, _)) := memo_call same f t a in tinv (L ++ [a]) t' /\ exists b, In b (L ++ [a]) /\ (b = a \/ same b a = true) /\ r = f b.
  Proof.
    intros I. unfold memo_call. destruct (look same t a) as [r|] eqn:El.
    - apply look_some in El as (b & Hb & Hs). destruct (I b r Hb) as [HL Hf]. split; [intros c x Hc; destruct (I c x Hc); rewrite in_app_iff; auto|]. exists b. rewrite in_app_iff. auto.
    - destruct (f a) as [r|] eqn:Ef.
      + split; [|exists a; rewrite in_app_iff; cbn; auto]. intros c x Hc. rewrite in_app_iff in Hc |- *. destruct Hc as [Hc|[[= -> ->]|[]]]; [destruct (I c x Hc); auto|]. cbn. auto.
      + split; [intros c x Hc; destruct (I c x Hc); rewrite in_app_iff; auto|]. exists a. rewrite in_app_iff. cbn. auto.
  Qed.
  Lemma run_right l : forall L t, tinv L t -> forall l1 a l2, l = l1 ++ a :: l2 -> exists b, In b (L ++ l1 ++ [a]) /\ (b = a \/ same b a = true) /\ nth_error (map fst (snd (memo_run same f t l))) (List.length l1) = Some (f b).
  Proof.
    induction l as [|a l IH]; intros L t I l1 x l2 E; [now destruct l1|]. cbn [memo_run]. pose proof (call_right L t a I) as H. destruct (memo_call same f t a) as [t1 [r ev]]. destruct H as (I1 & b & Hb & Hs & ->).
    destruct (memo_run same f t1 l) as [t2 rs] eqn:Er. cbn [snd map fst]. destruct l1 as [|a' l1]; injection E as -> E.
    - exists b. cbn [nth_error List.length]. auto.
    - destruct (IH (L ++ [a']) t1 I1 l1 x l2 E) as (c & Hc & Hs' & Hn). rewrite Er in Hn. exists c. rewrite <- app_assoc in Hc. auto.
  Qed.
  Lemma run_length l : forall t, List.length (snd (memo_run same f t l)) = List.length l.
  Proof. induction l as [|a l IH]; intros t; cbn; auto. destruct (memo_call same f t a) as [t1 r]. specialize (IH t1). destruct (memo_run same f t1 l). cbn in *. auto. Qed.
  (** every call returns what the function gives for arguments with the same key, seen no later *)
  Lemma memo_values l l1 a l2 : l = l1 ++ a :: l2 -> exists b, In b (l1 ++ [a]) /\ (b = a \/ same b a = true) /\ nth_error (map fst (snd (memo_run same f [] l))) (List.length l1) = Some (f b).
  Proof. apply (run_right l [] []). intros b r []. Qed.
  Lemma memo_transparent l : (forall a b, In a l -> In b l -> same a b = true -> f a = f b) -> map fst (snd (memo_run same f [] l)) = map f l.
  Proof.
    intros H. apply nth_ext with (d := None) (d' := None); [rewrite !map_length; apply run_length|]. intros n Hn. rewrite map_length, run_length in Hn.
    destruct (nth_error l n) as [a|] eqn:En; [|apply nth_error_None in En; lia]. apply nth_error_split in En as (l1 & l2 & E & <-).
    destruct (memo_values l l1 a l2 E) as (b & Hb & Hs & Hr). rewrite (nth_error_nth _ _ _ Hr). rewrite (nth_error_nth (map f l) _ _ (x := f a)).
    - destruct Hs as [->|Hs]; auto. apply H; auto; subst l; rewrite in_app_iff in *; cbn in *; tauto.
    - subst l. rewrite map_app, nth_error_app2 by (rewrite map_length; lia). rewrite map_length, Nat.sub_diag. reflexivity.
  Qed.
  (** nothing is evaluated twice *)
  Hypothesis same_trans : forall a b c, same a b = true -> same b c = true -> same a c = true.
  Hypothesis same_refl : forall a r, f a = Some r -> same a a = true.
  Lemma run_once l : forall L t, (forall a r, In (a, r) L -> r <> None -> exists b x, In (b, x) t /\ same b a = true) ->
    forall l1 a l2, l = l1 ++ a :: l2 -> nth_error (map snd (snd (memo_run same f t l))) (List.length l1) = Some true ->
    forall b r, In (b, r) (L ++ combine l1 (map fst (snd (memo_run same f t l)))) -> r <> None -> same b a = false.
  Proof.
    induction l as [|a l IH]; intros L t I l1 x l2 E; [now destruct l1|]. cbn [memo_run]. destruct (memo_call same f t a) as [t1 [r ev]] eqn:Ec. destruct (memo_run same f t1 l) as [t2 rs] eqn:Er. cbn [snd map fst].
    destruct l1 as [|a' l1]; injection E as -> E; cbn [nth_error List.length combine].
    - intros [= ->] b r0 Hb Hr. rewrite app_nil_r in Hb. destruct (I b r0 Hb Hr) as (c & y & Hc & Hs). unfold memo_call in Ec. destruct (look same t x) as [z|] eqn:El; [congruence|].
      destruct (same b x) eqn:Eb; auto. rewrite <- (look_none _ _ El c y Hc). symmetry. eauto.
    - intros Hn b r0 Hb Hr. replace (L ++ (a', r) :: combine l1 (map fst rs)) with ((L ++ [(a', r)]) ++ combine l1 (map fst rs)) in Hb by now rewrite <- app_assoc.
      refine (IH (L ++ [(a', r)]) t1 _ l1 x l2 E _ b r0 _ Hr); [|rewrite Er; exact Hn|rewrite Er; exact Hb]. intros c y Hc Hy. unfold memo_call in Ec. rewrite in_app_iff in Hc. destruct (look same t a') as [z|] eqn:El.
      + injection Ec as <- <- <-. destruct Hc as [Hc|[[= <- <-]|[]]]; eauto. apply look_some in El as (d & ? & ?). eauto.
      + destruct (f a') as [z|] eqn:Ef.
        * injection Ec as <- <- <-. destruct Hc as [Hc|[[= <- <-]|[]]].
          -- destruct (I c y Hc Hy) as (d & w & ? & ?). exists d, w. rewrite in_app_iff. auto.
          -- exists a', z. rewrite in_app_iff. cbn. eauto.
        * injection Ec as <- <- <-. destruct Hc as [Hc|[[= <- <-]|[]]]; eauto. congruence.
  Qed.
  Lemma memo_once l l1 a l2 : l = l1 ++ a :: l2 -> nth_error (map snd (snd (memo_run same f [] l))) (List.length l1) = Some true ->
    forall b r, In (b, r) (combine l1 (map fst (snd (memo_run same f [] l)))) -> r <> None -> same b a = false.
  Proof. intros E H b r Hb. apply (run_once l [] [] ltac:(intros ? ? []) l1 a l2 E H b r). exact Hb. Qed.
End MemoThms.

(** ** texts of arguments *)
Definition all_chars (P : ascii -> bool) (s : string) : Prop := forall c, In c (list_ascii_of_string s) -> P c = true.
Lemma all_nil P : all_chars P "".
Proof. intros c []. Qed.
Lemma all_cons P c s : all_chars P (String c s) <-> P c = true /\ all_chars P s.
Proof. unfold all_chars. cbn. split; [intros H; split; auto|]. intros [H1 H2] d [<-|Hd]; auto. Qed.
Definition num_char (c : ascii) : bool := (Ascii.eqb c "-" || Ascii.eqb c "0" || Ascii.eqb c "1" || Ascii.eqb c "2" || Ascii.eqb c "3" || Ascii.eqb c "4" || Ascii.eqb c "5" || Ascii.eqb c "6" || Ascii.eqb c "7" || Ascii.eqb c "8" || Ascii.eqb c "9")%char.
Lemma uint_chars d : all_chars num_char (NilEmpty.string_of_uint d).
Proof. induction d; cbn; try apply all_nil; apply all_cons; auto. Qed.
Lemma str_z_chars z : all_chars num_char (str_z z).
Proof.
  unfold str_z, NilZero.string_of_int. destruct (Z.to_int z) as [d|d]; unfold NilZero.string_of_uint; [|apply all_cons; split; auto]; (destruct d; [apply all_cons; split; [auto|apply all_nil]|apply uint_chars..]).
Qed.
Lemma to_int_proper z : Z.to_int z <> Decimal.Pos Decimal.Nil /\ Z.to_int z <> Decimal.Neg Decimal.Nil.
Proof. destruct z; cbn; split; try discriminate; intros H; injection H as H; now apply DecimalPos.Unsigned.to_uint_nonnil in H. Qed.
Lemma str_z_inj a b : str_z a = str_z b -> a = b.
Proof.
  unfold str_z. intros H. apply to_int_inj. destruct (to_int_proper a), (to_int_proper b). pose proof (NilZero.isi (Z.to_int a)) as A. pose proof (NilZero.isi (Z.to_int b)) as B. rewrite H in A. rewrite B in A by auto. symmetry. injection A; auto.
Qed.
Lemma str_z_nonempty z : str_z z <> "".
Proof. unfold str_z, NilZero.string_of_int. destruct (Z.to_int z) as [d|d]; unfold NilZero.string_of_uint; [|discriminate]. destruct d; cbn; discriminate. Qed.
(** characters that do not occur in the text of a simple value *)
Definition free (c : ascii) : bool := (negb (Ascii.eqb c "," || Ascii.eqb c ")" || Ascii.eqb c "}" || Ascii.eqb c "'" || Ascii.eqb c " "))%char.
Lemma num_free c : num_char c = true -> free c = true.
Proof. unfold num_char. rewrite !orb_true_iff, !Ascii.eqb_eq. intuition subst; reflexivity. Qed.
Lemma text_simple v s : simple v -> str_pv v = Some s -> all_chars free s /\ s <> "".
Proof.
  destruct v as [z|[|]| | | |]; cbn; try tauto; intros _ [= <-]; try (split; [|discriminate]; intros c Hc; cbn in Hc; intuition subst; reflexivity).
  split; [intros c Hc; apply num_free; eapply str_z_chars; eauto|apply str_z_nonempty].
Qed.
Lemma str_z_first z c r : str_z z = String c r -> num_char c = true.
Proof. intros E. pose proof (str_z_chars z) as H. rewrite E in H. apply all_cons in H. tauto. Qed.
Lemma text_inj v w s : simple v -> simple w -> str_pv v = Some s -> str_pv w = Some s -> v = w.
Proof.
  destruct v as [z|[|]| | | |]; destruct w as [y|[|]| | | |]; cbn; try tauto; intros _ _ [= <-] [= E]; try discriminate; auto; try (symmetry in E; now apply str_z_first in E); try (now apply str_z_first in E).
  f_equal. symmetry. now apply str_z_inj.
Qed.
Lemma split_free P a : forall b x y r q, all_chars P a -> all_chars P b -> P x = false -> P y = false -> (a ++ String x r = b ++ String y q)%string -> a = b /\ x = y /\ r = q.
Proof.
  induction a as [|c a IH]; intros [|d b] x y r q Ha Hb Hx Hy E; cbn in E.
  - injection E as -> ->. auto.
  - injection E as -> E. apply all_cons in Hb. destruct Hb. congruence.
  - injection E as -> E. apply all_cons in Ha. destruct Ha. congruence.
  - injection E as -> E. apply all_cons in Ha. apply all_cons in Hb. destruct (IH b x y r q) as (-> & -> & ->); tauto.
Qed.
Lemma sapp_assoc a b c : ((a ++ b) ++ c = a ++ (b ++ c))%string.
Proof. induction a; cbn; congruence. Qed.
Ltac nrm E := repeat (first [rewrite sapp_assoc in E | progress (cbn [append] in E)]).
Definition texts (l : list string) : Prop := Forall (fun s => all_chars free s /\ s <> "") l.
Lemma join_inj (e : ascii) : free e = false -> e <> ","%char -> forall xs ys D D', texts xs -> texts ys -> xs <> [] -> ys <> [] ->
  (join ", " xs ++ String e D = join ", " ys ++ String e D')%string -> xs = ys /\ D = D'.
Proof.
  intros He Hc. induction xs as [|x xs IH]; intros [|y ys] D D' Hx Hy Nx Ny E; try congruence. clear Nx Ny. inversion Hx as [|? ? [Fx _] Hx']; inversion Hy as [|? ? [Fy _] Hy']; subst.
  destruct xs as [|x' xs]; destruct ys as [|y' ys].
  - cbn [join] in E. apply (split_free free) in E; auto. intuition congruence.
  - cbn [join] in E. rewrite sapp_assoc in E. cbn [append] in E. apply (split_free free) in E; auto. intuition congruence.
  - cbn [join] in E. rewrite sapp_assoc in E. cbn [append] in E. apply (split_free free) in E; auto. intuition congruence.
  - change (join ", " (x :: x' :: xs)) with (x ++ ", " ++ join ", " (x' :: xs))%string in E. change (join ", " (y :: y' :: ys)) with (y ++ ", " ++ join ", " (y' :: ys))%string in E.
    rewrite !sapp_assoc in E. cbn [append] in E. apply (split_free free) in E; auto. destruct E as (-> & _ & E). injection E as E. destruct (IH (y' :: ys) D D' Hx' Hy' ltac:(discriminate) ltac:(discriminate) E) as [-> ->]. auto.
Qed.
Lemma tuple_inj xs ys D D' : texts xs -> texts ys -> (str_tuple xs ++ D = str_tuple ys ++ D')%string -> xs = ys /\ D = D'.
Proof.
  intros Hx Hy E. unfold str_tuple in E. destruct xs as [|x [|x' xs]]; destruct ys as [|y [|y' ys]]; rewrite ?sapp_assoc in E; cbn [append join] in E; injection E as E.
  - auto.
  - exfalso. inversion Hy as [|? ? [Fy Ny] _]; subst. change (String ")" D) with ("" ++ String ")" D)%string in E. rewrite ?sapp_assoc in E. apply (split_free free) in E; auto using all_nil. intuition congruence.
  - exfalso. inversion Hy as [|? ? [Fy Ny] _]; subst. change (String ")" D) with ("" ++ String ")" D)%string in E. rewrite ?sapp_assoc in E. apply (split_free free) in E; auto using all_nil. intuition congruence.
  - exfalso. inversion Hx as [|? ? [Fy Ny] _]; subst. change (String ")" D') with ("" ++ String ")" D')%string in E. rewrite ?sapp_assoc in E. apply (split_free free) in E; auto using all_nil. intuition congruence.
  - inversion Hx as [|? ? [Fx _] _]; inversion Hy as [|? ? [Fy _] _]; subst. rewrite ?sapp_assoc in E. cbn [append] in E. apply (split_free free) in E; auto. destruct E as (-> & _ & E). injection E. auto.
  - exfalso. inversion Hx as [|? ? [Fx _] _]; inversion Hy as [|? ? [Fy _] _]; subst. rewrite ?sapp_assoc in E. cbn [append] in E. apply (split_free free) in E; auto. destruct E as (-> & _ & E). discriminate.
  - exfalso. inversion Hx as [|? ? [Fy Ny] _]; subst. change (String ")" D') with ("" ++ String ")" D')%string in E. rewrite ?sapp_assoc in E. apply (split_free free) in E; auto using all_nil. intuition congruence.
  - exfalso. inversion Hx as [|? ? [Fx _] _]; inversion Hy as [|? ? [Fy _] _]; subst. rewrite ?sapp_assoc in E. cbn [append] in E. apply (split_free free) in E; auto. destruct E as (-> & _ & E). discriminate.
  - exact (join_inj ")" eq_refl ltac:(discriminate) (x :: x' :: xs) (y :: y' :: ys) D D' Hx Hy ltac:(discriminate) ltac:(discriminate) E).
Qed.
Lemma no_quote_all s : no_quote s <-> all_chars (fun c => negb (Ascii.eqb c "'")) s.
Proof. induction s as [|c s IH]; cbn; [split; auto using all_nil|]. rewrite all_cons, IH, negb_true_iff, Ascii.eqb_neq. tauto. Qed.
Definition items (l : list (string * string)) : Prop := Forall (fun kv => no_quote (fst kv) /\ all_chars free (snd kv) /\ snd kv <> "") l.
Lemma dict_inj xs : forall ys, items xs -> items ys -> str_dict xs = str_dict ys -> xs = ys.
Proof.
  intros ys Hx Hy E. unfold str_dict in E. cbn [append] in E. injection E as E. revert ys Hx Hy E.
  induction xs as [|[k v] xs IH]; intros [|[k' v'] ys] Hx Hy E; auto.
  - exfalso. destruct ys; cbn in E; discriminate.
  - exfalso. destruct xs; cbn in E; discriminate.
  - inversion Hx as [|? ? (Fk & Fv & Nv) Hx']; inversion Hy as [|? ? (Fk' & Fv' & Nv') Hy']; subst. cbn [fst snd] in *. apply no_quote_all in Fk. apply no_quote_all in Fk'.
    destruct xs as [|kv xs]; destruct ys as [|kv' ys].
    + cbn [map join fst snd] in E. rewrite ?sapp_assoc in E. cbn [append] in E. injection E as E. nrm E. apply (split_free (fun c => negb (Ascii.eqb c "'"))) in E; auto. destruct E as (-> & _ & E). injection E as E. nrm E. apply (split_free free) in E; auto. destruct E as (-> & _). auto.
    + exfalso. cbn [map join fst snd] in E. rewrite ?sapp_assoc in E. cbn [append] in E. injection E as E. nrm E. apply (split_free (fun c => negb (Ascii.eqb c "'"))) in E; auto. destruct E as (-> & _ & E). injection E as E. rewrite ?sapp_assoc in E. cbn [append] in E. nrm E. apply (split_free free) in E; auto. destruct E as (_ & E & _). discriminate.
    + exfalso. cbn [map join fst snd] in E. rewrite ?sapp_assoc in E. cbn [append] in E. injection E as E. nrm E. apply (split_free (fun c => negb (Ascii.eqb c "'"))) in E; auto. destruct E as (-> & _ & E). injection E as E. rewrite ?sapp_assoc in E. cbn [append] in E. nrm E. apply (split_free free) in E; auto. destruct E as (_ & E & _). discriminate.
    + assert (G : forall J J', (((("'" ++ k ++ "': " ++ v) ++ ", " ++ J) ++ "}") = ((("'" ++ k' ++ "': " ++ v') ++ ", " ++ J') ++ "}"))%string -> k = k' /\ v = v' /\ (J ++ "}" = J' ++ "}")%string).
      { clear E. intros J J' E. nrm E. injection E as E. nrm E. apply (split_free (fun c => negb (Ascii.eqb c "'"))) in E; auto. destruct E as (-> & _ & E). injection E as E.
        apply (split_free free) in E; auto. destruct E as (-> & _ & E). injection E as E. auto. }
      apply (G (join ", " (map (fun kv => "'" ++ fst kv ++ "': " ++ snd kv)%string (kv :: xs))) (join ", " (map (fun kv => "'" ++ fst kv ++ "': " ++ snd kv)%string (kv' :: ys)))) in E. destruct E as (-> & -> & E). rewrite (IH (kv' :: ys)); auto.
Qed.
Lemma str_pvs_texts l : Forall simple l -> exists t, str_pvs l = Some t /\ texts t /\ List.length t = List.length l.
Proof.
  induction 1 as [|v l Hv Hl IH]; cbn; [exists []; repeat split; constructor|]. destruct IH as (t & E & Ht & El). destruct (str_pv v) as [s|] eqn:Es; [|destruct v as [|[|]| | | |]; cbn in *; tauto || discriminate].
  rewrite E. exists (s :: t). split; auto. split; [constructor; auto; eapply text_simple; eauto|]. cbn. auto.
Qed.
Lemma str_pvs_inj l : forall l' t, Forall simple l -> Forall simple l' -> str_pvs l = Some t -> str_pvs l' = Some t -> l = l'.
Proof.
  induction l as [|v l IH]; intros [|w l'] t Hl Hl' E E'; auto; cbn in E, E'.
  - destruct (str_pv w); [|discriminate]. destruct (str_pvs l'); congruence.
  - destruct (str_pv v); [|discriminate]. destruct (str_pvs l); congruence.
  - inversion Hl; inversion Hl'; subst. destruct (str_pv v) as [s|] eqn:Ev; [|discriminate]. destruct (str_pvs l) as [u|] eqn:El; [|discriminate]. destruct (str_pv w) as [s'|] eqn:Ew; [|discriminate]. destruct (str_pvs l') as [u'|] eqn:El'; [|discriminate].
    injection E as <-. injection E' as -> ->. f_equal; [eapply text_inj; eauto|eapply IH; eauto].
Qed.
Lemma combine_inj {A B} (k : list A) : forall k' (t t' : list B), List.length t = List.length k -> List.length t' = List.length k' -> combine k t = combine k' t' -> k = k' /\ t = t'.
Proof. induction k as [|a k IH]; intros [|b k'] [|x t] [|y t']; cbn; intros E E' H; try discriminate; auto. injection H as -> -> H. destruct (IH k' t t') as [-> ->]; auto. Qed.
Lemma key1_inj a b : simple_args a -> simple_args b -> key1 a = key1 b -> a = b.
Proof.
  destruct a as [xs ks], b as [ys ls]. intros [Hx Hk] [Hy Hl] E. unfold key1 in E. cbn [fst snd] in *.
  assert (Sk : Forall simple (map snd ks)) by (apply Forall_map; eapply Forall_impl; [|exact Hk]; cbn; tauto). assert (Sl : Forall simple (map snd ls)) by (apply Forall_map; eapply Forall_impl; [|exact Hl]; cbn; tauto).
  destruct (str_pvs_texts xs Hx) as (tx & Ex & Tx & _). destruct (str_pvs_texts ys Hy) as (ty & Ey & Ty & _). destruct (str_pvs_texts _ Sk) as (tk & Ek & Tk & Lk). destruct (str_pvs_texts _ Sl) as (tl & El & Tl & Ll).
  rewrite Ex, Ey, Ek, El in E. injection E as E. apply tuple_inj in E as [-> E]; auto. rewrite map_length in Lk, Ll.
  assert (It : forall (ks : list (string * pv)) tk, Forall (fun kv => no_quote (fst kv) /\ simple (snd kv)) ks -> texts tk -> List.length tk = List.length ks -> items (combine (map fst ks) tk)).
  { clear. induction ks as [|[k v] ks IH]; intros [|t tk] H T L; cbn in *; try discriminate; [constructor..|]. inversion H as [|? ? [? ?] ?]; inversion T; subst. constructor; auto. apply IH; auto. }
  apply dict_inj in E; [|apply It; auto..]. apply combine_inj in E as [E1 ->]; [|rewrite map_length; auto..].
  rewrite (str_pvs_inj _ _ _ Hx Hy Ex Ey). f_equal. pose proof (str_pvs_inj _ _ _ Sk Sl Ek El) as E2. clear -E1 E2. revert ls E1 E2. induction ks as [|[k v] ks IH]; intros [|[k' v'] ls] E1 E2; cbn in *; try discriminate; auto. injection E1 as -> E1. injection E2 as -> E2. f_equal; auto.
Qed.
Lemma memoize1_transparent {R} (f : arguments -> option R) l : Forall simple_args l -> map fst (snd (memo_run same1 f [] l)) = map f l.
Proof.
  intros H. apply memo_transparent. intros a b Ha Hb E. rewrite Forall_forall in H. unfold same1 in E. destruct (key1 a) as [x|] eqn:Ea; [|discriminate]. destruct (key1 b) as [y|] eqn:Eb; [|discriminate].
  apply String.eqb_eq in E as ->. f_equal. apply key1_inj; auto. congruence.
Qed.
Definition long (z : Z) : pv := PArr (repeat 0%Z 500 ++ [z] ++ repeat 0%Z 500).
Definition sum_arr (a : arguments) : option Z := match a with ([PArr l], []) => Some (fold_right Z.add 0%Z l) | _ => None end.
Lemma memoize1_arrays_refuted : exists a b, map fst (snd (memo_run same1 sum_arr [] [a; b])) <> map sum_arr [a; b].
Proof. exists ([long 0], []), ([long 1], []). vm_compute. discriminate. Qed.

(** ** tables keyed by equal values *)
Definition type_name (v : pv) : string := match v with PInt _ => "int" | PBool _ => "bool" | PNone => "NoneType" | PFloat _ => "float" | PStr _ => "str" | PArr _ => "ndarray" end.
Lemma memoize3_types_refuted : exists a b, map fst (snd (memo_run same3 (fun v => Some (type_name v)) [] [a; b])) <> map (fun v => Some (type_name v)) [a; b].
Proof. exists (PInt 1), (PFloat 1%Qc). vm_compute. discriminate. Qed.
Definition num_eqb (x y : Qc) : bool := if Qc_eq_dec x y then true else false.
Lemma num_eqb_spec x y : num_eqb x y = true <-> x = y.
Proof. unfold num_eqb. destruct (Qc_eq_dec x y); split; congruence. Qed.
(** equal python values: the same number, the same text, or None *)
Lemma pv_eqb_spec a b : pv_eqb a b = true <-> (exists q, number a = Some q /\ number b = Some q) \/ (a = PNone /\ b = PNone) \/ exists s, a = PStr s /\ b = PStr s.
Proof.
  unfold pv_eqb. destruct (number a) as [x|] eqn:Ea; destruct (number b) as [y|] eqn:Eb.
  - change (if Qc_eq_dec x y then true else false) with (num_eqb x y). rewrite num_eqb_spec. split; [intros ->; eauto|]. intros [(q & [= ->] & [= ->])|[[-> _]|(s & -> & _)]]; auto; discriminate.
  - split; [discriminate|]. intros [(q & _ & H)|[[-> _]|(s & -> & _)]]; discriminate.
  - split; [discriminate|]. intros [(q & H & _)|[[_ ->]|(s & _ & ->)]]; discriminate.
  - destruct a; try discriminate; destruct b; try discriminate; (split; [intros H|intros [(q & H & _)|[[? ?]|(s' & ? & ?)]]]); try discriminate; auto.
    + apply String.eqb_eq in H as ->. right. right. eauto.
    + apply String.eqb_eq. congruence.
Qed.
Lemma pv_eqb_trans a b c : pv_eqb a b = true -> pv_eqb b c = true -> pv_eqb a c = true.
Proof.
  rewrite !pv_eqb_spec. intros [(q & A & B)|[[-> ->]|(s & -> & ->)]] [(q' & A' & B')|[[E ->]|(s' & E & ->)]]; subst; try discriminate; auto.
  - left. exists q. split; congruence.
  - right. right. injection E as ->. eauto.
Qed.
Lemma pvs_eqb_trans a : forall b c, pvs_eqb a b = true -> pvs_eqb b c = true -> pvs_eqb a c = true.
Proof. induction a as [|x a IH]; intros [|y b] [|z c]; cbn; try discriminate; auto. rewrite !andb_true_iff. intros [? ?] [? ?]. split; eauto using pv_eqb_trans. Qed.
Lemma kw_in_spec x l : kw_in x l = true <-> exists y, In y l /\ fst x = fst y /\ pv_eqb (snd x) (snd y) = true.
Proof. unfold kw_in. rewrite existsb_exists. split; intros (y & H & E); exists y; rewrite andb_true_iff, String.eqb_eq in *; auto. Qed.
Lemma kws_eqb_trans a b c : kws_eqb a b = true -> kws_eqb b c = true -> kws_eqb a c = true.
Proof.
  unfold kws_eqb. rewrite !andb_true_iff, !forallb_forall. intros [A B] [C D]. split; intros x Hx; apply kw_in_spec.
  - destruct (proj1 (kw_in_spec _ _) (A x Hx)) as (y & Hy & E1 & E2). destruct (proj1 (kw_in_spec _ _) (C y Hy)) as (z & Hz & E3 & E4). exists z. split; auto. split; [congruence|eauto using pv_eqb_trans].
  - destruct (proj1 (kw_in_spec _ _) (D x Hx)) as (y & Hy & E1 & E2). destruct (proj1 (kw_in_spec _ _) (B y Hy)) as (z & Hz & E3 & E4). exists z. split; auto. split; [congruence|eauto using pv_eqb_trans].
Qed.
Lemma pvs_eqb_spec a : forall b, pvs_eqb a b = true <-> Forall2 (fun x y => pv_eqb x y = true) a b.
Proof.
  induction a as [|x a IH]; intros [|y b]; cbn [pvs_eqb]; split; intros H; try discriminate; try constructor; try (now inversion H).
  - apply andb_true_iff in H. tauto.
  - apply andb_true_iff in H. apply IH. tauto.
  - inversion H; subst. apply andb_true_iff. split; auto. now apply IH.
Qed.
Lemma same2_spec a b : same2 a b = true <-> fst a = fst b /\ Forall2 (fun x y => pv_eqb x y = true) (fst (snd a)) (fst (snd b)) /\
  (forall k v, In (k, v) (snd (snd a)) -> exists w, In (k, w) (snd (snd b)) /\ pv_eqb v w = true) /\ (forall k v, In (k, v) (snd (snd b)) -> exists w, In (k, w) (snd (snd a)) /\ pv_eqb v w = true).
Proof.
  unfold same2, kws_eqb, kw_in. rewrite !andb_true_iff, Nat.eqb_eq, pvs_eqb_spec, !forallb_forall.
  assert (Q : forall l m, (forall x : string * pv, In x l -> existsb (fun y => String.eqb (fst x) (fst y) && pv_eqb (snd x) (snd y)) m = true) <-> forall k v, In (k, v) l -> exists w, In (k, w) m /\ pv_eqb v w = true).
  { intros l m. split.
    - intros H k v Hk. specialize (H (k, v) Hk). apply existsb_exists in H as ([k' w] & Hw & E). cbn [fst snd] in E. apply andb_true_iff in E as [E1 E2]. apply String.eqb_eq in E1 as <-. eauto.
    - intros H [k v] Hk. destruct (H k v Hk) as (w & Hw & E). apply existsb_exists. exists (k, w). split; auto. cbn [fst snd]. now rewrite String.eqb_refl. }
  rewrite !Q. tauto.
Qed.
Lemma same2_trans a b c : same2 a b = true -> same2 b c = true -> same2 a c = true.
Proof. unfold same2. rewrite !andb_true_iff, !Nat.eqb_eq. intros [[? ?] ?] [[? ?] ?]. split; [split; [congruence|eauto using pvs_eqb_trans]|eauto using kws_eqb_trans]. Qed.

(** ** methods of objects *)
Section MethodThms.
  Context {R : Type}.
  Variable f : nat -> nat * arguments -> option R.
  Definition minv (L : list mop) (w : nat -> obj R) : Prop := forall o, o_frozen (w o) = frozen_after o L false /\
    match o_table (w o) with None => ~ used_before o L | Some t => used_before o L /\ tinv (f o) (flat_map (fun p => match p with Call_obj i a => if (i =? o)%nat then [a] else [] | _ => [] end) L) t end.
  Lemma frozen_after_app o l1 : forall l2 b, frozen_after o (l1 ++ l2) b = frozen_after o l2 (frozen_after o l1 b).
  Proof. induction l1 as [|[i|i|i a] l1 IH]; intros; cbn; auto. Qed.
  Lemma used_snoc o L p : used_before o (L ++ [p]) <-> used_before o L \/ (exists a, p = Call_obj o a) /\ frozen_after o L false = false.
  Proof.
    split.
    - intros (l1 & a & l2 & E & H). destruct l2 as [|x l2] using rev_ind.
      + apply app_inj_tail in E as [-> ->]. right. eauto.
      + rewrite app_comm_cons, app_assoc in E. apply app_inj_tail in E as [-> ->]. left. exists l1, a, l2. auto.
    - intros [(l1 & a & l2 & -> & H)|[(a & ->) H]].
      + exists l1, a, (l2 ++ [p]). rewrite <- app_assoc. auto.
      + exists L, a, []. auto.
  Qed.
  Lemma tinv_weaken (g : nat * arguments -> option R) L L' t : incl L L' -> tinv g L t -> tinv g L' t.
  Proof. intros H I b r Hb. destruct (I b r Hb). auto. Qed.
  Definition outcome_right (L : list mop) (p : mop) (r : mout R) : Prop :=
    match p with
    | Call_obj o a =>
        match r with
        | FrozenErr => frozen_after o L false = true /\ ~ used_before o L
        | Value v _ => (frozen_after o L false = false \/ used_before o L) /\ exists b, In (Call_obj o b) (L ++ [p]) /\ (b = a \/ same2 b a = true) /\ v = f o b
        | Silent => False
        end
    | _ => r = Silent
    end.
  Lemma in_calls o b L : In b (flat_map (fun p => match p with Call_obj i a => if (i =? o)%nat then [a] else [] | _ => [] end) L) <-> In (Call_obj o b) L.
  Proof.
    rewrite in_flat_map. split.
    - intros ([i|i|i a] & H & H1); cbn in H1; try tauto. destruct (i =? o)%nat eqn:E; [|destruct H1]. apply Nat.eqb_eq in E as ->. destruct H1 as [->|[]]. auto.
    - intros H. exists (Call_obj o b). split; auto. rewrite Nat.eqb_refl. now left.
  Qed.
  Lemma mstep_right L w p : minv L w -> let (w', r) := mstep f w p in minv (L ++ [p]) w' /\ outcome_right L p r.
  Proof.
    intros I. destruct p as [o|o|o a]; cbn [mstep].
    - split; [|reflexivity]. intros i. destruct (I i) as [A B]. rewrite frozen_after_app. cbn [frozen_after]. unfold set_obj. destruct (i =? o)%nat eqn:E.
      + apply Nat.eqb_eq in E as ->. cbn [o_frozen o_table]. rewrite Nat.eqb_refl. split; auto. destruct (o_table (w o)).
        * rewrite used_snoc. split; [tauto|]. eapply tinv_weaken; [|apply B]. intros x Hx. rewrite flat_map_app, in_app_iff. auto.
        * rewrite used_snoc. intros [?|[(a & E) _]]; [tauto|discriminate].
      + rewrite Nat.eqb_sym, E. split; auto. destruct (o_table (w i)).
        * rewrite used_snoc. split; [tauto|]. eapply tinv_weaken; [|apply B]. intros x Hx. rewrite flat_map_app, in_app_iff. auto.
        * rewrite used_snoc. intros [?|[(a & E') _]]; [tauto|discriminate].
    - split; [|reflexivity]. intros i. destruct (I i) as [A B]. rewrite frozen_after_app. cbn [frozen_after]. unfold set_obj. destruct (i =? o)%nat eqn:E.
      + apply Nat.eqb_eq in E as ->. cbn [o_frozen o_table]. rewrite Nat.eqb_refl. split; auto. destruct (o_table (w o)).
        * rewrite used_snoc. split; [tauto|]. eapply tinv_weaken; [|apply B]. intros x Hx. rewrite flat_map_app, in_app_iff. auto.
        * rewrite used_snoc. intros [?|[(a & E) _]]; [tauto|discriminate].
      + rewrite Nat.eqb_sym, E. split; auto. destruct (o_table (w i)).
        * rewrite used_snoc. split; [tauto|]. eapply tinv_weaken; [|apply B]. intros x Hx. rewrite flat_map_app, in_app_iff. auto.
        * rewrite used_snoc. intros [?|[(a & E') _]]; [tauto|discriminate].
    - unfold call_obj. destruct (I o) as [A B].
      assert (Other : forall x i, i <> o -> o_frozen (set_obj w o x i) = frozen_after i (L ++ [Call_obj o a]) false /\
         match o_table (set_obj w o x i) with None => ~ used_before i (L ++ [Call_obj o a]) | Some t => used_before i (L ++ [Call_obj o a]) /\ tinv (f i) (flat_map (fun p => match p with Call_obj j a => if (j =? i)%nat then [a] else [] | _ => [] end) (L ++ [Call_obj o a])) t end).
      { intros x i Hi. destruct (I i) as [C D]. unfold set_obj. apply Nat.eqb_neq in Hi as Hi'. rewrite Hi', frozen_after_app. cbn [frozen_after]. split; auto. destruct (o_table (w i)).
        - rewrite used_snoc. split; [tauto|]. eapply tinv_weaken; [|apply D]. intros y Hy. rewrite flat_map_app, in_app_iff. auto.
        - rewrite used_snoc. intros [?|[(b & E) _]]; [tauto|]. congruence. }
      destruct (o_table (w o)) as [t0|] eqn:Et.
      + destruct B as [B1 B2]. pose proof (call_right same2 (f o) _ t0 a B2) as H. destruct (memo_call same2 (f o) t0 a) as [t [r ev]]. destruct H as (I1 & b & Hb & Hs & Hr). cbn [fst snd]. split.
        * intros i. destruct (Nat.eq_dec i o) as [->|Hi]; [|apply Other; auto]. unfold set_obj. rewrite Nat.eqb_refl. cbn [o_frozen o_table]. rewrite frozen_after_app. cbn [frozen_after]. split; auto. rewrite used_snoc. split; auto.
          rewrite flat_map_app. cbn [flat_map]. rewrite Nat.eqb_refl, app_nil_r. exact I1.
        * unfold outcome_right. split; auto. exists b. split; auto. rewrite in_app_iff in Hb |- *. rewrite in_calls in Hb. destruct Hb as [?|[->|[]]]; auto. right. now left.
      + destruct (o_frozen (w o)) eqn:Ef.
        * split; [|unfold outcome_right; auto]. intros i. destruct (Nat.eq_dec i o) as [->|Hi].
          -- rewrite Et, Ef, frozen_after_app. cbn [frozen_after]. split; auto. rewrite used_snoc. intros [?|[_ ?]]; [tauto|congruence].
          -- specialize (Other (w o) i Hi). unfold set_obj in Other. apply Nat.eqb_neq in Hi as Hi'. rewrite Hi' in Other. exact Other.
        * assert (B2 : tinv (f o) (flat_map (fun p => match p with Call_obj j a => if (j =? o)%nat then [a] else [] | _ => [] end) L) []) by (intros x y []).
          pose proof (call_right same2 (f o) _ [] a B2) as H. destruct (memo_call same2 (f o) [] a) as [t [r ev]]. destruct H as (I1 & b & Hb & Hs & Hr). cbn [fst snd]. split.
          -- intros i. destruct (Nat.eq_dec i o) as [->|Hi]; [|apply Other; auto]. unfold set_obj. rewrite Nat.eqb_refl. cbn [o_frozen o_table]. rewrite frozen_after_app. cbn [frozen_after]. split; auto. rewrite used_snoc. split; [right; split; eauto|].
             rewrite flat_map_app. cbn [flat_map]. rewrite Nat.eqb_refl, app_nil_r. exact I1.
          -- unfold outcome_right. split; auto. exists b. split; auto. rewrite in_app_iff in Hb |- *. rewrite in_calls in Hb. destruct Hb as [?|[->|[]]]; auto. right. now left.
  Qed.
  Lemma mrun_right l : forall L w, minv L w -> forall l1 p l2, l = l1 ++ p :: l2 -> exists r, nth_error (snd (mrun f w l)) (List.length l1) = Some r /\ outcome_right (L ++ l1) p r.
  Proof.
    induction l as [|q l IH]; intros L w I l1 p l2 E; [now destruct l1|]. cbn [mrun]. pose proof (mstep_right L w q I) as H. destruct (mstep f w q) as [w1 r]. destruct H as [I1 Hr]. destruct (mrun f w1 l) as [w2 rs] eqn:Er.
    destruct l1 as [|q' l1]; injection E as -> E.
    - exists r. cbn. rewrite app_nil_r. auto.
    - destruct (IH (L ++ [q']) w1 I1 l1 p l2 E) as (r' & Hn & Ho). rewrite Er in Hn. exists r'. rewrite <- app_assoc in Ho. auto.
  Qed.
  Lemma methods_right l l1 o a l2 : (forall o a b, same2 a b = true -> f o a = f o b) -> l = l1 ++ Call_obj o a :: l2 ->
    exists r, nth_error (snd (mrun f new_objs l)) (List.length l1) = Some r /\
      match r with
      | FrozenErr => frozen_after o l1 false = true /\ ~ used_before o l1
      | Value v _ => (frozen_after o l1 false = false \/ used_before o l1) /\ v = f o a
      | Silent => False
      end.
  Proof.
    intros Hf E. assert (I : minv [] new_objs). { intros i. cbn. split; auto. intros (l3 & b & l4 & X & _). now destruct l3. }
    destruct (mrun_right l [] new_objs I l1 (Call_obj o a) l2 E) as (r & Hn & Ho). exists r. split; auto. cbn in Ho. destruct r as [|v ev|]; auto. destruct Ho as (A & b & _ & Hs & ->). split; auto. destruct Hs as [->|Hs]; auto.
  Qed.
End MethodThms.

(** ** frozen objects *)
Section FrozenThms.
  Context {V : Type} (T F : V) (truth : V -> bool).
  Variable class_names readonly : list string.
  Hypothesis HT : truth T = true.
  Hypothesis HF : truth F = false.
  Hypothesis Hro : ~ In FROZEN readonly.
  Notation attrs := (dict string V).
  Notation rest d := (filter (fun kv : string * V => negb (String.eqb (fst kv) FROZEN)) d).
  Lemma sin_spec s l : sin s l = true <-> In s l.
  Proof. unfold sin. rewrite existsb_exists. split; [intros (x & H & E); apply String.eqb_eq in E as ->; auto|]. intros H. exists s. split; auto. apply String.eqb_refl. Qed.
  Lemma rest_put_other (d : attrs) k v : k <> FROZEN -> rest (put String.eqb d k v) = put String.eqb (rest d) k v.
  Proof.
    intros H. induction d as [|[a b] d IH]; cbn [put filter fst snd keys map existsb negb orb].
    - destruct (String.eqb k FROZEN) eqn:E; [apply String.eqb_eq in E; contradiction|]. reflexivity.
    - destruct (String.eqb k a) eqn:E.
      + apply String.eqb_eq in E as <-. cbn [put filter fst snd keys map existsb negb orb]. destruct (String.eqb k FROZEN) eqn:E; [apply String.eqb_eq in E; contradiction|]. cbn [put filter fst snd keys map existsb negb orb]. now rewrite String.eqb_refl.
      + cbn [put filter fst snd keys map existsb negb orb]. rewrite IH. destruct (String.eqb a FROZEN) eqn:Ea; cbn [put filter fst snd keys map existsb negb orb]; auto. now rewrite E.
  Qed.
  Lemma rest_put_frozen (d : attrs) v : rest (put String.eqb d FROZEN v) = rest d.
  Proof.
    induction d as [|[a b] d IH]; cbn [put filter fst snd keys map existsb negb orb]; auto. destruct (String.eqb FROZEN a) eqn:E; cbn [put filter fst snd].
    - apply String.eqb_eq in E as <-. rewrite String.eqb_refl. reflexivity.
    - rewrite IH. reflexivity.
  Qed.
  Lemma rest_has (d : attrs) k : k <> FROZEN -> has String.eqb d k = existsb (String.eqb k) (keys (rest d)).
  Proof.
    intros H. unfold has, keys in *. induction d as [|[a b] d IH]; cbn [put filter fst snd map existsb negb orb]; auto. rewrite IH. destruct (String.eqb a FROZEN) eqn:Ea; cbn [put filter fst snd map existsb negb orb]; auto.
    apply String.eqb_eq in Ea as ->. destruct (String.eqb k FROZEN) eqn:E; [apply String.eqb_eq in E; contradiction|]. reflexivity.
  Qed.
  Lemma rest_del (d : attrs) k : rest (filter (fun kv => negb (String.eqb (fst kv) k)) d) = filter (fun kv => negb (String.eqb (fst kv) k)) (rest d).
  Proof. induction d as [|[a b] d IH]; cbn [put filter fst snd keys map existsb negb orb]; auto. destruct (String.eqb a k) eqn:E1; destruct (String.eqb a FROZEN) eqn:E2; cbn [put filter fst snd keys map existsb negb orb]; rewrite ?E1, ?E2; cbn [put filter fst snd keys map existsb negb orb]; rewrite ?IH; auto. Qed.
  Lemma get_del (d : attrs) k : k <> FROZEN -> get String.eqb (filter (fun kv => negb (String.eqb (fst kv) k)) d) FROZEN = get String.eqb d FROZEN.
  Proof.
    intros H. induction d as [|[a b] d IH]; cbn [get filter fst snd negb]; auto. destruct (String.eqb a k) eqn:E1; cbn [get filter fst snd negb]; [|rewrite IH; auto]. apply String.eqb_eq in E1 as ->. rewrite IH. destruct (String.eqb FROZEN k) eqn:E; auto. apply String.eqb_eq in E. congruence.
  Qed.
  Definition flag (d : attrs) : bool := match get String.eqb d FROZEN with Some v => truth v | None => false end.
  Lemma Seqb a b : String.eqb a b = true <-> a = b. Proof. apply String.eqb_eq. Qed.
  Lemma frozen_of_spec (d : attrs) : let (d1, fr) := frozen_of F truth d in fr = flag d /\ flag d1 = flag d /\ rest d1 = rest d /\ has String.eqb d1 FROZEN = true /\ (forall k, k <> FROZEN -> has String.eqb d1 k = has String.eqb d k).
  Proof.
    unfold frozen_of, flag. destruct (get String.eqb d FROZEN) as [v|] eqn:E.
    - repeat split; auto; try (now rewrite E). apply (has_spec String.eqb Seqb). apply (get_in String.eqb Seqb) in E. apply in_map_iff. exists (FROZEN, v). auto.
    - cbv beta iota zeta. rewrite (get_put String.eqb Seqb), String.eqb_refl. split; [exact HF|]. split; [exact HF|]. split; [apply rest_put_frozen|]. split.
      + apply (has_spec String.eqb Seqb). apply (in_keys_put String.eqb Seqb). auto.
      + intros k Hk. apply eq_true_iff_eq. rewrite !(has_spec String.eqb Seqb), (in_keys_put String.eqb Seqb). intuition congruence.
  Qed.
  Lemma setattr_frozen (d : attrs) v : setattr F truth class_names readonly d FROZEN v = (put String.eqb (fst (frozen_of F truth d)) FROZEN v, true).
  Proof.
    unfold setattr. pose proof (frozen_of_spec d) as H. destruct (frozen_of F truth d) as [d1 fr]. destruct H as (_ & _ & _ & -> & _). cbn [orb negb andb fst]. rewrite andb_false_r. unfold raw_set.
    destruct (sin FROZEN readonly) eqn:E; auto. apply sin_spec in E. contradiction.
  Qed.
  Lemma frun_expected l : forall d, Forall untouched l ->
    let (d', rs) := frun T F truth class_names readonly d l in (rest d', flag d', rs) = expected class_names readonly (rest d) (flag d) l.
  Proof.
    induction l as [|p l IH]; intros d H; cbn [frun]; [reflexivity|]. inversion H as [|? ? Hp Hl]; subst. destruct p as [k v|k| |]; cbn [fstep untouched] in *.
    - unfold setattr. pose proof (frozen_of_spec d) as S. destruct (frozen_of F truth d) as [d1 fr]. destruct S as (-> & Hf & Hr & _ & Hh). cbn [expected]. rewrite Hh, rest_has by auto. unfold may_set, raw_set, sin.
      set (x := existsb (String.eqb k) (keys (rest d))). set (y := existsb (String.eqb k) class_names). set (z := existsb (String.eqb k) readonly).
      assert (Keep : (let (d2, rs) := frun T F truth class_names readonly d1 l in (rest d2, flag d2, rs)) = expected class_names readonly (rest d) (flag d) l) by (specialize (IH d1 Hl); rewrite Hr, Hf in IH; destruct (frun T F truth class_names readonly d1 l); exact IH).
      destruct (flag d && negb (x || y)) eqn:E1.
      + replace ((negb (flag d) || x || y) && negb z) with false by (destruct (flag d), x, y; cbn in *; congruence). destruct (frun T F truth class_names readonly d1 l) as [d2 rs]. rewrite <- Keep. reflexivity.
      + destruct z.
        * rewrite andb_false_r. destruct (frun T F truth class_names readonly d1 l) as [d2 rs]. rewrite <- Keep. reflexivity.
        * replace ((negb (flag d) || x || y) && negb false) with true by (destruct (flag d), x, y; cbn in *; congruence). specialize (IH (put String.eqb d1 k v) Hl). rewrite rest_put_other, Hr in IH by auto.
          replace (flag (put String.eqb d1 k v)) with (flag d) in IH.
          2:{ rewrite <- Hf. unfold flag. rewrite (get_put String.eqb Seqb). destruct (String.eqb FROZEN k) eqn:E; auto. apply String.eqb_eq in E. congruence. }
          destruct (frun T F truth class_names readonly (put String.eqb d1 k v) l) as [d2 rs]. rewrite <- IH. reflexivity.
    - unfold delattr. rewrite rest_has by auto. cbn [expected]. destruct (existsb (String.eqb k) (keys (rest d))) eqn:E.
      + specialize (IH (filter (fun kv => negb (String.eqb (fst kv) k)) d) Hl). rewrite rest_del in IH. unfold flag in IH at 2. rewrite get_del in IH by auto. fold (flag d) in IH.
        destruct (frun T F truth class_names readonly _ l) as [d2 rs]. rewrite <- IH. reflexivity.
      + specialize (IH d Hl). replace (filter (fun kv => negb (String.eqb (fst kv) k)) (rest d)) with (rest d).
        * destruct (frun T F truth class_names readonly d l) as [d2 rs]. rewrite <- IH. reflexivity.
        * clear -E. induction (rest d) as [|[a b] q IHq]; cbn in *; auto. apply orb_false_iff in E as [E1 E2]. rewrite String.eqb_sym, E1. cbn [put filter fst snd keys map existsb negb orb]. f_equal. auto.
    - rewrite setattr_frozen. cbn [expected]. pose proof (frozen_of_spec d) as S. destruct (frozen_of F truth d) as [d1 fr]. destruct S as (-> & Hf & Hr & _ & Hh). cbn [fst]. specialize (IH (put String.eqb d1 FROZEN T) Hl).
      rewrite rest_put_frozen, Hr in IH. unfold flag in IH at 2. rewrite (get_put String.eqb Seqb), String.eqb_refl, HT in IH. destruct (frun T F truth class_names readonly _ l) as [d2 rs]. rewrite <- IH. reflexivity.
    - rewrite setattr_frozen. cbn [expected]. pose proof (frozen_of_spec d) as S. destruct (frozen_of F truth d) as [d1 fr]. destruct S as (-> & Hf & Hr & _ & Hh). cbn [fst]. specialize (IH (put String.eqb d1 FROZEN F) Hl).
      rewrite rest_put_frozen, Hr in IH. unfold flag in IH at 2. rewrite (get_put String.eqb Seqb), String.eqb_refl, HF in IH. destruct (frun T F truth class_names readonly _ l) as [d2 rs]. rewrite <- IH. reflexivity.
  Qed.
  (** no new names while frozen *)
  Lemma expected_names l : forall (d : attrs), Forall (fun p => p <> FMelt) l -> incl (keys (fst (fst (expected class_names readonly d true l)))) (keys d ++ class_names).
  Proof.
    induction l as [|p l IH]; intros d H; cbn [expected]; [cbn; intros x Hx; rewrite in_app_iff; auto|]. inversion H as [|? ? Hp Hl]; subst. destruct p as [k v|k| |]; try congruence.
    - destruct (may_set class_names readonly d true k) eqn:E.
      + specialize (IH (put String.eqb d k v) Hl). destruct (expected class_names readonly (put String.eqb d k v) true l) as [[d' b] rs]. cbn [fst] in *. intros x Hx. specialize (IH x Hx). rewrite in_app_iff, (in_keys_put String.eqb Seqb) in IH. rewrite in_app_iff.
        destruct IH as [[->|?]|?]; auto. unfold may_set in E. cbn [negb orb] in E. rewrite andb_true_iff, orb_true_iff, !existsb_exists in E. destruct E as [[(y & Hy & Ey)|(y & Hy & Ey)] _]; apply String.eqb_eq in Ey as ->; auto.
      + specialize (IH d Hl). destruct (expected class_names readonly d true l) as [[d' b] rs]. exact IH.
    - specialize (IH (filter (fun kv => negb (String.eqb (fst kv) k)) d) Hl). destruct (expected class_names readonly _ true l) as [[d' b] rs]. cbn [fst] in *. intros x Hx. specialize (IH x Hx). rewrite in_app_iff in *. destruct IH as [IH|]; auto. left. unfold keys in *. apply in_map_iff in IH as (y & <- & Hy). apply filter_In in Hy. apply in_map. tauto.
    - specialize (IH d Hl). destruct (expected class_names readonly d true l) as [[d' b] rs]. exact IH.
  Qed.
End FrozenThms.
Lemma frozen_names {V} (T F : V) truth class_names readonly l d v : truth T = true -> truth F = false -> ~ In FROZEN readonly -> Forall untouched l -> Forall (fun p => p <> FMelt) l ->
  get String.eqb d FROZEN = Some v -> truth v = true -> incl (keys (fst (frun T F truth class_names readonly d l))) (keys d ++ class_names).
Proof.
  intros HT HF Hro Hu Hm Hg Hv. pose proof (frun_expected T F truth class_names readonly HT HF Hro l d Hu) as H. destruct (frun T F truth class_names readonly d l) as [d' rs]. cbn [fst].
  replace (flag truth d) with true in H by (unfold flag; rewrite Hg; auto). set (r := filter (fun kv : string * V => negb (String.eqb (fst kv) FROZEN)) d) in *. pose proof (expected_names class_names readonly l r Hm) as H1. rewrite <- H in H1. cbn [fst] in H1.
  intros x Hx. rewrite in_app_iff. destruct (string_dec x FROZEN) as [->|Hn].
  - left. apply (get_in String.eqb Seqb) in Hg. apply in_map_iff. exists (FROZEN, v). auto.
  - assert (Hx' : In x (keys (filter (fun kv : string * V => negb (String.eqb (fst kv) FROZEN)) d'))).
    { apply in_map_iff in Hx as ((a & b) & <- & Hx). apply in_map_iff. exists (a, b). split; auto. apply filter_In. split; auto. apply negb_true_iff. apply String.eqb_neq. auto. }
    specialize (H1 x Hx'). rewrite in_app_iff in H1. destruct H1 as [H1|]; auto. left. apply in_map_iff in H1 as (y & <- & Hy). apply filter_In in Hy. apply in_map. tauto.
Qed.
