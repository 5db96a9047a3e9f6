(** Proofs about reading the texts of arrays: what is read is what was written. *)
From Coq Require Import Ascii String Bool Arith List Lia.
From Verif Require Import WfModel ProxyModel ProxySpec ProxyThms.
Import ListNotations.
Local Open Scope string_scope.
Local Open Scope list_scope.
Infix "+++" := String.append (right associativity, at level 60).

Lemma app_assoc_s a b c : (a +++ b) +++ c = a +++ b +++ c.
Proof. induction a; cbn; congruence. Qed.
Lemma app_nil_s a : a +++ "" = a.
Proof. induction a; cbn; congruence. Qed.
Lemma app_inv_s a b c : a +++ b = a +++ c -> b = c.
Proof. induction a; cbn; intro H; [exact H|]. injection H as H. auto. Qed.
Lemma app_len_s a b : String.length (a +++ b) = String.length a + String.length b.
Proof. induction a; cbn; congruence. Qed.
Lemma app_inv_tail_s c : forall a b, a +++ String c "" = b +++ String c "" -> a = b.
Proof.
  induction a as [|x a IH]; intros [|y b] H; cbn in H; auto.
  - injection H as _ H. destruct b; discriminate.
  - injection H as _ H. destruct a; discriminate.
  - injection H as -> H. f_equal. auto.
Qed.

Fixpoint cnt (a : ascii) (s : string) : nat :=
  match s with EmptyString => 0 | String b r => (if Ascii.eqb a b then 1 else 0) + cnt a r end.
Lemma cnt_app a s t : cnt a (s +++ t) = cnt a s + cnt a t.
Proof. induction s; cbn; [reflexivity|]. rewrite IHs. lia. Qed.
Fixpoint last_char (s : string) (d : ascii) : ascii := match s with EmptyString => d | String a r => last_char r a end.
Lemma last_char_app s a t d : last_char (s +++ String a t) d = last_char t a.
Proof. revert d. induction s; intro d; cbn; auto. Qed.

(* ---------------------------------------------------------------- splitting *)

Lemma prefix_app s t : String.prefix s (s +++ t) = true.
Proof. induction s as [|a s IH]; cbn; [destruct t; reflexivity|]. destruct (ascii_dec a a); [exact IH|contradiction]. Qed.
Lemma prefix_split s t : String.prefix s t = true -> exists r, t = s +++ r.
Proof.
  revert t. induction s as [|a s IH]; intros t H; [exists t; reflexivity|].
  destruct t as [|b t]; [discriminate|]. cbn in H. destruct (ascii_dec a b) as [->|]; [|discriminate].
  destruct (IH _ H) as [r ->]. exists r. reflexivity.
Qed.
Lemma has_app sep x y : has sep (x +++ sep +++ y) = true.
Proof.
  induction x as [|a x IH].
  - cbn [String.append]. destruct (sep +++ y) as [|b t] eqn:E.
    + destruct sep; [reflexivity|discriminate].
    + cbn [has]. rewrite <- E, prefix_app. reflexivity.
  - cbn [String.append has]. rewrite IH. apply orb_true_r.
Qed.
Lemma split_skip sep u s : split_from (String.length u) sep (u +++ s) = split_from 0 sep s.
Proof. induction u as [|a u IH]; cbn; auto. Qed.
Lemma split_nonempty sep s : forall k, split_from k sep s <> [].
Proof.
  induction s as [|a s IH]; intros k; cbn [split_from]; [discriminate|]. destruct k; [|apply IH].
  destruct (String.prefix sep (String a s)); [discriminate|]. destruct (split_from 0 sep s); discriminate.
Qed.
Lemma split_at sep a s : sep <> "" -> String.prefix sep (String a s) = true ->
  exists t, String a s = sep +++ t /\ split_on sep (String a s) = "" :: split_on sep t.
Proof.
  intros Hs H. destruct (prefix_split _ _ H) as [t E]. exists t. split; [exact E|].
  unfold split_on. cbn [split_from]. rewrite H. f_equal.
  destruct sep as [|b sep]; [congruence|]. cbn in E. injection E as -> ->.
  cbn [String.length]. rewrite Nat.sub_succ, Nat.sub_0_r. apply split_skip.
Qed.
Lemma join_split sep s : sep <> "" -> join sep (split_on sep s) = s.
Proof.
  intro Hs. remember (String.length s) as n eqn:E. revert s E. induction n as [n IH] using lt_wf_ind; intros s ->.
  destruct s as [|a s]; [reflexivity|].
  destruct (String.prefix sep (String a s)) eqn:Hp.
  - destruct (split_at sep a s Hs Hp) as [t [E1 E2]]. rewrite E2, E1.
    pose proof (split_nonempty sep t 0) as Hn. fold (split_on sep t) in Hn.
    cbn [join]. destruct (split_on sep t) as [|h l] eqn:El; [congruence|]. cbn [String.append]. f_equal.
    rewrite <- El. apply (IH (String.length t)); [|reflexivity].
    rewrite E1, app_len_s. destruct sep; [congruence|cbn; lia].
  - unfold split_on. cbn [split_from]. rewrite Hp. fold (split_on sep s).
    pose proof (IH (String.length s) (Nat.lt_succ_diag_r _) s eq_refl) as H.
    destruct (split_on sep s) as [|h [|k l]]; cbn [join] in *.
    + subst s. reflexivity.
    + cbn. congruence.
    + cbn [String.append]. f_equal. exact H.
Qed.
Lemma split_none sep s : has sep s = false -> split_on sep s = [s].
Proof.
  induction s as [|a s IH]; intro H; [reflexivity|].
  cbn [has] in H. apply orb_false_iff in H. destruct H as [H1 H2]. specialize (IH H2).
  unfold split_on in *. cbn [split_from]. rewrite H1, IH. reflexivity.
Qed.

(** no c0 followed by c1, and no c0 at the end *)
Fixpoint nop (c0 c1 : ascii) (s : string) : Prop :=
  match s with
  | EmptyString => True
  | String a r => (a = c0 -> match r with String b _ => b <> c1 | EmptyString => False end) /\ nop c0 c1 r
  end.
Lemma nop_app c0 c1 s t : nop c0 c1 s -> nop c0 c1 t -> nop c0 c1 (s +++ t).
Proof.
  induction s as [|a s IH]; intros H1 H2; [exact H2|]. destruct H1 as [H0 H1]. cbn. split; [|auto].
  intro E. specialize (H0 E). destruct s; [contradiction|exact H0].
Qed.
Lemma nop_prefix c0 c1 sep a s t : nop c0 c1 (String a s) -> String.prefix (String c0 (String c1 sep)) (String a s +++ t) = false.
Proof.
  intros [H _]. cbn. destruct (ascii_dec c0 a) as [E|]; [|reflexivity]. specialize (H (eq_sym E)).
  destruct s as [|b s]; [contradiction|]. cbn. destruct (ascii_dec c1 b); [congruence|reflexivity].
Qed.
Lemma nop_has c0 c1 sep s t : nop c0 c1 s -> has (String c0 (String c1 sep)) (s +++ t) = has (String c0 (String c1 sep)) t.
Proof.
  induction s as [|a s IH]; intro H; [reflexivity|].
  pose proof (nop_prefix c0 c1 sep a s t H) as Hp. cbn [String.append] in *. cbn [has]. rewrite Hp. cbn [orb].
  apply IH. apply H.
Qed.
Lemma nop_split c0 c1 sep s t : nop c0 c1 s ->
  split_on (String c0 (String c1 sep)) (s +++ String c0 (String c1 sep) +++ t) = s :: split_on (String c0 (String c1 sep)) t.
Proof.
  set (S := String c0 (String c1 sep)). induction s as [|a s IH]; intro H.
  - cbn [String.append]. destruct (split_at S c0 (String c1 sep +++ t)) as [t' [E1 E2]].
    + discriminate.
    + change (String c0 (String c1 sep +++ t)) with (S +++ t). apply prefix_app.
    + change (String c0 (String c1 sep +++ t)) with (S +++ t) in E1, E2. rewrite E2. apply app_inv_s in E1. subst t'. reflexivity.
  - pose proof (nop_prefix c0 c1 sep a s (S +++ t) H) as Hp. fold S in Hp. cbn [String.append] in Hp |- *.
    unfold split_on. cbn [split_from]. rewrite Hp.
    assert (Hs : split_from 0 S (s +++ S +++ t) = s :: split_on S t) by (apply IH; apply H).
    rewrite Hs. reflexivity.
Qed.

Section Texts.
  Context (array_name : root -> string) (scalar_name : nat -> string).
  Context (ok : names_ok array_name scalar_name).
  Notation root_lin := (root_lin array_name).
  Notation par_lin := (par_lin scalar_name).
  Notation scalar_lin := (scalar_lin scalar_name).
  Notation comp_lin := (comp_lin array_name).
  Notation arr_lin := (arr_lin array_name scalar_name).

  Lemma legal_nop_bs s : legal s -> nop "\" "{" s.
  Proof. induction s as [|a s IH]; cbn; [auto|]. intros [[_ [_ [H _]]] Hs]. split; [congruence|auto]. Qed.
  Lemma legal_nop_sp s b t : legal s -> b <> "\"%char -> nop " " "\" (String b t) -> nop " " "\" (s +++ String b t).
  Proof.
    intros Hs Hb Ht. induction s as [|a s IH]; [exact Ht|]. destruct Hs as [_ Hs]. cbn [String.append]. split; [|auto].
    intros _. destruct s as [|c s]; [exact Hb|]. destruct Hs as [[_ [_ [H _]]] _]. exact H.
  Qed.
  Lemma legal_cnt a s : legal s -> (a = "}" \/ a = "$")%char -> cnt a s = 0.
  Proof.
    intros Hs Ha. induction s as [|b s IH]; [reflexivity|]. destruct Hs as [[_ [H1 [_ H2]]] Hs]. cbn.
    rewrite (IH Hs). destruct (Ascii.eqb_spec a b); [|reflexivity]. destruct Ha; congruence.
  Qed.
  Ltac nops := repeat first [split; [congruence || (intros _; discriminate)|] | exact I].

  Lemma root_nop r : nop "\" "{" (root_lin r).
  Proof.
    unfold ProxyModel.root_lin. apply nop_app; [cbn; nops|]. apply nop_app; [apply legal_nop_bs; apply ok|cbn; nops].
  Qed.
  Lemma par_nop c : nop "\" "{" (par_lin c).
  Proof.
    unfold ProxyModel.par_lin. apply nop_app; [cbn; nops|]. apply nop_app; [apply legal_nop_bs; apply ok|cbn; nops].
  Qed.
  Lemma scalar_nop f : nop "\" "{" (scalar_lin f).
  Proof.
    induction f as [|c|a IHa b IHb|a IHa b IHb]; cbn [ProxyModel.scalar_lin].
    - cbn; nops.
    - apply par_nop.
    - apply nop_app; [exact IHa|]. apply nop_app; [cbn; nops|exact IHb].
    - apply nop_app; [exact IHa|]. apply nop_app; [cbn; nops|exact IHb].
  Qed.
  Definition is_root_scalar (f : scalar) : Prop := match f with One | Par _ => True | _ => False end.
  Lemma rootscalar_nop f : is_root_scalar f -> nop " " "\" (scalar_lin f).
  Proof.
    destruct f; try contradiction; intros _; cbn [ProxyModel.scalar_lin].
    - cbn; nops.
    - unfold ProxyModel.par_lin. apply nop_app; [cbn; nops|]. apply legal_nop_sp; [apply ok|discriminate|cbn; nops].
  Qed.
  Lemma comp_nop c : nop "\" "{" (comp_lin c).
  Proof.
    unfold ProxyModel.comp_lin. destruct (snd c); [apply nop_app; [|cbn; nops]|]; apply root_nop.
  Qed.

  (* -------------------------------------------------------------- components *)

  Lemma root_lin_inj r q : root_lin r = root_lin q -> r = q.
  Proof. unfold ProxyModel.root_lin. intro H. apply app_inv_s in H. apply app_inv_tail_s in H. apply ok. exact H. Qed.
  Lemma par_lin_inj c d : par_lin c = par_lin d -> c = d.
  Proof. unfold ProxyModel.par_lin. intro H. apply app_inv_s in H. apply app_inv_tail_s in H. apply ok. exact H. Qed.
  Lemma substring_all s : substring 0 (String.length s) s = s.
  Proof. induction s; cbn; congruence. Qed.
  Lemma substring_tail x t : substring (String.length x) (String.length t) (x +++ t) = t.
  Proof. induction x; [apply substring_all|]. exact IHx. Qed.
  Lemma substring_head x t : substring 0 (String.length x) (x +++ t) = x.
  Proof. induction x; cbn; [destruct t; reflexivity|]. congruence. Qed.
  Lemma substring_split s n : n <= String.length s -> s = substring 0 n s +++ substring n (String.length s - n) s.
  Proof.
    revert n. induction s as [|a s IH]; intros [|n] H; cbn in *; try lia; auto.
    - f_equal. rewrite substring_all. reflexivity.
    - f_equal. apply IH. lia.
  Qed.
  Lemma ends_app x t : ends_text t (x +++ t) = true.
  Proof.
    unfold ends_text. rewrite app_len_s, Nat.add_sub, substring_tail, String.eqb_refl. cbn.
    apply Nat.leb_le. lia.
  Qed.
  Lemma cut_app x t : cut t (x +++ t) = x.
  Proof. unfold cut. rewrite app_len_s, Nat.add_sub. apply substring_head. Qed.
  Lemma ends_split t s : ends_text t s = true -> exists x, s = x +++ t.
  Proof.
    unfold ends_text. rewrite andb_true_iff, String.eqb_eq, Nat.leb_le. intros [H Hl].
    exists (substring 0 (String.length s - String.length t) s).
    pose proof (substring_split s (String.length s - String.length t) ltac:(lia)) as E.
    replace (String.length s - (String.length s - String.length t)) with (String.length t) in E by lia.
    rewrite H in E. exact E.
  Qed.
  Lemma root_not_transposed r : ends_text transpose_text (root_lin r) = false.
  Proof.
    destruct (ends_text transpose_text (root_lin r)) eqn:E; [|reflexivity]. apply ends_split in E. destruct E as [x E].
    assert (H : last_char (root_lin r) " " = last_char (x +++ transpose_text) " ") by congruence.
    unfold transpose_text in H. rewrite last_char_app in H. unfold ProxyModel.root_lin in H.
    rewrite <- app_assoc_s, last_char_app in H. discriminate.
  Qed.
  Context (scalars : list nat) (arrays : list root).
  Notation read_comp := (read_comp array_name arrays).
  Notation find_scalar := (find_scalar scalar_name scalars).
  Notation factor_parser := (factor_parser scalar_name scalars).
  Notation read_arr := (read_arr array_name scalar_name scalars arrays).

  Notation comp_known := (ProxySpec.comp_known arrays).
  Lemma find_root r : find (fun q => String.eqb (root_lin q) (root_lin r)) arrays = Some r <-> In r arrays.
  Proof.
    split.
    - intro H. apply find_some in H. apply H.
    - intro H. destruct (find _ arrays) as [q|] eqn:E.
      + apply find_some in E. destruct E as [_ E]. apply String.eqb_eq in E. apply root_lin_inj in E. congruence.
      + exfalso. pose proof (find_none _ _ E r H) as Hf. cbn in Hf. rewrite String.eqb_refl in Hf. discriminate.
  Qed.
  Lemma read_comp_lin c : read_comp (comp_lin c) =
    match find (fun q => String.eqb (root_lin q) (root_lin (fst c))) arrays with
    | Some r => match r, snd c with Vec _, true => None | _, _ => Some (r, snd c) end
    | None => None
    end.
  Proof.
    destruct c as [r [|]]; unfold ProxyModel.read_comp, ProxyModel.comp_lin; cbn [fst snd].
    - rewrite ends_app, cut_app. reflexivity.
    - rewrite root_not_transposed. destruct (find _ arrays) as [[]|]; reflexivity.
  Qed.
  Lemma read_comp_iff c c' : read_comp (comp_lin c) = Some c' <-> c' = c /\ comp_known c.
  Proof.
    rewrite read_comp_lin. destruct c as [r t]. unfold ProxySpec.comp_known. cbn [fst snd]. split.
    - destruct (find _ arrays) as [q|] eqn:E; [|discriminate].
      pose proof (find_some _ _ E) as [Hin Hq]. apply String.eqb_eq in Hq. apply root_lin_inj in Hq. subst q.
      intro H. assert (c' = (r, t)) by (destruct r, t; congruence). split; [assumption|]. split; [exact Hin|].
      intros [f Hf]. injection Hf as -> ->. discriminate.
    - intros [-> [Hin Hv]]. apply find_root in Hin. rewrite Hin. destruct r, t; try reflexivity.
      exfalso. apply Hv. eexists. reflexivity.
  Qed.

  (* -------------------------------------------------------------- factors *)

  Fixpoint overs (f : scalar) : nat := match f with One | Par _ => 0 | Plus_ a b => overs a + overs b | Over a b => S (overs a + overs b) end.
  Fixpoint pluses (f : scalar) : nat := match f with One | Par _ => 0 | Plus_ a b => S (pluses a + pluses b) | Over a b => pluses a + pluses b end.
  Lemma par_cnt a c : (a = "}" \/ a = "$")%char -> cnt a (par_lin c) = if Ascii.eqb a "}" then 1 else 0.
  Proof.
    intro H. unfold ProxyModel.par_lin. rewrite !cnt_app, (legal_cnt a (scalar_name c)) by (apply ok || exact H).
    destruct H as [-> | ->]; reflexivity.
  Qed.
  Lemma scalar_braces f : cnt "}" (scalar_lin f) = 1 + 2 * overs f + pluses f.
  Proof.
    induction f as [|c|a IHa b IHb|a IHa b IHb]; cbn [ProxyModel.scalar_lin overs pluses].
    - reflexivity.
    - rewrite par_cnt by auto. reflexivity.
    - rewrite !cnt_app, IHa, IHb. cbn. lia.
    - rewrite !cnt_app, IHa, IHb. cbn. lia.
  Qed.
  Lemma scalar_dollars f : cnt "$" (scalar_lin f) = 2 * pluses f.
  Proof.
    induction f as [|c|a IHa b IHb|a IHa b IHb]; cbn [ProxyModel.scalar_lin pluses].
    - reflexivity.
    - rewrite par_cnt by auto. reflexivity.
    - rewrite !cnt_app, IHa, IHb. cbn. lia.
    - rewrite !cnt_app, IHa, IHb. cbn. lia.
  Qed.
  Lemma overs0 f : overs f = 0 -> pluses f = 0 -> is_root_scalar f.
  Proof. destruct f; cbn; intros; try exact I; lia. Qed.
  Notation known_scalar := (ProxySpec.known_scalar scalars).
  Lemma scalar_lin_inj f g : is_root_scalar f -> is_root_scalar g -> scalar_lin f = scalar_lin g -> f = g.
  Proof.
    destruct f as [|c| |], g as [|d| |]; try contradiction; intros _ _ H; cbn [ProxyModel.scalar_lin] in H; auto.
    - exfalso. change "\textsc{1}" with ("\textsc{" +++ "1" +++ "}") in H. unfold ProxyModel.par_lin in H.
      apply app_inv_s in H. apply app_inv_tail_s in H. symmetry in H. revert H. apply ok.
    - exfalso. change "\textsc{1}" with ("\textsc{" +++ "1" +++ "}") in H. unfold ProxyModel.par_lin in H.
      apply app_inv_s in H. apply app_inv_tail_s in H. revert H. apply ok.
    - f_equal. apply par_lin_inj. exact H.
  Qed.
  Lemma find_scalar_some s g : find_scalar s = Some g -> s = scalar_lin g /\ known_scalar g.
  Proof.
    unfold ProxyModel.find_scalar. destruct (String.eqb_spec s "\textsc{1}") as [->|].
    - intros [= <-]. split; [reflexivity|exact I].
    - destruct (find _ scalars) as [c|] eqn:E; [|discriminate]. intros [= <-].
      apply find_some in E. destruct E as [E1 E2]. apply String.eqb_eq in E2. split; [symmetry; exact E2|exact E1].
  Qed.
  Lemma known_root f : known_scalar f -> is_root_scalar f.
  Proof. destruct f; cbn; auto. Qed.
  Lemma find_known f : known_scalar f -> find_scalar (scalar_lin f) = Some f.
  Proof.
    intro H. destruct f as [|c| |]; try contradiction; [reflexivity|].
    unfold ProxyModel.find_scalar. cbn [ProxyModel.scalar_lin].
    destruct (String.eqb_spec (par_lin c) "\textsc{1}") as [E|].
    - exfalso. apply (scalar_lin_inj (Par c) One I I) in E. discriminate.
    - destruct (find _ scalars) as [d|] eqn:E.
      + apply find_some in E. destruct E as [_ E]. apply String.eqb_eq in E. apply par_lin_inj in E. subst d. reflexivity.
      + exfalso. pose proof (find_none _ _ E c H) as Hf. cbn in Hf. rewrite String.eqb_refl in Hf. discriminate.
  Qed.
  Notation simple := (ProxySpec.simple scalars).

  Lemma division_split a b : is_root_scalar a -> is_root_scalar b ->
    split_on division_text (scalar_lin (Over a b)) = [scalar_lin a; scalar_lin b].
  Proof.
    intros Ha Hb. cbn [ProxyModel.scalar_lin]. unfold division_text.
    rewrite (nop_split " " "\") by (apply rootscalar_nop; exact Ha). f_equal.
    apply split_none. rewrite <- (app_nil_s (scalar_lin b)), (nop_has " " "\") by (apply rootscalar_nop; exact Hb). reflexivity.
  Qed.
  Lemma find_scalar_over a b : find_scalar (scalar_lin (Over a b)) = None.
  Proof.
    destruct (find_scalar (scalar_lin (Over a b))) as [g|] eqn:E; [|reflexivity]. exfalso.
    apply find_scalar_some in E. destruct E as [E K].
    apply known_root in K. pose proof (scalar_braces (Over a b)) as H1. pose proof (scalar_braces g) as H2.
    rewrite E in H1. cbn [overs pluses] in H1. destruct g; try contradiction; cbn [overs pluses] in H2; lia.
  Qed.
  Lemma factor_parser_iff f g : factor_parser (scalar_lin f) = Some g <-> g = f /\ simple f.
  Proof.
    split.
    - unfold ProxyModel.factor_parser. destruct (find_scalar (scalar_lin f)) as [h|] eqn:E.
      + intros [= <-]. apply find_scalar_some in E. destruct E as [E K].
        assert (Hf : is_root_scalar f).
        { pose proof (scalar_braces f) as H1. pose proof (scalar_braces h) as H2. rewrite E in H1.
          apply overs0; destruct h; try contradiction; cbn [overs pluses] in H2; lia. }
        assert (f = h) by (apply scalar_lin_inj; auto; apply known_root; exact K). subst h. split; [reflexivity|left; exact K].
      + destruct (split_on division_text (scalar_lin f)) as [|x [|y [|? ?]]] eqn:Es; try discriminate.
        destruct (find_scalar x) as [gx|] eqn:Ex; [|discriminate]. destruct (find_scalar y) as [gy|] eqn:Ey; [|discriminate].
        intros [= <-].
        assert (J : scalar_lin f = x +++ division_text +++ y).
        { rewrite <- (join_split division_text (scalar_lin f)) by discriminate. rewrite Es. reflexivity. }
        apply find_scalar_some in Ex, Ey. destruct Ex as [-> Kx], Ey as [-> Ky].
        assert (Hb : cnt "}" (scalar_lin f) = 3).
        { rewrite J, !cnt_app, !scalar_braces. destruct gx, gy; try contradiction; reflexivity. }
        assert (Hd : cnt "$" (scalar_lin f) = 0).
        { rewrite J, !cnt_app, !scalar_dollars. destruct gx, gy; try contradiction; reflexivity. }
        rewrite scalar_braces in Hb. rewrite scalar_dollars in Hd.
        destruct f as [|c|a b|a b]; cbn [overs pluses] in Hb, Hd; try lia.
        rewrite division_split in Es by (apply overs0; lia). injection Es as Ea Eb.
        apply scalar_lin_inj in Ea; [|apply overs0; lia|apply known_root; exact Kx].
        apply scalar_lin_inj in Eb; [|apply overs0; lia|apply known_root; exact Ky].
        subst. split; [reflexivity|]. right. eauto.
    - intros [-> [K|[a [b [-> [Ka Kb]]]]]]; unfold ProxyModel.factor_parser.
      + rewrite (find_known f K). reflexivity.
      + rewrite find_scalar_over, division_split by (apply known_root; assumption).
        rewrite !find_known by assumption. reflexivity.
  Qed.

  (* -------------------------------------------------------------- arrays *)

  Lemma join_has l : has factor_sep (join connector (map comp_lin l)) = false.
  Proof.
    induction l as [|c l IH]; [reflexivity|].
    destruct l as [|d l].
    - cbn [map join]. rewrite <- (app_nil_s (comp_lin c)). unfold factor_sep. rewrite (nop_has "\" "{") by apply comp_nop. reflexivity.
    - change (join connector (map comp_lin (c :: d :: l))) with (comp_lin c +++ connector +++ join connector (map comp_lin (d :: l))).
      unfold factor_sep. rewrite (nop_has "\" "{") by apply comp_nop. exact IH.
  Qed.
  Lemma join_comps l : l <> [] -> split_on connector (join connector (map comp_lin l)) = map comp_lin l.
  Proof.
    induction l as [|c l IH]; [congruence|intros _].
    destruct l as [|d l].
    - cbn [map join]. apply split_none. rewrite <- (app_nil_s (comp_lin c)). unfold connector.
      rewrite (nop_has "\" "{") by apply comp_nop. reflexivity.
    - change (join connector (map comp_lin (c :: d :: l))) with (comp_lin c +++ connector +++ join connector (map comp_lin (d :: l))).
      unfold connector at 1. unfold connector at 1. rewrite (nop_split "\" "{") by apply comp_nop.
      change (map comp_lin (c :: d :: l)) with (comp_lin c :: map comp_lin (d :: l)). f_equal. apply IH. discriminate.
  Qed.
  Lemma read_lin_arr a : read_lin (arr_lin a) =
    Some (if is_one (a_factor a) then None else Some (scalar_lin (a_factor a)), split_on connector (join connector (map comp_lin (a_comps a)))).
  Proof.
    unfold read_lin, ProxyModel.arr_lin. destruct (is_one (a_factor a)).
    - cbn [String.append]. rewrite join_has. reflexivity.
    - rewrite app_assoc_s, has_app. unfold factor_sep at 1 2. rewrite (nop_split "\" "{") by apply scalar_nop.
      fold factor_sep. rewrite (split_none _ _ (join_has (a_comps a))). reflexivity.
  Qed.
  Lemma read_comps l : forall l', map_opt read_comp (map comp_lin l) = Some l' <-> l' = l /\ Forall comp_known l.
  Proof.
    induction l as [|c l IH]; intro l'; cbn [map map_opt].
    - split; [intros [= <-]; auto|intros [-> _]; reflexivity].
    - split.
      + destruct (read_comp (comp_lin c)) as [c'|] eqn:E; [|discriminate].
        destruct (map_opt read_comp (map comp_lin l)) as [l1|] eqn:El; [|discriminate]. intros [= <-].
        apply read_comp_iff in E. destruct E as [-> K]. destruct (proj1 (IH l1) eq_refl) as [-> F]. auto.
      + intros [-> F]. inversion F; subst. rewrite (proj2 (read_comp_iff c c)) by auto.
        rewrite (proj2 (IH l)) by auto. reflexivity.
  Qed.
  Lemma read_arr_iff a b : read_arr a = Some b <->
    b = a /\ simple (a_factor a) /\ a_comps a <> [] /\ Forall comp_known (a_comps a).
  Proof.
    unfold ProxyModel.read_arr. rewrite read_lin_arr. destruct a as [f l]. cbn [a_factor a_comps].
    assert (F : forall g, (match (if is_one f then None else Some (scalar_lin f)) with None => Some One | Some s => factor_parser s end) = Some g <-> g = f /\ simple f).
    { intro g. destruct f; cbn [is_one]; try apply factor_parser_iff. split; [intros [= <-]; split; [reflexivity|left; exact I]|intros [-> _]; reflexivity]. }
    destruct l as [|c l].
    - split; [|intros [_ [_ [H _]]]; congruence].
      assert (N : map_opt read_comp (split_on connector (join connector (map comp_lin []))) = None).
      { cbn [map join]. change (split_on connector "") with [""]. cbn [map_opt].
        assert (R : read_comp "" = None).
        { unfold ProxyModel.read_comp. change (ends_text transpose_text "") with false. cbn [fst snd].
          destruct (find _ arrays) as [r|] eqn:E; [|reflexivity]. apply find_some in E. destruct E as [_ E]. discriminate. }
        rewrite R. reflexivity. }
      rewrite N. destruct (match _ with None => _ | Some _ => _ end); discriminate.
    - rewrite join_comps by discriminate.
      destruct (match (if is_one f then None else Some (scalar_lin f)) with None => Some One | Some s => factor_parser s end) as [g|] eqn:Eg.
      + destruct (proj1 (F g) eq_refl) as [-> Sf].
        destruct (map_opt read_comp (map comp_lin (c :: l))) as [l'|] eqn:El.
        * destruct (proj1 (read_comps (c :: l) l') El) as [-> K]. split; [intros [= <-]; repeat split; auto; discriminate|intros [-> _]; reflexivity].
        * split; [discriminate|]. intros [_ [_ [_ K]]]. rewrite (proj2 (read_comps (c :: l) (c :: l))) in El by auto. discriminate.
      + split; [discriminate|]. intros [_ [Sf _]]. pose proof (proj2 (F f) (conj eq_refl Sf)). discriminate.
  Qed.
  Lemma read_entry_sound e e' : read_entry array_name scalar_name scalars arrays e = Some e' -> e' = e.
  Proof.
    unfold read_entry. revert e'. induction e as [|[s a] e IH]; intros e' H; cbn [map_opt] in H.
    - injection H as <-. reflexivity.
    - cbn [fst snd] in H. destruct (read_arr a) as [b|] eqn:E; [|discriminate]. cbn [option_map] in H.
      destruct (map_opt _ e) as [e1|]; [|discriminate]. injection H as <-.
      apply read_arr_iff in E. destruct E as [-> _]. rewrite (IH e1 eq_refl). reflexivity.
  Qed.
End Texts.
