From Coq Require Import List ZArith Bool String Ascii Lia Sorted Permutation.
From Verif Require Import Dict MemoModel MemoProofs MiscModel MiscSpec MiscText GmProofs.
Import ListNotations.
Local Open Scope Z_scope.
Local Open Scope string_scope.

Section Ranking.
  Context {C : Type} (leb : C -> C -> bool) (repr : C -> string) (to_float : string -> option C).
  Hypothesis total : forall a b, leb a b = true \/ leb b a = true.
  Hypothesis trans : forall a b c, leb a b = true -> leb b c = true -> leb a c = true.
  Hypothesis repr_ok : forall c, no_char " " (repr c) /\ no_char newline (repr c) /\ repr c <> "" /\ to_float (repr c) = Some c.
  Notation record := (string * Z * C)%type.
  Definition clean (v : record) : Prop := no_char " " (host v) /\ no_char newline (host v).
  Lemma strip_no s : no_char newline s -> strip_end s = s.
  Proof. induction s as [|a s IH]; intros H; [reflexivity|]. apply no_cons in H as [H1 H2]. cbn [strip_end]. rewrite (IH H2). destruct s; auto. destruct (Ascii.eqb_spec a newline); congruence. Qed.
  Lemma strip_nl s : no_char newline s -> strip_end (s ++ String newline "") = s.
  Proof. induction s as [|a s IH]; intros H; [reflexivity|]. apply no_cons in H as [H1 H2]. cbn [append strip_end]. rewrite (IH H2). destruct s; auto. destruct (Ascii.eqb_spec a newline); congruence. Qed.
  Lemma line_no r v : clean v -> no_char newline (line repr (r, v)).
  Proof.
    destruct v as [[h n] c]. intros [_ H]. cbn in H. unfold line. destruct (repr_ok c) as (_ & H2 & _). repeat (apply no_app; split); auto; try (apply str_no; reflexivity); apply no_cons; (split; [discriminate|apply no_nil]).
  Qed.
  Lemma line_cons r v : exists a s, line repr (r, v) = String a s.
  Proof. destruct v as [[h n] c]. unfold line. pose proof (str_z_nonempty r). destruct (str_z r); [congruence|]. cbn. eauto. Qed.
  Lemma parts r v e : clean v -> no_char " " e -> split " " (line repr (r, v) ++ e) = [str_z r; host v; str_z (snd (fst v)); repr (snd v) ++ e].
  Proof.
    destruct v as [[h n] c]. intros [H _] He. cbn in H. unfold line, host. cbn [fst snd]. destruct (repr_ok c) as (H2 & _). rewrite append_assoc. cbn [append]. rewrite split_app by (apply str_no; reflexivity). f_equal. rewrite append_assoc. cbn [append]. rewrite split_app by auto. f_equal. rewrite append_assoc. cbn [append]. rewrite split_app by (apply str_no; reflexivity). f_equal. apply split_no. apply no_app. auto.
  Qed.
  Lemma read_line r v e : clean v -> e = "" \/ e = String newline "" -> read_record to_float (line repr (r, v) ++ e) = Some (r, v).
  Proof.
    intros H He. unfold read_record. rewrite parts; auto.
    - rewrite !int_of_str. destruct (repr_ok (snd v)) as (_ & H2 & _ & H4). destruct He as [->| ->]; [rewrite append_nil, (strip_no _ H2), H4|rewrite (strip_nl _ H2), H4]; destruct v as [[? ?] ?]; reflexivity.
    - destruct He as [->| ->]; [apply no_nil|]. apply no_cons. split; [discriminate|apply no_nil].
  Qed.
  Lemma split_join l : l <> [] -> Forall (no_char newline) l -> split newline (join (String newline "") l) = l.
  Proof.
    induction l as [|s l IH]; [congruence|]. intros _ F. inversion F as [|? ? Hs F']; subst. destruct l as [|t l]; [cbn; now apply split_no|].
    change (join (String newline "") (s :: t :: l)) with (s ++ String newline "" ++ join (String newline "") (t :: l)). change (String newline "" ++ ?x) with (String newline x). rewrite split_app by auto. f_equal. apply IH; auto. discriminate.
  Qed.
  Fixpoint ended (l : list string) : list string := match l with [] => [] | [s] => [s] | s :: r => (s ++ String newline "") :: ended r end.
  Lemma readlines_write (l : list record) : Forall clean l -> readlines (write repr l) = ended (map (line repr) (number 0 l)).
  Proof.
    intros F. unfold readlines, write. generalize 0. destruct l as [|v l]; intros i; [reflexivity|]. rewrite split_join.
    - revert v i F. induction l as [|w l IH]; intros v i F; cbn [number map ended endings].
      + destruct (line_cons i v) as (a & s & ->). reflexivity.
      + f_equal. apply IH. now inversion F.
    - discriminate.
    - apply Forall_forall. intros s Hs. apply in_map_iff in Hs as ([r w] & <- & Hw). apply line_no. rewrite Forall_forall in F. apply F. clear - Hw. revert i Hw. generalize (v :: l) as k. induction k as [|x k IH]; intros i []; [left; congruence|right; eauto].
  Qed.
  Lemma number_keys {X} (l : list X) : forall i j, In j (keys (number i l)) <-> i <= j < i + Z.of_nat (List.length l).
  Proof. induction l as [|x l IH]; intros i j; [cbn; lia|]. change (keys (number i (x :: l))) with (i :: keys (number (i + 1) l)). cbn [In List.length]. rewrite IH. lia. Qed.
  Lemma number_app {X} (l : list X) : forall i m, number i (l ++ m) = (number i l ++ number (i + Z.of_nat (List.length l)) m)%list.
  Proof. induction l as [|x l IH]; intros i m; cbn [number List.app List.length]; [f_equal; lia|]. rewrite IH. do 2 f_equal. f_equal. lia. Qed.
  Lemma number_snd {X} (l : list X) : forall i, map snd (number i l) = l.
  Proof. induction l as [|x l IH]; intros i; cbn; [|rewrite IH]; auto. Qed.
  Lemma read_all (l : list record) : forall i pre hosts, Forall clean l -> i = Z.of_nat (List.length pre) -> read_records to_float (ended (map (line repr) (number i l))) (number 0 pre) hosts = Some (number 0 (pre ++ l), (hosts ++ map host l)%list).
  Proof.
    induction l as [|v l IH]; intros i pre hosts F Hi; [cbn; now rewrite !app_nil_r|]. inversion F as [|? ? Hv F']; subst.
    assert (St : exists e, (e = "" \/ e = String newline "") /\ ended (map (line repr) (number (Z.of_nat (List.length pre)) (v :: l))) = (line repr (Z.of_nat (List.length pre), v) ++ e) :: ended (map (line repr) (number (Z.of_nat (List.length pre) + 1) l))).
    { destruct l as [|w l]; [exists ""; split; auto; cbn [number map ended]; now rewrite append_nil|]. exists (String newline ""). split; auto. }
    destruct St as (e & He & ->). cbn [read_records]. rewrite read_line by auto. destruct v as [[h n] c]. cbn [host fst snd].
    replace (put Z.eqb (number 0 pre) (Z.of_nat (List.length pre)) (h, n, c)) with (number 0 (pre ++ [(h, n, c)])).
    - rewrite IH; auto.
      + rewrite <- !app_assoc. reflexivity.
      + rewrite app_length. cbn. lia.
    - rewrite number_app. cbn [number]. symmetry. apply (put_out Z.eqb Z.eqb_eq). rewrite number_keys. lia.
  Qed.
  Lemma start_write (l : list record) : Forall clean l -> start to_float (write repr l) = Some (number 0 l, map host l).
  Proof. intros F. unfold start. rewrite readlines_write by auto. exact (read_all l 0 [] [] F eq_refl). Qed.
  (** ** the new records *)
  Fixpoint upd (l : list record) (v : record) : list record := match l with [] => [v] | x :: q => if String.eqb (host x) (host v) then v :: q else x :: upd q v end.
  Lemma replace_upd (l : list record) h n c : In h (map host l) -> forall i, map snd (replace_first (number i l) h (h, n, c)) = upd l (h, n, c).
  Proof.
    intros Hin. induction l as [|[[h' n'] c'] l IH]; [destruct Hin|]. intros i. cbn [number replace_first upd host fst]. destruct (String.eqb_spec h' h) as [->|Hn]; [cbn; now rewrite number_snd|]. cbn [map snd]. f_equal. apply IH. destruct Hin as [Hin|]; auto. cbn in Hin. congruence.
  Qed.
  Lemma upd_out (l : list record) v : ~ In (host v) (map host l) -> upd l v = (l ++ [v])%list.
  Proof. induction l as [|x l IH]; intros H; cbn [upd List.app]; auto. cbn in H. destruct (String.eqb_spec (host x) (host v)); [exfalso; tauto|]. f_equal. apply IH. tauto. Qed.
  Notation isort := (fold_left (fun l v => insert leb v l)).
  Lemma new_upd top (l : list record) h n c : new_records leb top (number 0 l) (map host l) h n c = firstn top (isort (upd l (h, n, c)) []).
  Proof.
    unfold new_records. destruct (existsb (String.eqb h) (map host l)) eqn:E.
    - rewrite replace_upd; auto. apply existsb_exists in E as (x & Hx & E). apply String.eqb_eq in E. congruence.
    - assert (Hn : ~ In h (map host l)). { intros H. rewrite <- not_true_iff_false in E. apply E. apply existsb_exists. exists h. split; auto. apply String.eqb_refl. }
      rewrite (put_out Z.eqb Z.eqb_eq).
      + rewrite map_app, number_snd. cbn [map snd]. rewrite upd_out; auto.
      + rewrite number_keys, map_length. lia.
  Qed.
  Lemma insert_perm (v : record) l : Permutation (v :: l) (insert leb v l).
  Proof. induction l as [|x l IH]; cbn; auto. destruct (leb (snd v) (snd x)); auto. rewrite perm_swap. now constructor. Qed.
  Lemma isort_perm (l : list record) : forall acc, Permutation (acc ++ l) (isort l acc).
  Proof.
    induction l as [|v l IH]; intros acc; cbn [fold_left]; [now rewrite app_nil_r|]. rewrite <- IH, <- insert_perm. cbn. symmetry. apply Permutation_middle.
  Qed.
  Lemma insert_sorted (v : record) l : ranked leb l -> ranked leb (insert leb v l).
  Proof.
    intros R. induction R as [|x l R IH F]; cbn; [repeat constructor|]. destruct (leb (snd v) (snd x)) eqn:E.
    - constructor; [constructor; auto|]. constructor; auto. eapply Forall_impl; [|exact F]. cbn beta. intros y Hy. eauto.
    - constructor; auto. assert (Hx : leb (snd x) (snd v) = true) by (destruct (total (snd v) (snd x)); congruence).
      rewrite Forall_forall in *. intros y Hy. apply (Permutation_in _ (Permutation_sym (insert_perm v l))) in Hy as [<-|Hy]; auto.
  Qed.
  Lemma isort_sorted (l : list record) : forall acc, ranked leb acc -> ranked leb (isort l acc).
  Proof. induction l as [|v l IH]; intros acc R; cbn [fold_left]; auto. apply IH. now apply insert_sorted. Qed.
  Lemma firstn_sorted (l : list record) : forall k, ranked leb l -> ranked leb (firstn k l).
  Proof.
    induction l as [|x l IH]; intros [|k] R; cbn; try constructor; inversion R as [|? ? R' F]; subst; auto. apply IH; auto. rewrite Forall_forall in *. intros y Hy. apply F. rewrite <- (firstn_skipn k l). apply in_or_app. now left.
  Qed.
  Lemma upd_hosts (l : list record) v : map host (upd l v) = if existsb (String.eqb (host v)) (map host l) then map host l else (map host l ++ [host v])%list.
  Proof.
    induction l as [|x l IH]; cbn [upd map List.app existsb]; auto. rewrite (String.eqb_sym (host v)). destruct (String.eqb_spec (host x) (host v)) as [E|E]; cbn [orb map]; [now rewrite E|]. rewrite IH. destruct (existsb _ _); auto.
  Qed.
  Lemma upd_nodup (l : list record) v : NoDup (map host l) -> NoDup (map host (upd l v)).
  Proof.
    intros N. rewrite upd_hosts. destruct (existsb _ _) eqn:E; auto. apply NoDup_app_intro; auto; [repeat constructor; auto|]. intros x Hx [<-|[]]. rewrite <- not_true_iff_false in E. apply E. apply existsb_exists. exists (host v). split; auto. apply String.eqb_refl.
  Qed.
  Lemma upd_in (l : list record) v x : NoDup (map host l) -> In x (upd l v) <-> x = v \/ (In x l /\ host x <> host v).
  Proof.
    induction l as [|y l IH]; intros N; cbn [upd]; [cbn; intuition congruence|]. inversion N as [|? ? Hy N']; subst. destruct (String.eqb_spec (host y) (host v)) as [E|E].
    - cbn [In]. split.
      + intros [<-|H]; auto. right. split; auto. intros Q. apply Hy. rewrite E, <- Q. now apply in_map.
      + intros [->|[[->|H] Q]]; auto. contradiction.
    - cbn [In]. rewrite IH by auto. intuition (subst; auto).
  Qed.
  Lemma latest_snoc (l : list record) v h : latest (l ++ [v]) h = if String.eqb (host v) h then Some v else latest l h.
  Proof. unfold latest. rewrite rev_app_distr. reflexivity. Qed.
  Lemma latest_in (l : list record) h v : latest l h = Some v -> In v l /\ host v = h.
  Proof. unfold latest. intros H. apply find_some in H as [H1 H2]. apply in_rev in H1. apply String.eqb_eq in H2. auto. Qed.
  (** the state after a history *)
  Definition state_of (top : nat) (reports l : list record) : Prop :=
    ranked leb l /\ NoDup (map host l) /\ (List.length l <= top)%nat /\ (forall v, In v l -> latest reports (host v) = Some v) /\
    ((List.length (nodup string_dec (map host reports)) <= top)%nat -> forall h v, latest reports h = Some v -> In v l).
  Lemma nodup_grow (l : list string) x : (List.length (nodup string_dec l) <= List.length (nodup string_dec (l ++ [x])))%nat.
  Proof. apply NoDup_incl_length; [apply NoDup_nodup|]. intros y Hy. apply nodup_In in Hy. apply nodup_In. apply in_or_app. auto. Qed.
  Lemma state_step top reports l v : state_of top reports l -> state_of top (reports ++ [v]) (firstn top (isort (upd l v) [])).
  Proof.
    intros (R & N & L & La & All). set (l' := isort (upd l v) []). assert (P : Permutation (upd l v) l') by exact (isort_perm (upd l v) []).
    assert (Nl : NoDup (map host l')) by (eapply Permutation_NoDup; [apply Permutation_map, P|]; now apply upd_nodup).
    assert (Pre : forall x, In x (firstn top l') -> In x (upd l v)). { intros x Hx. apply (Permutation_in _ (Permutation_sym P)). rewrite <- (firstn_skipn top l'). apply in_or_app. now left. }
    assert (La' : forall x, In x (upd l v) -> latest (reports ++ [v]) (host x) = Some x).
    { intros x Hx. apply upd_in in Hx as [->|[Hx Hn]]; auto; rewrite latest_snoc; [now rewrite String.eqb_refl|]. destruct (String.eqb_spec (host v) (host x)); [congruence|auto]. }
    split; [|split; [|split; [|split]]].
    - apply firstn_sorted, isort_sorted. constructor.
    - rewrite <- firstn_map. rewrite <- (firstn_skipn top (map host l')) in Nl. now apply NoDup_app_elim in Nl as (Nl & _).
    - rewrite firstn_length. lia.
    - auto.
    - intros Hd h x Hx. assert (Hlen : (List.length l' <= top)%nat).
      { rewrite <- (Permutation_length P). etransitivity; [|exact Hd]. rewrite <- (map_length host (upd l v)). apply NoDup_incl_length; [now apply upd_nodup|]. intros y Hy. apply in_map_iff in Hy as (z & <- & Hz). apply nodup_In. specialize (La' z Hz). apply latest_in in La' as [Hi _]. now apply in_map. }
      rewrite firstn_all2 by lia. apply (Permutation_in _ P). apply upd_in; auto. rewrite latest_snoc in Hx. destruct (String.eqb_spec (host v) h) as [E|E]; [left; congruence|]. right. apply latest_in in Hx as HH. destruct HH as [_ Hh]. split; [|congruence]. apply (All ltac:(rewrite map_app in Hd; cbn in Hd; pose proof (nodup_grow (map host reports) (host v)); lia) h x Hx).
  Qed.
  Lemma sessions_state top reports : forall done l, Forall clean l -> state_of top done l -> Forall clean reports -> exists l', sessions leb repr to_float top (write repr l) reports = Some (write repr l') /\ Forall clean l' /\ state_of top (done ++ reports) l'.
  Proof.
    induction reports as [|[[h n] c] reports IH]; intros done l Fl St F; cbn [sessions].
    - exists l. rewrite app_nil_r. auto.
    - inversion F as [|? ? Hv F']; subst. unfold session. rewrite start_write by auto. rewrite new_upd. set (v := (h, n, c)) in *. destruct (IH (done ++ [v])%list (firstn top (isort (upd l v) []))) as (l' & E & Fl' & St').
      + rewrite Forall_forall in *. intros x Hx. assert (Hx' : In x (upd l v)). { apply (Permutation_in _ (Permutation_sym (isort_perm (upd l v) []))). rewrite <- (firstn_skipn top). apply in_or_app. left. exact Hx. }
        destruct St as (_ & N & _). apply upd_in in Hx' as [->|[Hx' _]]; auto.
      + now apply state_step.
      + exact F'.
      + exists l'. rewrite <- app_assoc in St'. auto.
  Qed.
  Lemma ranking_history top reports : Forall clean reports -> exists l, sessions leb repr to_float top "" reports = Some (write repr l) /\ holds to_float (write repr l) l /\ state_of top reports l.
  Proof.
    intros F. destruct (sessions_state top reports [] []) as (l & E & Fl & St); auto.
    - split; [constructor|]. split; [constructor|]. split; [cbn; lia|]. split; [intros v []|]. intros _ h v H. discriminate H.
    - exists l. split; [exact E|]. split; auto. exists (number 0 l). split; auto. now apply start_write.
  Qed.
  (** ** printing *)
  Definition shown (v : record) : string * string * C := (host v, str_z (snd (fst v)), snd v).
  Lemma print_nl r v : clean v -> print_line to_float (line repr (r, v) ++ String newline "") = Some (shown v).
  Proof.
    intros H. unfold print_line. rewrite cut_last_app. rewrite <- (append_nil (line repr (r, v))). rewrite parts by (auto; apply no_nil). rewrite append_nil. destruct (repr_ok (snd v)) as (_ & H2 & _ & H4). rewrite strip_no, H4 by auto. reflexivity.
  Qed.
  Lemma cut_last_app2 a s : s <> "" -> cut_last (a ++ s) = a ++ cut_last s.
  Proof. intros Hs. induction a as [|x a IH]; [reflexivity|]. cbn [append cut_last]. rewrite IH. destruct (a ++ s) eqn:E; auto. destruct a; [cbn in E; congruence|discriminate]. Qed.
  Lemma no_cut c s : no_char c s -> no_char c (cut_last s).
  Proof. induction s as [|a s IH]; intros H; [exact H|]. apply no_cons in H as [H1 H2]. cbn [cut_last]. destruct s; [apply no_nil|]. apply no_cons. auto. Qed.
  Lemma print_last r v : clean v -> print_line to_float (line repr (r, v)) = match to_float (cut_last (repr (snd v))) with Some c => Some (fst (shown v), c) | None => None end.
  Proof.
    intros H. destruct v as [[h n] c]. destruct (repr_ok c) as (H1 & H2 & H3 & _). unfold print_line, line. cbn [shown host fst snd]. destruct H as [Hh _]. cbn in Hh.
    assert (E : cut_last (str_z r ++ " " ++ h ++ " " ++ str_z n ++ " " ++ repr c) = str_z r ++ String " " (h ++ String " " (str_z n ++ String " " (cut_last (repr c))))).
    { rewrite cut_last_app2 by discriminate. f_equal. cbn [append]. change (String " " (h ++ String " " (str_z n ++ String " " (repr c)))) with (" " ++ (h ++ String " " (str_z n ++ String " " (repr c)))). rewrite cut_last_app2 by (destruct h; discriminate). cbn [append]. f_equal. rewrite cut_last_app2 by discriminate. f_equal.
      change (String " " (str_z n ++ String " " (repr c))) with (" " ++ (str_z n ++ String " " (repr c))). rewrite cut_last_app2 by (destruct (str_z n); discriminate). cbn [append]. f_equal. rewrite cut_last_app2 by discriminate. f_equal. change (String " " (repr c)) with (" " ++ repr c). rewrite cut_last_app2 by auto. reflexivity. }
    rewrite E. rewrite split_app by (apply str_no; reflexivity). rewrite split_app by auto. rewrite split_app by (apply str_no; reflexivity). rewrite split_no by now apply no_cut. rewrite strip_no by now apply no_cut. reflexivity.
  Qed.
  Lemma print_lines_all (l : list record) v : Forall clean (l ++ [v]) -> forall i, print_lines to_float (ended (map (line repr) (number i (l ++ [v])))) =
    match to_float (cut_last (repr (snd v))) with Some c => Some (map shown l ++ [(fst (shown v), c)])%list | None => None end.
  Proof.
    intros F. induction l as [|w l IH]; intros i.
    - cbn [List.app number map ended print_lines]. rewrite print_last by (now inversion F). destruct (to_float _); reflexivity.
    - cbn [List.app]. inversion F as [|? ? Hw F']; subst. assert (E : ended (map (line repr) (number i (w :: l ++ [v]))) = (line repr (i, w) ++ String newline "") :: ended (map (line repr) (number (i + 1) (l ++ [v])))) by (destruct l; reflexivity).
      rewrite E. cbn [print_lines]. rewrite print_nl by auto. rewrite IH by auto. destruct (to_float _); reflexivity.
  Qed.
  Lemma printing (l : list record) v : Forall clean (l ++ [v]) -> print_ranking to_float (write repr (l ++ [v])) =
    match to_float (cut_last (repr (snd v))) with Some c => Some (map shown l ++ [(fst (shown v), c)])%list | None => None end.
  Proof. intros F. unfold print_ranking. rewrite readlines_write by auto. now apply print_lines_all. Qed.
End Ranking.
(** costs with one decimal, in tenths *)
Definition tenths_repr (z : Z) : string := str_z (z / 10) ++ "." ++ str_z (z mod 10).
Definition tenths_of (s : string) : option Z :=
  match split "." s with
  | [a; b] => match int_of a with
              | Some x => if String.eqb b "" then Some (x * 10) else if Nat.eqb (String.length b) 1 then option_map (fun y => x * 10 + y) (int_of b) else None
              | None => None
              end
  | _ => None
  end.
Lemma best_refuted : exists (reports : list (string * Z * Z)) l,
  sessions Z.leb tenths_repr tenths_of 10 "" reports = Some (write tenths_repr l) /\ In ("a", 4, 30) reports /\ l = [("a", 4, 50)].
Proof. exists [("a", 4, 30); ("a", 4, 50)], [("a", 4, 50)]. split; [vm_compute; reflexivity|]. split; [now left|reflexivity]. Qed.
Lemma forgets_refuted : exists (reports : list (string * Z * Z)) l,
  sessions Z.leb tenths_repr tenths_of 1 "" reports = Some (write tenths_repr l) /\ latest reports "a" = Some ("a", 4, 50) /\ l = [("b", 4, 90)].
Proof. exists [("a", 4, 50); ("b", 4, 30); ("b", 4, 90)], [("b", 4, 90)]. split; [vm_compute; reflexivity|]. split; reflexivity. Qed.
Lemma print_refuted : exists file, sessions Z.leb tenths_repr tenths_of 10 "" [("a", 4, 125)] = Some file /\ print_ranking tenths_of file = Some [("a", "4", 120)].
Proof. eexists. split; [vm_compute; reflexivity|]. vm_compute. reflexivity. Qed.
Lemma tenths_ok c : no_char " " (tenths_repr c) /\ no_char newline (tenths_repr c) /\ tenths_repr c <> "" /\ tenths_of (tenths_repr c) = Some c.
Proof.
  assert (N : forall a, num_char a = false -> a <> "."%char -> no_char a (tenths_repr c)). { intros a Ha Hd. unfold tenths_repr. apply no_app. split; [now apply str_no|]. apply no_cons. split; [congruence|]. now apply str_no. }
  split; [apply N; [reflexivity|discriminate]|]. split; [apply N; [reflexivity|discriminate]|]. split.
  - unfold tenths_repr. pose proof (str_z_nonempty (c / 10)). destruct (str_z (c / 10)); [congruence|discriminate].
  - unfold tenths_of, tenths_repr. cbn [append]. rewrite split_app by (apply str_no; reflexivity). rewrite split_no by (apply str_no; reflexivity). rewrite !int_of_str.
    pose proof (Z.mod_pos_bound c 10 ltac:(lia)) as B. pose proof (Z.div_mod c 10 ltac:(lia)) as D. set (k := c mod 10) in *. assert (K : String.eqb (str_z k) "" = false /\ Nat.eqb (String.length (str_z k)) 1 = true).
    { assert (k = 0 \/ k = 1 \/ k = 2 \/ k = 3 \/ k = 4 \/ k = 5 \/ k = 6 \/ k = 7 \/ k = 8 \/ k = 9) as E by lia. destruct E as [->|[->|[->|[->|[->|[->|[->|[->|[->| ->]]]]]]]]]; split; reflexivity. }
    destruct K as [-> ->]. cbn [option_map]. f_equal. lia.
Qed.
