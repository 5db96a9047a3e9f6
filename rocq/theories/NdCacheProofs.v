From Coq Require Import List ZArith QArith Qabs Qcanon Bool String Lia Lqa Arith.
From Verif Require Import Dict NdCacheModel NdCacheSpec.
Import ListNotations.
Local Open Scope nat_scope.

(** ** closeness *)
Lemma qle_spec a b : qle a b = true <-> (a <= b)%Qc.
Proof. unfold qle. destruct (Qclt_le_dec b a) as [H|H]; split; intros; try discriminate; auto. exfalso. apply (Qclt_not_le _ _ H); auto. Qed.
Lemma Qcle_Q a b : (a <= b)%Qc <-> (this a <= this b)%Q.
Proof. reflexivity. Qed.
Lemma close_near a b : close a b = true <-> near a b.
Proof.
  unfold close, near. rewrite qle_spec. unfold qabs, atol, rtol.
  destruct (Qclt_le_dec (a - b) 0) as [H1|H1]; destruct (Qclt_le_dec b 0) as [H2|H2]; unfold Qclt, Qcle, Qcminus, Qcplus, Qcmult, Qcopp, Q2Qc in *; cbn [this] in *;
    repeat (rewrite Qred_correct in *); cbn [this] in *; (split; [intros H|intros [[A B]|[A B]]]); try (lra); (left; split; lra) || (right; split; lra).
Qed.
Lemma shape_eqb_spec a b : shape_eqb a b = true <-> a = b.
Proof. unfold shape_eqb. destruct (list_eq_dec Nat.eq_dec a b); split; congruence. Qed.
Lemma combine_nth_all {A B} (P : A * B -> bool) (l : list A) : forall l' : list B, forallb P (combine l l') = true <-> forall i x y, nth_error l i = Some x -> nth_error l' i = Some y -> P (x, y) = true.
Proof.
  induction l as [|a l IH]; intros l'; cbn.
  - split; auto. intros _ [|] x y; discriminate.
  - destruct l' as [|b l']; cbn.
    + split; auto. intros _ [|i] x y _ E; cbn in E; try discriminate; destruct i; discriminate.
    + rewrite andb_true_iff, IH. split.
      * intros [Hab H] [|i] x y; cbn; [congruence|]. apply H.
      * intros H. split; [apply (H 0); reflexivity|intros i; apply (H (S i))].
Qed.
Lemma zip_match_near cs : forall xs, List.length cs = List.length xs -> (zip_match cs xs = true <-> Forall2 near_array cs xs).
Proof.
  induction cs as [|c cs IH]; intros [|x xs] E; try discriminate; cbn; [split; auto|].
  injection E as E. destruct (shape_eqb (shape c) (shape x)) eqn:Es; cbn; [|split; [discriminate|intros H; inversion H as [|? ? ? ? [Hs _]]; subst; apply shape_eqb_spec in Hs; congruence]].
  apply shape_eqb_spec in Es. destruct (allclose c x) eqn:Ec; cbn; unfold allclose in Ec.
  - rewrite IH by auto. split; [|intros H; inversion H; auto]. intros H. constructor; auto. split; auto. intros i u v Hu Hv. apply close_near.
    exact (proj1 (combine_nth_all _ _ _) Ec i u v Hu Hv).
  - split; [discriminate|]. intros H. inversion H as [|? ? ? ? [_ Hn]]; subst. exfalso. rewrite (proj2 (combine_nth_all _ _ _)) in Ec; [discriminate|].
    intros i u v Hu Hv. cbn. apply close_near. eauto.
Qed.
Lemma matches_near cs s t xs : matches s t cs xs = true <-> s = t /\ Forall2 near_array cs xs.
Proof.
  unfold matches. destruct (String.eqb s t) eqn:E.
  - apply String.eqb_eq in E as ->. destruct (List.length cs =? List.length xs) eqn:El.
    + apply Nat.eqb_eq in El. rewrite zip_match_near by auto. tauto.
    + split; [discriminate|]. intros [_ H]. apply Nat.eqb_neq in El. destruct El. clear -H. induction H; cbn; lia.
  - split; [discriminate|]. intros [-> _]. now rewrite String.eqb_refl in E.
Qed.

(** ** reading *)
Lemma read_all_app h b xs : forall ys, read_all h xs = Some ys -> read_all (h ++ b) xs = Some ys.
Proof.
  induction xs as [|x xs IH]; cbn; intros ys E; auto. destruct (nth_error h x) eqn:Ex; [|discriminate]. destruct (read_all h xs); [|discriminate].
  rewrite nth_error_app1 by (apply nth_error_Some; congruence). rewrite Ex, (IH _ eq_refl). auto.
Qed.
Lemma set_nth_other h : forall x a y, x <> y -> nth_error (set_nth x a h) y = nth_error h y.
Proof. induction h as [|b h IH]; intros [|x] a [|y] H; cbn; auto; try lia. Qed.
Lemma read_all_set h x a xs : ~ In x xs -> read_all (set_nth x a h) xs = read_all h xs.
Proof. induction xs as [|y xs IH]; cbn; intros H; auto. rewrite set_nth_other by (intros ->; tauto). rewrite IH by tauto. auto. Qed.
Lemma lookup_some h es ys s e : lookup h es ys s = Some (Some e) -> exists k cs, In (k, e) es /\ read_all h (e_arrays e) = Some cs /\ e_str e = s /\ Forall2 near_array cs ys.
Proof.
  induction es as [|[k e'] es IH]; cbn; [discriminate|]. destruct (read_all h (e_arrays e')) as [cs|] eqn:Er; [|discriminate]. destruct (matches (e_str e') s cs ys) eqn:Em.
  - injection 1 as <-. apply matches_near in Em as [Es Hf]. exists k, cs. auto.
  - intros H. destruct (IH H) as (k' & cs' & Hin & R). exists k', cs'. auto.
Qed.
Lemma lookup_none h es ys s : lookup h es ys s = Some None -> forall k e, In (k, e) es -> exists cs, read_all h (e_arrays e) = Some cs /\ ~ (e_str e = s /\ Forall2 near_array cs ys).
Proof.
  induction es as [|[k e'] es IH]; cbn; [tauto|]. destruct (read_all h (e_arrays e')) as [cs|] eqn:Er; [|discriminate]. destruct (matches (e_str e') s cs ys) eqn:Em; [discriminate|].
  intros H k' e [E|E]; [|eauto]. injection E as -> <-. exists cs. split; auto. rewrite <- matches_near. congruence.
Qed.

(** ** eviction *)
Lemma in_del {V} (d : dict nat V) k x : In x (del d k) -> In x d.
Proof. unfold del. rewrite filter_In. tauto. Qed.
Lemma in_fold_del {V} ks : forall (d : dict nat V) x, In x (fold_left del ks d) -> In x d.
Proof. induction ks as [|k ks IH]; cbn; intros d x H; auto. eapply in_del. eauto. Qed.
Lemma in_put (d : list (nat * entry)) k v x : In x (put Nat.eqb d k v) -> In x d \/ snd x = v.
Proof.
  induction d as [|[a b] d IH]; cbn.
  - intros [<-|[]]. auto.
  - destruct (Nat.eqb k a); cbn; intros [<-|H]; auto. destruct (IH H); auto.
Qed.
Lemma add_entries c xs r s m c' : add c xs r s m = Some c' -> forall k e, In (k, e) (entries c') -> (exists k', In (k', e) (entries c)) \/ e = {| e_arrays := xs; e_value := r; e_str := s |}.
Proof.
  unfold add. destruct (negb (trying c)); [injection 1 as <-; eauto|]. destruct (m =? 0); [discriminate|]. cbv zeta. injection 1 as <-. cbn [entries]. intros k e H.
  apply in_put in H as [H|H]; [|auto]. left. exists k. match type of H with context [if ?b then _ else _] => destruct b end; auto. exact (in_fold_del _ _ _ H).
Qed.
Lemma comparer_entries h c ys s c' r : comparer h c ys s = Some (c', r) -> (entries c' = entries c \/ entries c' = []) /\
  match r with Some a => exists e k cs, In (k, e) (entries c) /\ e_value e = a /\ read_all h (e_arrays e) = Some cs /\ e_str e = s /\ Forall2 near_array cs ys | None => True end.
Proof.
  unfold comparer. destruct (negb (trying c)); [injection 1 as <- <-; auto|]. destruct (lookup h (entries c) ys s) as [f|] eqn:El; [|discriminate]. cbv zeta.
  assert (R : match (match f with Some e => Some (e_value e) | None => None end) with Some a => exists e k cs, In (k, e) (entries c) /\ e_value e = a /\ read_all h (e_arrays e) = Some cs /\ e_str e = s /\ Forall2 near_array cs ys | None => True end).
  { destruct f as [e|]; auto. destruct (lookup_some _ _ _ _ _ El) as (k & cs & H & Hr). exists e, k, cs. tauto. }
  destruct (_ && _); injection 1 as <- <-; auto.
Qed.

(** ** soundness *)
Section Sound.
  Variable F : string -> list arr -> option arr.
  Definition inv (used : list nat) (L : list logged) (st : state) : Prop :=
    forall k e, In (k, e) (entries (s_cache st)) -> exists l v, In l L /\ l_str l = e_str e /\ read_all (s_heap st) (e_arrays e) = Some (l_arrays l) /\
      F (l_str l) (l_arrays l) = Some v /\ nth_error (s_heap st) (e_value e) = Some v /\ incl (e_value e :: e_arrays e) used.
  Definition right (L : list logged) (l : logged) : Prop :=
    match l_out l with
    | Raised => F (l_str l) (l_arrays l) = None /\ l_value l = None
    | _ => exists l' v, In l' (L ++ [l]) /\ l_str l' = l_str l /\ Forall2 near_array (l_arrays l') (l_arrays l) /\ F (l_str l') (l_arrays l') = Some v /\ l_value l = Some v
    end.
  Lemma near_refl x : near x x.
  Proof.
    unfold near. destruct (Qclt_le_dec x 0) as [H|H]; [right|left]; unfold Qclt, Qcle, Qcminus, Qcplus, Qcmult, Qcopp, Q2Qc in *; cbn [this] in *; repeat (rewrite Qred_correct in *); cbn [this] in *; split; lra.
  Qed.
  Lemma near_arrays_refl xs : Forall2 near_array xs xs.
  Proof. induction xs; constructor; auto. split; auto. intros i x y -> [= ->]. apply near_refl. Qed.
  Lemma inv_weaken used used' L L' st : incl used used' -> incl L L' -> inv used L st -> inv used' L' st.
  Proof. intros Hu HL H k e Hin. destruct (H k e Hin) as (l & v & A & B & C & D & E & G). exists l, v. repeat split; auto. intros x Hx. auto. Qed.
  Lemma call_inv used L st xs s m st' l : inv used L st -> call F st xs s m = Some (st', l) -> right L l /\ inv ((l_args l ++ returned l) ++ used) (L ++ [l]) st'.
  Proof.
    intros I. unfold call. destruct (read_all (s_heap st) xs) as [ys|] eqn:Er; [|discriminate]. destruct (comparer (s_heap st) (s_cache st) ys s) as [[c r]|] eqn:Ec; [|discriminate].
    apply comparer_entries in Ec as [Hes Hr].
    assert (Hin : forall k e, In (k, e) (entries c) -> In (k, e) (entries (s_cache st))) by (intros; destruct Hes as [E|E]; rewrite E in *; cbn in *; tauto).
    assert (I1 : inv used L {| s_heap := s_heap st; s_cache := c |}) by (intros k e H; apply (I k e (Hin _ _ H))).
    destruct r as [a|].
    - injection 1 as <- <-. destruct Hr as (e & k & cs & He & <- & Hcs & <- & Hn). split; [|eapply inv_weaken; [| |exact I1]; intros y Hy; rewrite in_app_iff; auto].
      destruct (I k e He) as (l & v & A & B & C & D & E & G). unfold right. cbn [l_out l_str l_arrays l_value]. exists l, v. rewrite in_app_iff. rewrite Hcs in C. injection C as ->. auto 8.
    - destruct (F s ys) as [v|] eqn:Ef.
      + destruct (add c xs (List.length (s_heap st)) s m) as [c'|] eqn:Ea; [|discriminate]. injection 1 as <- <-. split.
        * unfold right. cbn [l_out l_str l_arrays l_value]. eexists _, v. rewrite in_app_iff. split; [right; left; reflexivity|]. cbn. auto using near_arrays_refl.
        * intros k e H. cbn [s_cache s_heap] in *. destruct (add_entries _ _ _ _ _ _ Ea _ _ H) as [(k' & H')| ->].
          -- destruct (I1 k' e H') as (l & w & A & B & C & D & E & G). exists l, w. cbn in C, E. rewrite in_app_iff. repeat split; auto using read_all_app.
             ++ rewrite nth_error_app1; auto. apply nth_error_Some. congruence.
             ++ intros x Hx. rewrite in_app_iff. auto.
          -- eexists _, v. rewrite in_app_iff. split; [right; left; reflexivity|]. cbn. repeat split; auto using read_all_app.
             ++ rewrite nth_error_app2 by lia. now rewrite Nat.sub_diag.
             ++ intros x Hx. rewrite !in_app_iff. cbn in *. tauto.
      + injection 1 as <- <-. split; [split; [exact Ef|reflexivity]|]. eapply inv_weaken; [| |exact I1]; intros y Hy; rewrite in_app_iff; auto.
  Qed.
  Lemma run_right ops : forall used L st st' log, inv used L st -> polite F used st ops -> run F st ops = Some (st', log) -> forall l1 l l2, log = l1 ++ l :: l2 -> right (L ++ l1) l.
  Proof.
    induction ops as [|o ops IH]; intros used L st st' log I P; cbn [run].
    - injection 1 as <- <-. intros [|] ? ?; discriminate.
    - cbn [polite] in P. destruct P as [Po P]. destruct (step F st o) as [[st1 ls]|] eqn:Es; [|discriminate]. destruct (run F st1 ops) as [[st2 ls2]|] eqn:Er; [|discriminate]. injection 1 as <- <-.
      destruct o as [a|x a|xs s m]; cbn [step] in Es.
      + injection Es as <- <-. cbn [flat_map app] in *. eapply (IH used L); [|exact P|exact Er]. intros k e H. destruct (I k e H) as (l & v & A & B & C & D & E & G). exists l, v. cbn. repeat split; auto using read_all_app.
        rewrite nth_error_app1; auto. apply nth_error_Some. congruence.
      + destruct (x <? List.length (s_heap st)); [|discriminate]. injection Es as <- <-. cbn [flat_map app] in *. eapply (IH used L); [|exact P|exact Er]. intros k e H. destruct (I k e H) as (l & v & A & B & C & D & E & G). exists l, v. cbn.
        assert (~ In x (e_value e :: e_arrays e)) as Hx by (intros X; apply Po; auto). cbn in Hx. repeat split; auto; [rewrite read_all_set|rewrite set_nth_other]; auto.
      + destruct (call F st xs s m) as [[st3 l3]|] eqn:Ec; [|discriminate]. injection Es as <- <-. destruct (call_inv _ _ _ _ _ _ _ _ I Ec) as [Hr I']. cbn [flat_map app] in *. rewrite app_nil_r in P.
        intros [|l0 l1] l l2 E; injection E as <- E.
        * rewrite app_nil_r. exact Hr.
        * pose proof (IH _ _ _ _ _ I' P Er l1 l l2 E) as R. rewrite <- app_assoc in R. exact R.
  Qed.
  Lemma cached_sound ops st log l1 l l2 : polite F [] start ops -> run F start ops = Some (st, log) -> log = l1 ++ l :: l2 ->
    match l_out l with
    | Raised => F (l_str l) (l_arrays l) = None /\ l_value l = None
    | _ => exists l' v, In l' (l1 ++ [l]) /\ l_str l' = l_str l /\ Forall2 near_array (l_arrays l') (l_arrays l) /\ F (l_str l') (l_arrays l') = Some v /\ l_value l = Some v
    end.
  Proof. intros P R E. eapply (run_right ops [] [] start st log); eauto. intros k e []. Qed.
  (** the cache cannot be noticed if close arrays of the calls are equal *)
  Lemma cached_exact ops st log l : polite F [] start ops -> run F start ops = Some (st, log) ->
    (forall l1 l2, In l1 log -> In l2 log -> l_str l1 = l_str l2 -> Forall2 near_array (l_arrays l1) (l_arrays l2) -> l_arrays l1 = l_arrays l2) ->
    In l log -> l_value l = F (l_str l) (l_arrays l).
  Proof.
    intros P R H Hin. apply in_split in Hin as (l1 & l2 & E). pose proof (cached_sound ops st log l1 l l2 P R E) as S.
    assert (G : (exists l' v, In l' (l1 ++ [l]) /\ l_str l' = l_str l /\ Forall2 near_array (l_arrays l') (l_arrays l) /\ F (l_str l') (l_arrays l') = Some v /\ l_value l = Some v) -> l_value l = F (l_str l) (l_arrays l)).
    { intros (l' & v & A & B & C & D & G). rewrite G, <- B, <- (H l' l); auto; subst log; rewrite in_app_iff in *; cbn in *; tauto. }
    destruct (l_out l); auto. destruct S. congruence.
  Qed.
End Sound.

(** ** bounds, eviction, giving up *)
Lemma insert_least b l : (forall x, In x l -> b < x) -> insert_n b l = b :: l.
Proof. destruct l as [|y l]; cbn; auto. intros H. destruct (b <=? y) eqn:E; auto. apply Nat.leb_gt in E. specialize (H y (or_introl eq_refl)). lia. Qed.
Lemma sort_seq n : forall b, sort_n (seq b n) = seq b n.
Proof. induction n as [|n IH]; intros b; cbn; auto. rewrite IH. apply insert_least. intros x H. apply in_seq in H. lia. Qed.
Lemma del_absent {V} (d : dict nat V) k : ~ In k (keys d) -> del d k = d.
Proof.
  induction d as [|[a v] d IH]; cbn; auto. intros H. destruct (a =? k) eqn:E; [apply Nat.eqb_eq in E; tauto|]. cbn. f_equal. apply IH. tauto.
Qed.
Lemma fold_del_seq {V} m : forall (d : dict nat V) b n, keys d = seq b n -> m <= n -> fold_left del (firstn m (seq b n)) d = skipn m d.
Proof.
  induction m as [|m IH]; intros d b n E Hm; auto. destruct n as [|n]; [lia|]. destruct d as [|[a v] d]; [discriminate|]. cbn in E. injection E as -> E. cbn [seq firstn fold_left skipn].
  replace (del ((b, v) :: d) b) with d.
  - apply IH; auto. lia.
  - unfold del. cbn. rewrite Nat.eqb_refl. cbn. symmetry. apply del_absent. unfold keys. rewrite E. intros H. apply in_seq in H. lia.
Qed.
Lemma fold_max l : forall a, fold_left Nat.max l a = Nat.max a (max_n l).
Proof. unfold max_n. induction l as [|x l IH]; intros a; cbn; [lia|]. rewrite IH, (IH x). lia. Qed.
Lemma max_seq n : forall b, max_n (seq b (S n)) = b + n.
Proof.
  induction n as [|n IH]; intros b; [cbn; lia|]. change (seq b (S (S n))) with (b :: seq (S b) (S n)). unfold max_n. cbn [fold_left]. rewrite fold_max, IH. lia.
Qed.
Lemma put_fresh (d : list (nat * entry)) k v : ~ In k (keys d) -> put Nat.eqb d k v = d ++ [(k, v)].
Proof. induction d as [|[a b] d IH]; cbn; auto. intros H. destruct (Nat.eqb k a) eqn:E; [apply Nat.eqb_eq in E; subst; tauto|]. f_equal. apply IH. tauto. Qed.
Definition consecutive (es : list (nat * entry)) : Prop := exists b, keys es = seq b (List.length es).
Lemma consecutive_skipn m es : consecutive es -> consecutive (skipn m es).
Proof.
  intros (b & E). exists (b + m). unfold keys in *. rewrite skipn_length. revert b es E. induction m as [|m IH]; intros b es E; cbn [skipn].
  - now rewrite Nat.add_0_r, Nat.sub_0_r.
  - destruct es as [|[k e] es]; auto. cbn in E. injection E as -> E. cbn [List.length Nat.sub]. rewrite Nat.add_succ_r, <- Nat.add_succ_l. auto.
Qed.
Lemma add_shape c xs r s m c' : consecutive (entries c) -> add c xs r s m = Some c' -> trying c = true ->
  let e := {| e_arrays := xs; e_value := r; e_str := s |} in
  trying c' = true /\ attempts c' = attempts c /\ hits c' = hits c /\ consecutive (entries c') /\ 0 < m /\
  exists old, map snd (entries c) ++ [e] = old ++ map snd (entries c') /\ (old = [] /\ List.length (entries c) <= 2 * m \/ List.length old = m /\ 2 * m < List.length (entries c)).
Proof.
  intros Hc E Ht e. unfold add in E. rewrite Ht in E. cbn [negb] in E. destruct (m =? 0) eqn:Em; [discriminate|]. apply Nat.eqb_neq in Em. cbv zeta in E. fold e in E.
  set (es := if 2 * m <? List.length (entries c) then fold_left del (firstn m (sort_n (keys (entries c)))) (entries c) else entries c) in *.
  assert (Hs : consecutive es /\ exists old, entries c = old ++ es /\ (old = [] /\ List.length (entries c) <= 2 * m \/ List.length old = m /\ 2 * m < List.length (entries c))).
  { unfold es. destruct (2 * m <? List.length (entries c)) eqn:El.
    - apply Nat.ltb_lt in El. destruct Hc as (b & Hb). rewrite Hb, sort_seq, fold_del_seq by (auto; lia). split; [apply consecutive_skipn; exists b; auto|].
      exists (firstn m (entries c)). rewrite firstn_skipn. split; auto. right. rewrite firstn_length. lia.
    - apply Nat.ltb_ge in El. split; auto. exists []. auto. }
  destruct Hs as ((b & Hb) & old & Ho & Hl). injection E as <-. cbn [trying entries attempts hits].
  set (k := match es with [] => 0 | _ => max_n (keys es) + 1 end) in *.
  assert (Hk : ~ In k (keys es) /\ exists b', keys es ++ [k] = seq b' (S (List.length es))).
  { unfold k. destruct es as [|x es]; [split; [intros []|exists 0; reflexivity]|]. rewrite Hb. cbn [List.length]. rewrite max_seq. split; [rewrite in_seq; lia|].
    exists b. rewrite (seq_S (S (List.length es))). f_equal. f_equal. lia. }
  destruct Hk as (Hk1 & b' & Hk2). rewrite put_fresh by auto. split; [auto|]. do 2 (split; [auto|]). split; [|split; [lia|]].
  - exists b'. unfold keys in *. rewrite map_app, app_length. cbn [map fst List.length]. rewrite Nat.add_1_r. auto.
  - exists (map snd old). rewrite map_app. cbn [map snd]. rewrite app_assoc, <- map_app, <- Ho, map_length. split; auto. destruct Hl as [[-> ?]|?]; auto.
Qed.
Definition count_hits (L : list logged) : nat := List.length (List.filter is_hit L).
Lemma count_hits_app a b : count_hits (a ++ b) = count_hits a + count_hits b.
Proof. unfold count_hits. rewrite filter_app, app_length. auto. Qed.
(** state of the cache after the calls [L] *)
Definition ledger (m : nat) (L : list logged) (c : cache) : Prop :=
  if trying c then attempts c = List.length L /\ hits c = count_hits L /\ (attempts c <= 100 \/ attempts c <= 20 * hits c) /\ consecutive (entries c) /\
    (exists old, flat_map made L = old ++ map snd (entries c) /\ (old = [] \/ m + 2 <= List.length (entries c))) /\ List.length (entries c) <= 2 * m + 1
  else entries c = [] /\ exists L1 L2, L = L1 ++ L2 /\ 100 < List.length L1 /\ 20 * count_hits L1 < List.length L1 /\ Forall (fun l => is_hit l = false) L2.
Lemma call_ledger F m L st xs s st' l : ledger m L (s_cache st) -> call F st xs s m = Some (st', l) -> ledger m (L ++ [l]) (s_cache st').
Proof.
  intros I. unfold call. destruct (read_all (s_heap st) xs) as [ys|] eqn:Er; [|discriminate]. unfold comparer. unfold ledger in I. destruct (trying (s_cache st)) eqn:Et; cbn [negb].
  2:{ destruct I as (He & L1 & L2 & E & H1 & H2 & H3). destruct (F s ys) as [v|].
      - unfold add. rewrite Et. cbn [negb]. injection 1 as <- <-. unfold ledger. cbn [s_cache]. rewrite Et. split; auto. exists L1, (L2 ++ [ {| l_args := xs; l_str := s; l_arrays := ys; l_out := Made (List.length (s_heap st)); l_value := Some v |}]). subst L. rewrite app_assoc. repeat split; auto. apply Forall_app. auto.
      - injection 1 as <- <-. unfold ledger. cbn [s_cache]. rewrite Et. split; auto. exists L1, (L2 ++ [ {| l_args := xs; l_str := s; l_arrays := ys; l_out := Raised; l_value := None |}]). subst L. rewrite app_assoc. repeat split; auto. apply Forall_app. auto. }
  destruct I as (Ha & Hh & Hr & Hc & (old & Ho & Hold) & Hb). destruct (lookup (s_heap st) (entries (s_cache st)) ys s) as [f|]; [|discriminate]. cbv zeta.
  destruct ((100 <? _) && _) eqn:Eg.
  - apply andb_true_iff in Eg as [G1 G2]. apply Nat.ltb_lt in G1. apply Nat.ltb_lt in G2. destruct f as [e|].
    + injection 1 as <- <-. unfold ledger. cbn [s_cache trying entries]. split; auto. eexists (L ++ [_]), []. rewrite app_nil_r. split; [reflexivity|]. rewrite app_length, count_hits_app. cbn. repeat split; auto; lia.
    + destruct (F s ys) as [v|].
      * unfold add. cbn [trying negb]. injection 1 as <- <-. unfold ledger. cbn [s_cache trying entries]. split; auto. eexists (L ++ [_]), []. rewrite app_nil_r. split; [reflexivity|]. rewrite app_length, count_hits_app. cbn. repeat split; auto; lia.
      * injection 1 as <- <-. unfold ledger. cbn [s_cache trying entries]. split; auto. eexists (L ++ [_]), []. rewrite app_nil_r. split; [reflexivity|]. rewrite app_length, count_hits_app. cbn. repeat split; auto; lia.
  - apply andb_false_iff in Eg. rewrite !Nat.ltb_ge in Eg. destruct f as [e|].
    + injection 1 as <- <-. unfold ledger. cbn [s_cache trying entries attempts hits]. rewrite app_length, count_hits_app, flat_map_app. cbn. split; [lia|]. split; [lia|]. split; [lia|]. split; auto. split; [|lia]. exists old. rewrite app_nil_r. auto.
    + destruct (F s ys) as [v|].
      * match goal with |- context [add ?c0 ?a1 ?a2 ?a3 ?a4] => destruct (add c0 a1 a2 a3 a4) as [c'|] eqn:Ea; [|discriminate] end. injection 1 as <- <-.
        apply add_shape in Ea; [|exact Hc|reflexivity]. cbv zeta in Ea. cbn [attempts hits entries] in Ea. destruct Ea as (T & A & B & C & Hm & old2 & E2 & D). unfold ledger. cbn [s_cache]. rewrite T, A, B.
        rewrite app_length, count_hits_app, flat_map_app. cbn [flat_map made l_out l_args l_str app]. cbn [List.length count_hits List.filter is_hit l_out]. split; [lia|]. split; [cbn; lia|]. split; [lia|]. split; auto.
        pose proof (f_equal (@List.length entry) E2) as EL. rewrite !app_length, !map_length in EL. cbn [List.length] in EL. split; [|destruct D as [[-> D]|[D1 D2]]; cbn in EL; lia].
        exists (old ++ old2). rewrite Ho, <- !app_assoc. unfold made. cbn [l_out l_args l_str app]. split; [congruence|]. destruct D as [[-> D]|[D1 D2]].
        -- cbn in EL. rewrite app_nil_r. destruct Hold; auto. right. lia.
        -- right. lia.
      * injection 1 as <- <-. unfold ledger. cbn [s_cache trying entries attempts hits]. rewrite app_length, count_hits_app, flat_map_app. cbn. split; [lia|]. split; [lia|]. split; [lia|]. split; auto. split; [|lia]. exists old. rewrite app_nil_r. auto.
Qed.
Lemma run_ledger F m ops : forall L st st' log, bounded_by m ops -> ledger m L (s_cache st) -> run F st ops = Some (st', log) -> ledger m (L ++ log) (s_cache st').
Proof.
  induction ops as [|o ops IH]; intros L st st' log Hm I; cbn [run]; [injection 1 as <- <-; now rewrite app_nil_r|].
  destruct (step F st o) as [[st1 ls]|] eqn:Es; [|discriminate]. destruct (run F st1 ops) as [[st2 ls2]|] eqn:Er; [|discriminate]. injection 1 as <- <-. rewrite app_assoc.
  eapply IH; [intros ? ? ? H; eapply Hm; right; eauto| |exact Er].
  destruct o as [a|x a|xs s k]; cbn [step] in Es.
  - injection Es as <- <-. now rewrite app_nil_r.
  - destruct (x <? List.length (s_heap st)); [|discriminate]. injection Es as <- <-. now rewrite app_nil_r.
  - destruct (call F st xs s k) as [[st3 l3]|] eqn:Ec; [|discriminate]. injection Es as <- <-. rewrite (Hm xs s k) in Ec by now left. eapply call_ledger; eauto.
Qed.
Lemma cache_ledger F m ops st log : bounded_by m ops -> run F start ops = Some (st, log) ->
  List.length (entries (s_cache st)) <= 2 * m + 1 /\
  (if trying (s_cache st)
   then (exists old, flat_map made log = old ++ map snd (entries (s_cache st)) /\ (old = [] \/ m + 2 <= List.length (entries (s_cache st)))) /\
        (List.length log <= 100 \/ List.length log <= 20 * List.length (List.filter is_hit log))
   else entries (s_cache st) = [] /\ exists L1 L2, log = L1 ++ L2 /\ 100 < List.length L1 /\ 20 * List.length (List.filter is_hit L1) < List.length L1 /\ Forall (fun l => is_hit l = false) L2).
Proof.
  intros Hm R. assert (I : ledger m log (s_cache st)).
  { apply (run_ledger F m ops [] start st log Hm); auto. unfold ledger, start. cbn. split; auto. split; auto. split; [lia|]. split; [exists 0; auto|]. split; [|lia]. exists []. auto. }
  unfold ledger in I. destruct (trying (s_cache st)).
  - destruct I as (Ha & Hh & Hr & _ & Ho & Hb). split; [lia|]. split; auto. rewrite Ha, Hh in Hr. exact Hr.
  - destruct I as (He & Hl). split; [rewrite He; cbn; lia|]. split; auto.
Qed.

(** ** what was computed lately is not computed again *)
Definition kept (used : list nat) (L : list logged) (h : heap) : Prop := forall l, In l L -> read_all h (l_args l) = Some (l_arrays l) /\ incl (l_args l) used.
Lemma call_kept F used L st xs s m st' l : kept used L (s_heap st) -> call F st xs s m = Some (st', l) -> kept ((l_args l ++ returned l) ++ used) (L ++ [l]) (s_heap st').
Proof.
  intros K. unfold call. destruct (read_all (s_heap st) xs) as [ys|] eqn:Er; [|discriminate]. destruct (comparer (s_heap st) (s_cache st) ys s) as [[c r]|]; [|discriminate].
  assert (H : forall h' l, l_args l = xs -> l_arrays l = ys -> (forall ys0 zs, read_all (s_heap st) zs = Some ys0 -> read_all h' zs = Some ys0) -> kept ((l_args l ++ returned l) ++ used) (L ++ [l]) h').
  { intros h' l0 E1 E2 Hh x Hx. rewrite in_app_iff in Hx. destruct Hx as [Hx|[<-|[]]].
    - destruct (K x Hx) as [A B]. split; auto. intros y Hy. rewrite in_app_iff. auto.
    - split; [rewrite E1, E2; auto|]. intros y Hy. rewrite !in_app_iff. auto. }
  destruct r; [injection 1 as <- <-; apply H; auto|]. destruct (F s ys) as [v|]; [|injection 1 as <- <-; apply H; auto]. destruct (add _ _ _ _ _); [|discriminate]. injection 1 as <- <-. apply H; auto.
  intros. now apply read_all_app.
Qed.
Lemma made_filter L : flat_map made L = flat_map made (List.filter is_made L).
Proof. induction L as [|l L IH]; cbn; auto. unfold made at 1, is_made. destruct (l_out l) eqn:E; cbn; auto. unfold made at 2. rewrite E. cbn. f_equal; auto. Qed.
Lemma made_each L : Forall (fun l => is_made l = true) L -> forall old es, flat_map made L = old ++ es -> exists o r, L = o ++ r /\ List.length o = List.length old /\ flat_map made r = es.
Proof.
  induction 1 as [|l L Hl HL IH]; intros old es E.
  - cbn in E. symmetry in E. apply app_eq_nil in E as [-> ->]. exists [], []. auto.
  - unfold is_made in Hl. destruct (l_out l) as [|r|] eqn:Eo; try discriminate. cbn in E. unfold made in E at 1. rewrite Eo in E. destruct old as [|x old].
    + exists [], (l :: L). repeat split; auto. cbn. unfold made at 1. rewrite Eo. auto.
    + cbn in E. injection E as _ E. destruct (IH old es E) as (o & r' & -> & E1 & E2). exists (l :: o), r'. repeat split; auto. cbn. auto.
Qed.
Definition fresh_call (m : nat) (L : list logged) (l : logged) : Prop :=
  is_hit l = true \/ given_up L \/ exists old recent, List.filter is_made L = old ++ recent /\ (old = [] \/ m + 2 <= List.length recent) /\ forall l', In l' recent -> ~ alike l' l.
Lemma call_fresh F m used L st xs s st' l : ledger m L (s_cache st) -> kept used L (s_heap st) -> call F st xs s m = Some (st', l) -> fresh_call m L l.
Proof.
  intros I K. unfold call. destruct (read_all (s_heap st) xs) as [ys|] eqn:Er; [|discriminate]. unfold comparer. unfold ledger in I. destruct (trying (s_cache st)); cbn [negb].
  2:{ intros _. destruct I as (_ & L1 & L2 & E & H1 & H2 & _). right. left. exists L1, L2. auto. }
  destruct I as (_ & _ & _ & _ & (old & Ho & Hold) & _). destruct (lookup (s_heap st) (entries (s_cache st)) ys s) as [f|] eqn:El; [|discriminate]. cbv zeta.
  destruct f as [e|].
  { destruct (_ && _); injection 1 as <- <-; left; reflexivity. }
  intros E. assert (Hl : l_str l = s /\ l_arrays l = ys).
  { destruct (_ && _); destruct (F s ys); try (destruct (add _ _ _ _ _); [|discriminate]); injection E as <- <-; auto. }
  clear E. destruct Hl as [<- <-]. right. right. rewrite made_filter in Ho. apply made_each in Ho as (o & r & E1 & E2 & E3); [|apply Forall_forall; intros x Hx; apply filter_In in Hx; tauto].
  exists o, r. split; auto. split.
  - destruct Hold as [->|Hold]; [left; now destruct o|]. right. rewrite <- E3, <- (map_length snd), <- E3 in Hold || rewrite <- (map_length snd), <- E3 in Hold. clear -Hold E1.
    assert (Hf : Forall (fun l => is_made l = true) r). { apply Forall_forall. intros x Hx. assert (In x (List.filter is_made L)) by (rewrite E1, in_app_iff; auto). apply filter_In in H. tauto. }
    clear E1. assert (List.length (flat_map made r) = List.length r); [|lia]. clear Hold. induction Hf as [|x r Hx Hf IH]; cbn; auto. rewrite app_length, IH. unfold is_made in Hx. unfold made. destruct (l_out x); try discriminate. auto.
  - intros l' Hl' [As An].
    assert (Hin : In l' L /\ is_made l' = true). { assert (In l' (List.filter is_made L)) by (rewrite E1, in_app_iff; auto). apply filter_In in H. tauto. }
    destruct Hin as [Hin Hm]. unfold is_made in Hm. destruct (l_out l') as [|rr|] eqn:Eo; try discriminate.
    assert (He : In {| e_arrays := l_args l'; e_value := rr; e_str := l_str l' |} (map snd (entries (s_cache st)))).
    { rewrite <- E3. apply in_flat_map. exists l'. split; auto. unfold made. rewrite Eo. now left. }
    apply in_map_iff in He as ([k e] & Ee & He). cbn in Ee. destruct (lookup_none _ _ _ _ El k e He) as (cs & Hcs & Hn). apply Hn. subst e. cbn in *. rewrite (proj1 (K l' Hin)) in Hcs. injection Hcs as <-. auto.
Qed.
Lemma run_fresh F m ops : forall used L st st' log, bounded_by m ops -> ledger m L (s_cache st) -> kept used L (s_heap st) -> polite F used st ops -> run F st ops = Some (st', log) ->
  forall l1 l l2, log = l1 ++ l :: l2 -> fresh_call m (L ++ l1) l.
Proof.
  induction ops as [|o ops IH]; intros used L st st' log Hm I K P; cbn [run]; [injection 1 as <- <-; intros [|] ? ?; discriminate|].
  cbn [polite] in P. destruct P as [Po P]. destruct (step F st o) as [[st1 ls]|] eqn:Es; [|discriminate]. destruct (run F st1 ops) as [[st2 ls2]|] eqn:Er; [|discriminate]. injection 1 as <- <-.
  assert (Hm' : bounded_by m ops) by (intros ? ? ? H; eapply Hm; right; eauto).
  destruct o as [a|x a|xs s k]; cbn [step] in Es.
  - injection Es as <- <-. cbn [flat_map app] in *. eapply (IH used L _ _ _ Hm'); [| |exact P|exact Er]; [exact I|]. intros l Hl. destruct (K l Hl). split; auto. now apply read_all_app.
  - destruct (x <? List.length (s_heap st)); [|discriminate]. injection Es as <- <-. cbn [flat_map app] in *. eapply (IH used L _ _ _ Hm'); [| |exact P|exact Er]; [exact I|]. intros l Hl. destruct (K l Hl) as [A B]. split; auto. cbn [s_heap]. rewrite read_all_set; auto.
  - destruct (call F st xs s k) as [[st3 l3]|] eqn:Ec; [|discriminate]. injection Es as <- <-. rewrite (Hm xs s k) in Ec by now left. cbn [flat_map app] in P. rewrite app_nil_r in P.
    intros [|l0 l1] l l2 E; injection E as <- E.
    + rewrite app_nil_r. eapply call_fresh; eauto.
    + replace (L ++ l3 :: l1) with ((L ++ [l3]) ++ l1) by now rewrite <- app_assoc. eapply (IH _ (L ++ [l3])); eauto; [eapply call_ledger|eapply call_kept]; eauto.
Qed.
Lemma recent_calls_hit F m ops st log l1 l l2 : bounded_by m ops -> polite F [] start ops -> run F start ops = Some (st, log) -> log = l1 ++ l :: l2 ->
  is_hit l = true \/ given_up l1 \/ exists old recent, List.filter is_made l1 = old ++ recent /\ (old = [] \/ m + 2 <= List.length recent) /\ forall l', In l' recent -> ~ alike l' l.
Proof.
  intros Hm P R E. refine (run_fresh F m ops [] [] start st log Hm _ _ P R l1 l l2 E); [|intros ? []].
  unfold ledger, start. cbn. split; auto. split; auto. split; [lia|]. split; [exists 0; auto|]. split; [|lia]. exists []. auto.
Qed.

(** ** integer keys *)
Lemma qz_this z : (this (qz z) == inject_Z z)%Q.
Proof. unfold qz, Q2Qc. cbn [this]. apply Qred_correct. Qed.
Lemma near_ints a b : (-100000 < b < 100000)%Z -> near (qz a) (qz b) -> a = b.
Proof.
  intros Hb H. assert (B1 : (inject_Z b <= 99999)%Q) by (change 99999%Q with (inject_Z 99999); rewrite <- Zle_Qle; lia).
  assert (B2 : (-99999 <= inject_Z b)%Q) by (change (-99999)%Q with (inject_Z (-99999)); rewrite <- Zle_Qle; lia).
  destruct (Z.lt_trichotomy a b) as [L|[E|L]]; auto; exfalso.
  - assert (L' : (inject_Z a + 1 <= inject_Z b)%Q) by (change 1%Q with (inject_Z 1); rewrite <- inject_Z_plus, <- Zle_Qle; lia).
    unfold near, Qcle, Qcminus, Qcplus, Qcmult, Qcopp in H. unfold Q2Qc in H. cbn [this] in H. repeat (rewrite Qred_correct in H). rewrite !qz_this in H. destruct H as [[A B]|[A B]]; lra.
  - assert (L' : (inject_Z b + 1 <= inject_Z a)%Q) by (change 1%Q with (inject_Z 1); rewrite <- inject_Z_plus, <- Zle_Qle; lia).
    unfold near, Qcle, Qcminus, Qcplus, Qcmult, Qcopp in H. unfold Q2Qc in H. cbn [this] in H. repeat (rewrite Qred_correct in H). rewrite !qz_this in H. destruct H as [[A B]|[A B]]; lra.
Qed.
Lemma near_int_arrays xs : forall ys, Forall (fun y => (-100000 < y < 100000)%Z) ys -> near_array (int_array xs) (int_array ys) -> xs = ys.
Proof.
  intros ys H [E N]. cbn in E. injection E as E. cbn [int_array data] in N. revert ys H E N. induction xs as [|x xs IH]; intros [|y ys] H E N; try discriminate; auto.
  inversion H; subst. f_equal; [apply near_ints; auto; apply (N 0); reflexivity|]. apply IH; auto. intros i. apply (N (S i)).
Qed.
Lemma integer_keys_exact F ops st log l : polite F [] start ops -> run F start ops = Some (st, log) ->
  (forall l, In l log -> exists zs, l_arrays l = map int_array zs /\ Forall (Forall (fun z => (-100000 < z < 100000)%Z)) zs) -> In l log -> l_value l = F (l_str l) (l_arrays l).
Proof.
  intros P R H Hin. apply (cached_exact F ops st log l P R); auto. intros l1 l2 H1 H2 _ N. destruct (H l1 H1) as (z1 & E1 & _). destruct (H l2 H2) as (z2 & E2 & B2). rewrite E1, E2 in *. f_equal. clear -N B2.
  revert z2 N B2. induction z1 as [|a z1 IH]; intros [|b z2] N B; inversion N; inversion B; subst; auto. f_equal; auto using near_int_arrays.
Qed.
(** dofs of a numbering *)
Lemma find_exact gm nd ops st log l : polite (find_places gm nd) [] start ops -> run (find_places gm nd) start ops = Some (st, log) ->
  (forall l, In l log -> exists zs, l_arrays l = [int_array zs] /\ Forall (fun z => (-100000 < z < 100000)%Z) zs) -> In l log -> l_value l = find_places gm nd "" (l_arrays l).
Proof.
  intros P R H Hin. rewrite (integer_keys_exact (find_places gm nd) ops st log l); auto. intros l0 H0. destruct (H l0 H0) as (zs & -> & B). exists [zs]. auto.
Qed.
Definition one (z : Z) : arr := int_array [z].
(** two dofs beyond 1e5 *)
Definition far_ops : list op := [New (one 100001); New (one 100000); Call [0] "" 25; Call [1] "" 25].
Lemma far_dofs_refuted : exists gm nd ops st log l, polite (find_places gm nd) [] start ops /\ run (find_places gm nd) start ops = Some (st, log) /\ In l log /\
  l_arrays l = [one 100000] /\ l_value l = find_places gm nd "" [one 100001] /\ l_value l <> find_places gm nd "" [one 100000].
Proof.
  exists [[100000; 100001]]%Z, 100002%Z, far_ops. eexists _, _, _. split; [cbn; auto 10|]. split; [vm_compute; reflexivity|]. split; [right; left; reflexivity|]. split; [reflexivity|]. split; [vm_compute; reflexivity|].
  intros E. apply (f_equal (option_map (fun a => map this (data a)))) in E. vm_compute in E. discriminate.
Qed.
(** a dof that does not exist *)
Lemma missing_dof_refuted : exists gm nd ops st log l, polite (find_places gm nd) [] start ops /\ run (find_places gm nd) start ops = Some (st, log) /\ In l log /\
  find_places gm nd "" (l_arrays l) = None /\ l_out l <> Raised.
Proof.
  exists [[99999]]%Z, 100000%Z, [New (one 99999); New (one 100000); Call [0] "" 25; Call [1] "" 25]. eexists _, _, _. split; [cbn; auto 10|]. split; [vm_compute; reflexivity|]. split; [right; left; reflexivity|]. split; [vm_compute; reflexivity|discriminate].
Qed.
(** arrays changed by the caller *)
Definition ident (_ : string) (xs : list arr) : option arr := match xs with [a] => Some a | _ => None end.
Lemma changed_argument_refuted : exists a b st log l, run ident start [New a; Call [0] "" 25; Set_array 0 b; Call [0] "" 25] = Some (st, log) /\ In l log /\ l_arrays l = [b] /\ l_value l <> ident "" [b].
Proof.
  exists (one 1), (one 2). eexists _, _, _. split; [vm_compute; reflexivity|]. split; [right; left; reflexivity|]. split; [reflexivity|].
  intros E. apply (f_equal (option_map (fun a => map this (data a)))) in E. vm_compute in E. discriminate.
Qed.
Lemma changed_result_refuted : exists a b st log l, run ident start [New a; Call [0] "" 25; Set_array 1 b; Call [0] "" 25] = Some (st, log) /\ In l log /\ l_arrays l = [a] /\ l_value l <> ident "" [a].
Proof.
  exists (one 1), (one 2). eexists _, _, _. split; [vm_compute; reflexivity|]. split; [right; left; reflexivity|]. split; [reflexivity|].
  intros E. apply (f_equal (option_map (fun a => map this (data a)))) in E. vm_compute in E. discriminate.
Qed.
