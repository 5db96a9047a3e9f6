From Coq Require Import ZArith List Arith Lia Bool.
From Verif Require Import NdArray LocalNumberingModel IncidenceModel Sums IncidenceSpec.
Import ListNotations.

(** * numberings made of consecutive blocks *)

Fixpoint consec (base : nat) (l : list arr) : Prop :=
  match l with
  | [] => True
  | a :: r => a_base a = base /\ consec (base + asize a) r
  end.

Definition total (l : list arr) : nat := fold_right (fun a s => asize a + s) 0 l.

Lemma aget_range a ix r : aget a ix = Some r -> a_base a <= r < a_base a + asize a.
Proof.
  unfold aget, asize. destruct (ravelF _ ix) eqn:E; [|discriminate].
  intros [= <-]. apply ravelF_lt in E. lia.
Qed.

Lemma consec_range b l c a ix r :
  consec b l -> nth_error l c = Some a -> aget a ix = Some r ->
  b <= r < b + total l.
Proof.
  revert b c; induction l as [|a0 l IH]; intros b [|c]; simpl; try discriminate.
  - intros [H1 H2] [= ->] H. apply aget_range in H. lia.
  - intros [H1 H2] H H'. specialize (IH _ _ H2 H H'). lia.
Qed.

Lemma consec_inj b l c a ix c' a' ix' r :
  consec b l -> nth_error l c = Some a -> aget a ix = Some r ->
  nth_error l c' = Some a' -> aget a' ix' = Some r -> c = c' /\ ix = ix'.
Proof.
  revert b c c'; induction l as [|a0 l IH]; intros b [|c] [|c']; simpl; try discriminate.
  - intros _ [= ->] H [= ->] H'. split; auto.
    unfold aget in *. destruct (ravelF _ ix) eqn:E; [|discriminate].
    destruct (ravelF _ ix') eqn:E'; [|discriminate].
    injection H as <-. injection H' as H'. assert (n0 = n) by lia; subst.
    eapply ravelF_inj; eauto.
  - intros [H1 H2] [= ->] H H3 H4. apply aget_range in H.
    pose proof (consec_range _ _ _ _ _ _ H2 H3 H4). lia.
  - intros [H1 H2] H3 H4 [= ->] H. apply aget_range in H.
    pose proof (consec_range _ _ _ _ _ _ H2 H3 H4). lia.
  - intros [H1 H2] Ha H Hb H'. destruct (IH _ _ _ H2 Ha H Hb H'); auto.
Qed.

Lemma consec_surj b l r :
  consec b l -> b <= r < b + total l ->
  exists c a ix, nth_error l c = Some a /\ aget a ix = Some r.
Proof.
  revert b; induction l as [|a l IH]; intros b; simpl; [lia|].
  intros [H1 H2] Hr. destruct (Nat.lt_ge_cases r (b + asize a)) as [Hlt|Hge].
  - destruct (ravelF_surj (a_shape a) (r - b)) as [ix Hix]; [unfold asize in Hlt; lia|].
    exists 0, a, ix. split; auto. unfold aget. rewrite Hix. f_equal. lia.
  - destruct (IH _ H2) as (c & a' & ix & Hc & Hx); [lia|]. exists (S c), a', ix; auto.
Qed.

Lemma consec_bijective l N :
  consec 0 l -> total l = N -> numbering_bijective (Some l) N.
Proof.
  intros Hc <-. repeat split.
  - intros c ix r (l' & a & [= <-] & Ha & Hg). pose proof (consec_range _ _ _ _ _ _ Hc Ha Hg). lia.
  - destruct H as (l' & a & [= <-] & Ha & Hg). destruct H0 as (l' & a' & [= <-] & Ha' & Hg').
    eapply (consec_inj _ _ _ _ _ _ _ _ _ Hc Ha Hg Ha' Hg').
  - destruct H as (l' & a & [= <-] & Ha & Hg). destruct H0 as (l' & a' & [= <-] & Ha' & Hg').
    eapply (consec_inj _ _ _ _ _ _ _ _ _ Hc Ha Hg Ha' Hg').
  - intros r Hr. destruct (consec_surj _ _ r Hc) as (c & a & ix & Ha & Hg); [lia|].
    exists c, ix, l, a; auto.
Qed.

Lemma consec_block b l c a :
  consec b l -> nth_error l c = Some a ->
  a_base a = b + fold_right Nat.add 0 (firstn c (map asize l)).
Proof.
  revert b c; induction l as [|a0 l IH]; intros b [|c]; simpl; try discriminate.
  - intros [H _] [= ->]; lia.
  - intros [_ H] Ha. rewrite (IH _ _ H Ha). lia.
Qed.

Lemma consec_component_blocks l sizes :
  consec 0 l -> map asize l = sizes -> component_blocks (Some l) sizes.
Proof.
  intros Hc <-. split.
  - intros ? [= <-]. now rewrite map_length.
  - intros c n Hn r.
    rewrite nth_error_map in Hn. destruct (nth_error l c) as [a|] eqn:Ha; [|discriminate].
    injection Hn as <-. pose proof (consec_block _ _ _ _ Hc Ha) as Hb. simpl in Hb.
    split.
    + intros (ix & l' & a' & [= <-] & Ha' & Hg). rewrite Ha in Ha'. injection Ha' as <-.
      apply aget_range in Hg. lia.
    + intros Hr. destruct (ravelF_surj (a_shape a) (r - a_base a)) as [ix Hix];
        [change (prodl (a_shape a)) with (asize a); lia|].
      exists ix, l, a. repeat split; auto. unfold aget. rewrite Hix. f_equal. lia.
Qed.

(** * reading a filled matrix *)

Fixpoint last_assoc (l : list (nat * Z)) (c : nat) (acc : Z) : Z :=
  match l with
  | [] => acc
  | (c', v) :: l' => last_assoc l' c (if c =? c' then v else acc)
  end.

Definition row_of (w : list (nat * nat * Z)) (r : nat) : list (nat * Z) :=
  map (fun x => (snd (fst x), snd x)) (filter (fun x => fst (fst x) =? r) w).

Lemma last_write_row w r c acc : last_write w r c acc = last_assoc (row_of w r) c acc.
Proof.
  revert acc; induction w as [|[[r' c'] v] w IH]; intros acc; simpl; auto.
  rewrite IH. unfold row_of; simpl. rewrite (Nat.eqb_sym r' r).
  destruct (r =? r'); simpl; auto.
Qed.

Lemma row_of_app u v r : row_of (u ++ v) r = row_of u r ++ row_of v r.
Proof. unfold row_of. now rewrite filter_app, map_app. Qed.

Lemma last_assoc_notin l c acc : ~ In c (map fst l) -> last_assoc l c acc = acc.
Proof.
  revert acc; induction l as [|[c' v] l IH]; simpl; intros acc H; auto.
  rewrite IH by tauto. destruct (Nat.eqb_spec c c'); auto. subst; tauto.
Qed.

Local Open Scope Z_scope.

Lemma sum_last_assoc n l x :
  NoDup (map fst l) -> Forall (fun p => (fst p < n)%nat) l ->
  sumn n (fun c => last_assoc l c 0 * x c) = zsum (map (fun p => snd p * x (fst p)) l).
Proof.
  induction l as [|[c v] l IH]; simpl; intros Hn Hf.
  - apply sumn_zero; intros; lia.
  - inversion Hn; subst. inversion Hf; subst. simpl in *.
    rewrite <- IH by auto. clear IH.
    assert (forall c', last_assoc l c' (if (c' =? c)%nat then v else 0)
                       = last_assoc l c' 0 + (if (c' =? c)%nat then v else 0)) as E.
    { intros c'. destruct (Nat.eqb_spec c' c); [subst|lia].
      rewrite !last_assoc_notin by auto. lia. }
    erewrite sumn_ext.
    2:{ intros i Hi. rewrite E, Z.mul_add_distr_r. reflexivity. }
    rewrite sumn_add. rewrite Z.add_comm. f_equal.
    rewrite (sumn_single n _ c); auto.
    + rewrite Nat.eqb_refl; auto.
    + intros j _ Hj. apply Nat.eqb_neq in Hj. rewrite Hj. lia.
Qed.

(** ** the loops *)

Lemma mapM_some {A B} (f : A -> option B) l s :
  mapM f l = Some s -> Forall2 (fun a b => f a = Some b) l s.
Proof.
  revert s; induction l as [|a l IH]; simpl; intros s; [intros [= <-]; constructor|].
  destruct (f a) eqn:E; [|discriminate]. destruct (mapM f l); [|discriminate].
  intros [= <-]. constructor; auto.
Qed.

Lemma mapM_ok {A B} (f : A -> option B) l :
  (forall a, In a l -> exists b, f a = Some b) -> exists s, mapM f l = Some s.
Proof.
  induction l as [|a l IH]; simpl; intros H; [eauto|].
  destruct (H a) as [b ->]; [auto|]. destruct IH as [s ->]; [auto|]. eauto.
Qed.

Lemma mapM_ext {A B} (f g : A -> option B) l :
  (forall a, In a l -> f a = g a) -> mapM f l = mapM g l.
Proof.
  induction l as [|a l IH]; simpl; intros H; auto.
  rewrite H, IH; auto.
Qed.

Definition col_of (sn : list comp) (t : term) : option nat :=
  match nth_error sn (fst (fst t)) with
  | Some (_, look) => look (snd (fst t))
  | None => None
  end.
Definition term_ok nc sn (t : term) : Prop := exists c, col_of sn t = Some c /\ (c < nc)%nat.
Definition tcol sn (t : term) : nat :=
  match col_of sn t with Some c => c | None => O end.

Lemma do_term_some nr nc sn r t w :
  do_term nr nc sn r t = Some w ->
  w = (r, tcol sn t, snd t) /\ (r < nr)%nat /\ term_ok nc sn t.
Proof.
  unfold do_term, tcol, term_ok, col_of. destruct t as [[c ix] v]; simpl.
  destruct (nth_error sn c) as [[sh look]|]; [|discriminate].
  destruct (look ix) as [col|]; [|discriminate].
  destruct (r <? nr)%nat eqn:E1; simpl; [|discriminate].
  destruct (col <? nc)%nat eqn:E2; [|discriminate].
  apply Nat.ltb_lt in E1, E2. intros [= <-]. eauto.
Qed.

Lemma do_term_ok nr nc sn r t :
  (r < nr)%nat -> term_ok nc sn t -> do_term nr nc sn r t = Some (r, tcol sn t, snd t).
Proof.
  unfold do_term, tcol, term_ok, col_of. destruct t as [[c ix] v]; simpl.
  intros H (col & Hc & Hl). destruct (nth_error sn c) as [[sh look]|]; [|discriminate].
  rewrite Hc. apply Nat.ltb_lt in H, Hl. rewrite H, Hl. reflexivity.
Qed.

Lemma do_cell_some nr nc sn look b ix w :
  do_cell nr nc sn look b ix = Some w ->
  exists r, look ix = Some r /\ w = map (fun t => (r, tcol sn t, snd t)) (b ix)
            /\ Forall (term_ok nc sn) (b ix) /\ (b ix <> [] -> (r < nr)%nat).
Proof.
  unfold do_cell. destruct (look ix) as [r|]; [|discriminate]. intros H.
  exists r. split; auto. apply mapM_some in H.
  induction H as [|t x l s H1 H2 IH]; simpl; [repeat split; auto; congruence|].
  apply do_term_some in H1 as (-> & Hr & Hok).
  destruct IH as (-> & IHf & _). repeat split; auto.
Qed.

Lemma row_of_cell r r' (l : list (nat * Z)) :
  row_of (map (fun p => (r, fst p, snd p)) l) r' = if (r =? r')%nat then l else [].
Proof.
  unfold row_of. induction l as [|[c v] l IH]; simpl.
  - destruct (r =? r')%nat; auto.
  - destruct (r =? r')%nat eqn:E; simpl; rewrite ?IH; auto.
Qed.

Definition cols sn (l : list term) : list (nat * Z) := map (fun t => (tcol sn t, snd t)) l.

(** concatenated rows of a list of cells *)
Lemma row_of_cells nr nc sn look b ixs ws r :
  Forall2 (fun ix w => do_cell nr nc sn look b ix = Some w) ixs ws ->
  row_of (concat ws) r =
  flat_map (fun ix => if match look ix with Some r' => (r' =? r)%nat | None => false end
                      then cols sn (b ix) else []) ixs.
Proof.
  induction 1 as [|ix w ixs ws H _ IH]; simpl; auto.
  rewrite row_of_app, IH. f_equal.
  apply do_cell_some in H as (r' & -> & -> & _ & _).
  replace (map (fun t => (r', tcol sn t, snd t)) (b ix))
    with (map (fun p => (r', fst p, snd p)) (cols sn (b ix))).
  2:{ unfold cols. rewrite map_map. reflexivity. }
  apply row_of_cell.
Qed.

Lemma flat_map_nil {A B} (f : A -> list B) l :
  (forall a, In a l -> f a = []) -> flat_map f l = [].
Proof.
  induction l; simpl; intros H; auto. rewrite H by auto. simpl; auto.
Qed.

Lemma flat_map_one {A B} (f : A -> list B) l a :
  NoDup l -> In a l -> (forall b, In b l -> b <> a -> f b = []) -> flat_map f l = f a.
Proof.
  induction l as [|b l IH]; simpl; intros Hn Hi Hz; [contradiction|]. inversion Hn; subst.
  destruct Hi as [->|Hi].
  - rewrite flat_map_nil; [apply app_nil_r|]. intros c Hc. apply Hz; auto.
    intros ->; contradiction.
  - rewrite (Hz b); [simpl; apply IH; auto | left; auto | intros ->; contradiction].
Qed.

Definition rows_inj (dn : list comp) : Prop :=
  forall c sh look ix c' sh' look' ix' r,
    nth_error dn c = Some (sh, look) -> nth_error dn c' = Some (sh', look') ->
    In ix (indices sh) -> In ix' (indices sh') ->
    look ix = Some r -> look' ix' = Some r -> c = c' /\ ix = ix'.

Lemma row_of_fill nr nc dn sn bs m c sh look b ix r :
  fill nr nc dn sn bs = Some m -> rows_inj dn ->
  nth_error dn c = Some (sh, look) -> nth_error bs c = Some b ->
  In ix (indices sh) -> look ix = Some r ->
  row_of (m_writes m) r = cols sn (b ix) /\ Forall (term_ok nc sn) (b ix)
  /\ m_rows m = nr /\ m_cols m = nc.
Proof.
  unfold fill. intros Hf Hinj Hc Hb Hix Hl.
  destruct (mapM (do_comp nr nc sn) (combine dn bs)) as [ws|] eqn:E; [|discriminate].
  injection Hf as <-. simpl. apply mapM_some in E.
  assert (forall k dn' bs' ws',
     Forall2 (fun a w => do_comp nr nc sn a = Some w) (combine dn' bs') ws' ->
     (forall i, nth_error dn' i = nth_error dn (k + i)) ->
     row_of (concat ws') r = [] \/ (k <= c)%nat) as Hskip.
  { intros k dn'. revert k. induction dn' as [|[sh' look'] dn' IH]; intros k bs' ws' H Hn; simpl in H.
    - inversion H; subst. left; reflexivity.
    - destruct bs' as [|b' bs']; [inversion H; subst; left; reflexivity|].
      inversion H as [|? w ? ws'' H1 H2]; subst.
      destruct (Nat.le_gt_cases k c) as [?|Hgt]; [auto|left].
      simpl. rewrite row_of_app.
      destruct (IH (S k) bs' ws'' H2) as [Hz|Hz]; [|rewrite Hz|lia].
      { intros i. specialize (Hn (S i)). simpl in Hn. rewrite Hn. f_equal; lia. }
      rewrite app_nil_r. simpl in H1.
      destruct (mapM (do_cell nr nc sn look' b') (indices sh')) eqn:Em; [|discriminate].
      injection H1 as <-. apply mapM_some in Em.
      rewrite (row_of_cells _ _ _ _ _ _ _ r Em). apply flat_map_nil.
      intros iy Hy. destruct (look' iy) as [r'|] eqn:El; auto.
      destruct (Nat.eqb_spec r' r); auto. subst r'. exfalso.
      specialize (Hn 0%nat). simpl in Hn. rewrite Nat.add_0_r in Hn.
      destruct (Hinj c sh look ix k sh' look' iy r) as [? _]; auto; lia. }
  assert (forall k dn' bs' ws',
     Forall2 (fun a w => do_comp nr nc sn a = Some w) (combine dn' bs') ws' ->
     (k <= c)%nat ->
     (forall i, nth_error dn' i = nth_error dn (k + i)) ->
     (forall i, nth_error bs' i = nth_error bs (k + i)) ->
     row_of (concat ws') r = cols sn (b ix) /\ Forall (term_ok nc sn) (b ix)) as Hmain.
  { intros k dn'. revert k. induction dn' as [|[sh' look'] dn' IH]; intros k bs' ws' H Hk Hn Hm; simpl in H.
    - specialize (Hn (c - k)%nat). replace (k + (c - k))%nat with c in Hn by lia.
      rewrite Hc in Hn. destruct (c - k)%nat; discriminate.
    - destruct bs' as [|b' bs'].
      { specialize (Hm (c - k)%nat). replace (k + (c - k))%nat with c in Hm by lia.
        rewrite Hb in Hm. destruct (c - k)%nat; discriminate. }
      inversion H as [|? w ? ws'' H1 H2]; subst. simpl. rewrite row_of_app.
      simpl in H1.
      destruct (mapM (do_cell nr nc sn look' b') (indices sh')) as [cw|] eqn:Em; [|discriminate].
      injection H1 as <-. apply mapM_some in Em.
      rewrite (row_of_cells _ _ _ _ _ _ _ r Em).
      assert (Hn0 := Hn 0%nat). simpl in Hn0. rewrite Nat.add_0_r in Hn0.
      assert (Hm0 := Hm 0%nat). simpl in Hm0. rewrite Nat.add_0_r in Hm0.
      destruct (Nat.eq_dec k c) as [->|Hne].
      + rewrite Hc in Hn0. rewrite Hb in Hm0. injection Hn0 as -> ->. injection Hm0 as ->.
        rewrite (flat_map_one _ (indices sh) ix); auto; [|apply indices_NoDup|].
        * rewrite Hl, Nat.eqb_refl.
          destruct (Hskip (S c) dn' bs' ws'' H2) as [Hz|Hz]; [|rewrite Hz|lia].
          { intros i. specialize (Hn (S i)). simpl in Hn. rewrite Hn. f_equal; lia. }
          rewrite app_nil_r. split; auto.
          clear - Em Hix. revert Hix. induction Em as [|iy w ixs ws H _ IH]; simpl; [contradiction|].
          intros [->|Hin]; auto. apply do_cell_some in H as (? & _ & _ & ? & _); auto.
        * intros iy Hy Hne. destruct (look iy) as [r'|] eqn:El; auto.
          destruct (Nat.eqb_spec r' r); auto. subst r'. exfalso.
          destruct (Hinj c sh look ix c sh look iy r) as [_ ?]; auto.
      + rewrite (flat_map_nil _ (indices sh')).
        * simpl. apply (IH (S k) bs' ws'' H2); [lia| |].
          { intros i. specialize (Hn (S i)). simpl in Hn. rewrite Hn. f_equal; lia. }
          { intros i. specialize (Hm (S i)). simpl in Hm. rewrite Hm. f_equal; lia. }
        * intros iy Hy. destruct (look' iy) as [r'|] eqn:El; auto.
          destruct (Nat.eqb_spec r' r); auto. subst r'. exfalso.
          destruct (Hinj c sh look ix k sh' look' iy r) as [? _]; auto. }
  destruct (Hmain 0%nat dn bs ws E) as [H1 H2]; auto with arith.
Qed.

(** action of a filled matrix on a cochain at the row of cell [ix] of component [c] *)
Lemma fill_action nr nc dn sn bs m c sh look b ix r x :
  fill nr nc dn sn bs = Some m -> rows_inj dn ->
  nth_error dn c = Some (sh, look) -> nth_error bs c = Some b ->
  In ix (indices sh) -> look ix = Some r ->
  NoDup (map (tcol sn) (b ix)) ->
  matvec m x r = zsum (map (fun t => snd t * x (tcol sn t)) (b ix)).
Proof.
  intros Hf Hinj Hc Hb Hix Hl Hnd.
  destruct (row_of_fill _ _ _ _ _ _ _ _ _ _ _ _ Hf Hinj Hc Hb Hix Hl) as (Hr & Hok & _ & Hcols).
  unfold matvec, entry. rewrite Hcols.
  erewrite sumn_ext.
  2:{ intros i Hi. rewrite last_write_row, Hr. reflexivity. }
  rewrite sum_last_assoc.
  - unfold cols. rewrite map_map. reflexivity.
  - unfold cols. rewrite map_map. simpl. auto.
  - unfold cols. apply Forall_map. simpl. eapply Forall_impl; [|exact Hok].
    intros t (col & Ht & Hlt). unfold tcol. rewrite Ht. auto.
Qed.

(** filling succeeds *)
Lemma fill_ok nr nc dn sn bs :
  (forall c sh look b ix, nth_error dn c = Some (sh, look) -> nth_error bs c = Some b ->
     In ix (indices sh) ->
     exists r, look ix = Some r /\ (r < nr)%nat /\ Forall (term_ok nc sn) (b ix)) ->
  exists m, fill nr nc dn sn bs = Some m /\ m_rows m = nr /\ m_cols m = nc.
Proof.
  intros H. unfold fill.
  enough (exists ws, mapM (do_comp nr nc sn) (combine dn bs) = Some ws) as [ws Hw].
  { exists (mk_mat nr nc (concat ws)). unfold comp, body in *. rewrite Hw. simpl; auto. }
  apply mapM_ok. intros [[sh look] b] Hin.
  assert (exists c, nth_error dn c = Some (sh, look) /\ nth_error bs c = Some b) as (c & Hc & Hb).
  { clear H. revert bs Hin. induction dn as [|d dn IH]; intros [|b0 bs]; simpl; try contradiction.
    intros [E|Hin].
    - injection E as -> ->. exists 0%nat; auto.
    - destruct (IH _ Hin) as (c & ? & ?). exists (S c); auto. }
  simpl. destruct (mapM_ok (do_cell nr nc sn look b) (indices sh)) as [s ->]; [|simpl; eauto].
  intros ix Hix. destruct (H c sh look b ix Hc Hb Hix) as (r & Hr & Hlt & Hok).
  unfold do_cell. rewrite Hr. apply mapM_ok. intros t Ht.
  rewrite Forall_forall in Hok. eexists. apply do_term_ok; auto.
Qed.

(** * numberings as comps *)

Lemma rows_inj_arr l : consec 0 l -> rows_inj (map of_arr l).
Proof.
  intros Hc c sh look ix c' sh' look' ix' r H1 H2 _ _ H3 H4.
  rewrite nth_error_map in H1, H2.
  destruct (nth_error l c) as [a|] eqn:Ea; [|discriminate].
  destruct (nth_error l c') as [a'|] eqn:Ea'; [|discriminate].
  injection H1 as <- <-. injection H2 as <- <-.
  eapply consec_inj; eauto.
Qed.

Lemma tcol_arr l c ix v :
  tcol (map of_arr l) (c, ix, v) =
  match nth_error l c with Some a => match aget a ix with Some r => r | None => O end | None => O end.
Proof.
  unfold tcol, col_of; simpl. rewrite nth_error_map.
  destruct (nth_error l c) as [a|]; simpl; auto.
Qed.

Lemma tcol_coef l c ix v r x :
  num (Some l) c ix r -> x (tcol (map of_arr l) (c, ix, v)) = coef x (Some l) c ix.
Proof.
  intros (l' & a & [= <-] & Ha & Hg). rewrite tcol_arr. unfold coef.
  now rewrite Ha, Hg.
Qed.

Lemma term_ok_arr l c ix v r N :
  num (Some l) c ix r -> (r < N)%nat -> term_ok N (map of_arr l) (c, ix, v).
Proof.
  intros (l' & a & [= <-] & Ha & Hg) Hr. exists r. split; auto.
  unfold col_of; simpl. rewrite nth_error_map, Ha. simpl. auto.
Qed.

Lemma NoDup_tcol l (ts : list term) :
  consec 0 l -> Forall (fun t => exists r, num (Some l) (fst (fst t)) (snd (fst t)) r) ts ->
  NoDup (map fst ts) -> NoDup (map (tcol (map of_arr l)) ts).
Proof.
  intros Hc. induction ts as [|t ts IH]; simpl; intros Hf Hn; [constructor|].
  inversion Hf; subst. inversion Hn; subst. constructor; auto.
  rewrite in_map_iff. intros (t' & Heq & Hin).
  apply H3. rewrite Forall_forall in H2. destruct (H2 t' Hin) as [r' Hr'].
  destruct H1 as [r Hr]. destruct t as [[c ix] v], t' as [[c' ix'] v']; simpl in *.
  rewrite !tcol_arr in Heq.
  destruct Hr as (? & a & [= <-] & Ha & Hg). destruct Hr' as (? & a' & [= <-] & Ha' & Hg').
  rewrite Ha, Hg, Ha', Hg' in Heq. subst r'.
  destruct (consec_inj _ _ _ _ _ _ _ _ _ Hc Ha Hg Ha' Hg') as [-> ->].
  apply in_map_iff. exists (c', ix', v'). auto.
Qed.

(** one lemma for all the quadrilateral / hexahedral matrices *)
Lemma fill_arr_spec nr nc (d s : list arr) bs :
  consec 0 d -> consec 0 s -> (total d <= nr)%nat -> (total s <= nc)%nat ->
  (forall c b ix r, nth_error bs c = Some b -> num (Some d) c ix r ->
     Forall (fun t => exists r', num (Some s) (fst (fst t)) (snd (fst t)) r') (b ix) /\
     NoDup (map fst (b ix))) ->
  exists E, fill_arr nr nc (Some d) (Some s) bs = Some E /\ m_rows E = nr /\ m_cols E = nc /\
   forall x c b ix r, nth_error bs c = Some b -> num (Some d) c ix r ->
     matvec E x r = zsum (map (fun t => snd t * coef x (Some s) (fst (fst t)) (snd (fst t))) (b ix)).
Proof.
  intros Hd Hs Htd Hts Hb. unfold fill_arr.
  destruct (fill_ok nr nc (map of_arr d) (map of_arr s) bs) as (E & HE & Hr & Hc).
  { intros c sh look b ix H1 H2 H3. rewrite nth_error_map in H1.
    destruct (nth_error d c) as [a|] eqn:Ea; [|discriminate]. injection H1 as <- <-.
    apply in_indices_ravel in H3 as [q Hq].
    assert (aget a ix = Some (a_base a + q)%nat) as Hg by (unfold aget; now rewrite Hq).
    assert (num (Some d) c ix (a_base a + q)) as Hnum by (exists d, a; auto).
    exists (a_base a + q)%nat. split; auto. split.
    - pose proof (consec_range _ _ _ _ _ _ Hd Ea Hg). lia.
    - destruct (Hb c b ix _ H2 Hnum) as [Hf _]. eapply Forall_impl; [|exact Hf].
      intros [[c' ix'] v] [r' Hr']; simpl in *. eapply term_ok_arr; eauto.
      destruct Hr' as (? & a' & [= <-] & Ha' & Hg').
      pose proof (consec_range _ _ _ _ _ _ Hs Ha' Hg'). lia. }
  exists E. repeat split; auto.
  intros x c b ix r Hbc Hnum. destruct (Hb c b ix r Hbc Hnum) as [Hf Hn].
  destruct Hnum as (? & a & [= <-] & Ha & Hg).
  rewrite (fill_action nr nc (map of_arr d) (map of_arr s) bs E c (a_shape a) (aget a) b ix r x); auto.
  - apply zsum_map_ext. intros [[c' ix'] v] Hin. rewrite Forall_forall in Hf.
    destruct (Hf _ Hin) as [r' Hr']. simpl in *. erewrite tcol_coef; eauto.
  - apply rows_inj_arr; auto.
  - rewrite nth_error_map, Ha. reflexivity.
  - apply in_indices_ravel. unfold aget in Hg. destruct (ravelF _ ix); eauto; discriminate.
  - apply NoDup_tcol; auto.
Qed.
