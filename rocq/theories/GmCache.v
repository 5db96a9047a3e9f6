(** The cache of chained numberings *)
From Coq Require Import List Arith ZArith Bool Lia.
From Verif Require Import Dict GmModel GmSpec GmProofs GmChain.
Import ListNotations.

Lemma sig_eqb_spec a : forall b, sig_eqb a b = true <-> a = b.
Proof.
  induction a as [|x a IH]; intros [|y b]; simpl; split; intros H; try discriminate; auto.
  - apply andb_true_iff in H as [H1 H2]. apply Nat.eqb_eq in H1 as ->. f_equal. now apply IH.
  - injection H as -> ->. rewrite Nat.eqb_refl. now apply IH.
Qed.
Lemma distinct_spec l : distinct l = true <-> NoDup l.
Proof.
  induction l as [|a l IH]; simpl; [split; auto; constructor|]. rewrite andb_true_iff, negb_true_iff, IH. split.
  - intros [H1 H2]. constructor; auto. intros Hin. assert (existsb (Nat.eqb a) l = true); [|congruence].
    apply existsb_exists. exists a. split; auto. apply Nat.eqb_refl.
  - intros H. inversion H; subst. split; auto. destruct (existsb (Nat.eqb a) l) eqn:E; auto. exfalso.
    apply existsb_exists in E as (b & Hb & E). apply Nat.eqb_eq in E as ->. auto.
Qed.
Lemma get_snoc (h : dict nat gobj) n o i : nget (h ++ [(n, o)]) i = match nget h i with Some x => Some x | None => if i =? n then Some o else None end.
Proof. induction h as [|[k v] h IH]; simpl; auto. destruct (i =? k); auto. Qed.
Lemma get_filter (h : dict nat gobj) d i : nget (filter (fun io => negb (fst io =? d)) h) i = if i =? d then None else nget h i.
Proof.
  induction h as [|[k v] h IH]; simpl; [now destruct (i =? d)|].
  destruct (Nat.eqb_spec k d) as [->|Hn]; simpl.
  - rewrite IH. destruct (Nat.eqb_spec i d); auto.
  - rewrite IH. destruct (Nat.eqb_spec i k) as [->|]; auto. destruct (Nat.eqb_spec k d); tauto.
Qed.
Lemma obind_ext {A B} (f f' : A -> option B) l s : obind l f = Some s -> (forall a b, In a l -> f a = Some b -> f' a = Some b) -> obind l f' = Some s.
Proof.
  revert s. induction l as [|a l IH]; simpl; auto. intros s H Hf. destruct (f a) as [b|] eqn:E; [|discriminate].
  destruct (obind l f) as [bs|] eqn:Eb; [|discriminate]. rewrite (Hf a b); auto. rewrite (IH bs); auto.
Qed.

(** every chain is the chain of its members *)
Definition faithful (st : gstate) : Prop :=
  forall i o, nget (heap st) i = Some o -> o_members o <> [] ->
    exists os, obind (o_members o) (nget (heap st)) = Some os /\ chain (map o_gm os) = Some (o_gm o).
Definition addresses (ops : list gop) : list nat :=
  flat_map (fun op => match op with ONew a _ => [a] | _ => [] end) ops.

Definition Inv (A : list nat) (env : nat -> dgm) (st : gstate) : Prop :=
  (forall a, In a A -> wf_numbering (env a)) /\
  (forall i o, nget (heap st) i = Some o -> incl (o_sig o) A /\ chain (map env (o_sig o)) = Some (o_gm o)) /\
  (forall s c, get sig_eqb (chains st) s = Some c -> incl s A /\ chain (map env s) = Some c) /\
  (forall i o, nget (heap st) i = Some o -> i < next st) /\ faithful st.

Lemma faithful_add st o c : (forall i o, nget (heap st) i = Some o -> i < next st) -> faithful st ->
  (o_members o <> [] -> exists os, obind (o_members o) (nget (heap st)) = Some os /\ chain (map o_gm os) = Some (o_gm o)) ->
  faithful (g_add st o c).
Proof.
  intros Hn Hf Ho i o' Hg Hm. simpl in *. rewrite get_snoc in Hg.
  assert (forall a b, nget (heap st) a = Some b -> nget (heap st ++ [(next st, o)]) a = Some b) as Hext.
  { intros a b E. rewrite get_snoc, E. auto. }
  destruct (nget (heap st) i) as [x|] eqn:E.
  - injection Hg as ->. destruct (Hf i o' E Hm) as (os & H1 & H2). exists os. split; auto. eapply obind_ext; eauto.
  - destruct (i =? next st); [|discriminate]. injection Hg as <-. destruct (Ho Hm) as (os & H1 & H2). exists os. split; auto. eapply obind_ext; eauto.
Qed.
Lemma Inv_add A env st o c : Inv A env st -> incl (o_sig o) A -> chain (map env (o_sig o)) = Some (o_gm o) ->
  (forall s c', get sig_eqb c s = Some c' -> incl s A /\ chain (map env s) = Some c') ->
  (o_members o <> [] -> exists os, obind (o_members o) (nget (heap st)) = Some os /\ chain (map o_gm os) = Some (o_gm o)) ->
  Inv A env (g_add st o c).
Proof.
  intros (H1 & H2 & H3 & H4 & H5) Hi Hc Hch Ho. split; [auto|]. split; [|split; [exact Hch|split]].
  - intros i o'. simpl. rewrite get_snoc. destruct (nget (heap st) i) as [x|] eqn:E.
    + intros [= ->]. eauto.
    + destruct (i =? next st); [|discriminate]. intros [= <-]. auto.
  - intros i o'. simpl. rewrite get_snoc. destruct (nget (heap st) i) as [x|] eqn:E.
    + intros _. apply H4 in E. lia.
    + destruct (Nat.eqb_spec i (next st)); [|discriminate]. intros _. lia.
  - apply faithful_add; auto.
Qed.

Lemma Inv_env A env st a g : Inv A env st -> ~ In a A -> wf_numbering g -> Inv (a :: A) (fun x => if x =? a then g else env x) st.
Proof.
  intros (H1 & H2 & H3 & H4 & H5) Ha Hg.
  assert (forall s, incl s A -> map (fun x => if x =? a then g else env x) s = map env s) as Hs.
  { intros s Hs. apply map_ext_in. intros x Hx. destruct (Nat.eqb_spec x a) as [->|]; auto. exfalso. auto. }
  repeat split; auto.
  - intros x Hx. destruct (Nat.eqb_spec x a); auto. destruct Hx; [congruence|auto].
  - apply H2 in H. intros x Hx. right. now apply H.
  - apply H2 in H. rewrite Hs; tauto.
  - apply H3 in H. intros x Hx. right. now apply H.
  - apply H3 in H. rewrite Hs; tauto.
Qed.

Lemma Inv_step A env st op st' : Inv A env st -> g_step st op = Some st' -> (forall a, In a (addresses [op]) -> ~ In a A) ->
  exists env', Inv (addresses [op] ++ A) env' st'.
Proof.
  intros HI Hs Ha. destruct op as [a g|ids|d]; cbn [g_step addresses flat_map app] in *.
  - destruct (existsb _ _); [discriminate|]. destruct (distinct _) eqn:Ed; [|discriminate]. injection Hs as <-.
    apply distinct_spec in Ed. pose proof HI as (H1 & H2 & H3 & H4 & H5).
    assert (Inv (a :: A) (fun x => if x =? a then g else env x) st) as HI'.
    { apply Inv_env; auto. apply Ha; simpl; auto. }
    exists (fun x => if x =? a then g else env x). apply Inv_add; auto; simpl.
    + intros x [<-|[]]. simpl; auto.
    + now rewrite Nat.eqb_refl.
    + apply HI'.
    + tauto.
  - exists env. destruct (obind ids (nget (heap st))) as [os|] eqn:Eo; [|discriminate].
    pose proof HI as (H1 & H2 & H3 & H4 & H5).
    assert (ids <> [] -> chain (map o_gm os) = chain (map env (flat_map o_sig os)) /\ incl (flat_map o_sig os) A) as Hflat.
    { intros _. apply obind_forall2 in Eo.
      assert (Forall (fun o => incl (o_sig o) A /\ chain (map env (o_sig o)) = Some (o_gm o)) os) as Hos.
      { clear - Eo H2. induction Eo; constructor; eauto. }
      assert (incl (flat_map o_sig os) A) as Hin.
      { intros x Hx. apply in_flat_map in Hx as (o & Ho & Hx). rewrite Forall_forall in Hos. now apply (Hos o Ho). }
      split; auto. rewrite (chain_flatten (map (fun o => map env (o_sig o)) os)).
      - f_equal. clear. induction os; simpl; auto. now rewrite map_app, IHos.
      - clear - H1 Hos. induction Hos as [|o os [Hi _] _ IH]; constructor; auto. clear - H1 Hi. induction (o_sig o); constructor; [apply H1, Hi; simpl; auto|].
        apply IHl. intros x Hx. apply Hi. simpl; auto.
      - clear - Hos. induction Hos as [|o os [_ Hc] _ IH]; constructor; auto. }
    destruct os as [|o1 [|o2 os]]; [discriminate| |].
    + injection Hs as <-. apply obind_forall2 in Eo. inversion Eo as [|i1 ? ids' ? E1 Et]; subst. inversion Et; subst.
      destruct (H2 _ _ E1) as [Hi Hc]. apply Inv_add; auto; simpl; try (rewrite app_nil_r; auto).
      intros _. exists [o1]. now rewrite E1.
    + assert (ids <> []) as Hne by (intros ->; discriminate). destruct (Hflat Hne) as [Hf Hi].
      assert (forall c, chain (map o_gm (o1 :: o2 :: os)) = Some c -> forall cc, (forall s c', get sig_eqb cc s = Some c' -> incl s A /\ chain (map env s) = Some c') ->
        Inv A env (g_add st {| o_sig := flat_map o_sig (o1 :: o2 :: os); o_members := ids; o_gm := c |} cc)) as Hadd.
      { intros c Hc cc Hcc. apply Inv_add; auto; cbn [o_sig o_members o_gm]; [congruence|]. intros _. exists (o1 :: o2 :: os). auto. }
      destruct (get sig_eqb (chains st) (flat_map o_sig (o1 :: o2 :: os))) as [c|] eqn:Ec.
      * injection Hs as <-. apply Hadd; auto. apply H3 in Ec as [_ Ec]. congruence.
      * destruct (chaining (map o_gm (o1 :: o2 :: os))) as [c|] eqn:Ech; [|discriminate]. injection Hs as <-.
        assert (chain (map o_gm (o1 :: o2 :: os)) = Some c) as Ech' by (rewrite chain_eq; [auto|simpl; lia]).
        apply Hadd; auto. intros s c'. rewrite (get_put _ sig_eqb_spec).
        destruct (sig_eqb s _) eqn:Es; [|apply H3]. apply sig_eqb_spec in Es as ->. intros [= <-]. split; auto. etransitivity; [symmetry; exact Hf|exact Ech'].
  - exists env. destruct (existsb _ _) eqn:Ex; [discriminate|]. injection Hs as <-. destruct HI as (H1 & H2 & H3 & H4 & H5).
    split; [auto|]. split; [|split; [auto|split]]; cbn [heap next].
    + intros i o. rewrite get_filter. destruct (i =? d); [discriminate|]. apply H2.
    + intros i o. rewrite get_filter. destruct (i =? d); [discriminate|]. apply H4.
    + intros i o. cbn [heap]. rewrite get_filter. destruct (i =? d) eqn:Ei; [discriminate|]. intros Hg Hm.
      destruct (H5 i o Hg Hm) as (os & E1 & E2). exists os. split; auto. eapply obind_ext; eauto. intros x b Hx Hb. rewrite get_filter.
      destruct (Nat.eqb_spec x d) as [->|]; auto. exfalso.
      assert (existsb (fun o => existsb (Nat.eqb d) (o_members o)) (map snd (heap st)) = true); [|congruence].
      apply existsb_exists. exists o. split.
      * apply (get_in _ Nat_eqb_spec) in Hg. apply (in_map snd) in Hg. auto.
      * apply existsb_exists. exists d. split; auto. apply Nat.eqb_refl.
Qed.

Lemma Inv_run ops : forall A env st st', Inv A env st -> g_run st ops = Some st' -> NoDup (addresses ops ++ A) ->
  exists A' env', Inv A' env' st'.
Proof.
  induction ops as [|op ops IH]; cbn [g_run]; intros A env st st' HI Hr Hn; [injection Hr as <-; eauto|].
  destruct (g_step st op) as [st1|] eqn:E; [|discriminate].
  assert (addresses (op :: ops) = addresses [op] ++ addresses ops) as Ea by (unfold addresses; simpl; now rewrite app_nil_r).
  rewrite Ea, <- app_assoc in Hn. apply NoDup_app_elim in Hn as (N1 & N2 & N3).
  destruct (Inv_step A env st op st1 HI E) as [env' HI'].
  { intros a Ha Hin. apply (N3 a Ha). apply in_or_app; auto. }
  apply (IH _ _ _ _ HI' Hr). rewrite app_assoc. apply NoDup_app_elim in N2 as (N4 & N5 & N6).
  apply NoDup_app_intro; auto.
  - apply NoDup_app_intro; auto. intros a Ha H'. apply (N3 a H'). apply in_or_app; auto.
  - intros a Ha H'. apply in_app_or in Ha as [Ha|Ha]; [now apply (N6 a)|]. apply (N3 a Ha). apply in_or_app; auto.
Qed.
Lemma cache_faithful ops st : g_run g_init ops = Some st -> NoDup (addresses ops) -> faithful st.
Proof.
  intros Hr Hn. assert (Inv [] (fun _ => []) g_init) as H0.
  { split; [intros a []|]. split; [intros i o H; discriminate H|]. split; [intros s c H; discriminate H|]. split; intros i o H; discriminate H. }
  destruct (Inv_run ops [] _ _ _ H0 Hr) as (A & env & HI); [now rewrite app_nil_r|]. apply HI.
Qed.

(** an address given again *)
Definition reuse : list gop :=
  let g := [[(0, [0; 1]); (1, [1; 2])]] in let h := [[(0, [0]); (1, [1])]] in
  [ONew 1 g; ONew 2 h; OChain [0; 1]; ODel 2; ODel 0; ODel 1; ONew 1 h; ONew 2 g; OChain [3; 4]].
Lemma reuse_stale : exists st, g_run g_init reuse = Some st /\ ~ faithful st.
Proof.
  destruct (g_run g_init reuse) as [st|] eqn:E; [|vm_compute in E; discriminate]. exists st. split; auto. intros H.
  assert (exists o os, nget (heap st) 5 = Some o /\ o_members o <> [] /\ obind (o_members o) (nget (heap st)) = Some os /\
            chain (map o_gm os) <> Some (o_gm o)) as (o & os & H1 & H2 & H3 & H4).
  { clear H. vm_compute in E. injection E as <-. eexists. eexists. split; [reflexivity|]. split; [intros H; discriminate H|]. split; [reflexivity|]. intros H. vm_compute in H. congruence. }
  destruct (H 5 o H1 H2) as (os' & H5 & H6). congruence.
Qed.
