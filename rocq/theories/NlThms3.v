(** Theorems about terms with three forms, and wrong or raising terms. *)
From Coq Require Import List FinFun Arith Bool ZArith Reals Lia Lra.
From Verif Require Import NlModel NlSpec NlSums NlTerms.
Import ListNotations.
Local Open Scope R_scope.

Ltac letters f vf E := destruct (f =? vf)%nat eqn:E; [apply Nat.eqb_eq in E|]; cbn [negb].
Ltac small_index := intros [|[|[|m]]] Hm; cbn in Hm; try discriminate; try (destruct m; discriminate); cbn; try assumption.

Lemma count_3 vf fa fb fc : count_occ Nat.eq_dec [fa; fb; fc] vf
  = ((if fa =? vf then 1 else 0) + (if fb =? vf then 1 else 0) + (if fc =? vf then 1 else 0))%nat.
Proof.
  cbn. destruct (Nat.eq_dec fa vf), (Nat.eq_dec fb vf), (Nat.eq_dec fc vf);
    repeat match goal with
    | H : ?a = ?b |- context[(?a =? ?b)%nat] => rewrite (proj2 (Nat.eqb_eq a b) H)
    | H : ?a <> ?b |- context[(?a =? ?b)%nat] => rewrite (proj2 (Nat.eqb_neq a b) H)
    end; reflexivity.
Qed.

Section three.
  Variables (fa fb fc : nat) (T : nd) (dim : nat -> nat) (c : nat -> list R).
  Hypotheses (Hsh : shape T = map dim [fa; fb; fc]) (Hlen : forall f, In f [fa; fb; fc] -> length (c f) = dim f).
  Let co (f : nat) : nat -> R := fun k => nth k (c f) 0.

  Theorem vector_value vf : count_occ Nat.eq_dec [fa; fb; fc] vf = 1%nat ->
    exists a, one_dim [fa; fb; fc] vf T c = Some a /\ shape a = [dim vf] /\
      forall i, (i < dim vf)%nat -> at_ a [i] = mform (shape T) (at_ T)
        (map (fun f => if (f =? vf)%nat then delta i else co f) [fa; fb; fc]).
  Proof.
    intros Hv. rewrite count_3 in Hv. unfold one_dim, letters_same, letters_other. cbn [seq combine filter fst snd map].
    letters fa vf Ea; letters fb vf Eb; letters fc vf Ec; cbn in Hv; try discriminate; cbn [map fst snd].
    - destruct (einsum_any T [None; Some (c fb); Some (c fc)] [0%nat]) as (a & Ha & Hs & Hval).
      + rewrite Hsh. cbn. split; [apply Hlen; cbn; auto|]. split; [apply Hlen; cbn; auto|exact I].
      + intros l. cbn. tauto.
      + cbn in Ha. rewrite Ha. exists a. split; [reflexivity|]. split; [rewrite Hs, Hsh; cbn; rewrite Ea; reflexivity|].
        intros i Hi. rewrite Hval; [reflexivity|]. rewrite Hsh. small_index. rewrite Ea. exact Hi.
    - destruct (einsum_any T [Some (c fa); None; Some (c fc)] [1%nat]) as (a & Ha & Hs & Hval).
      + rewrite Hsh. cbn. split; [apply Hlen; cbn; auto|]. split; [apply Hlen; cbn; auto|exact I].
      + intros l. cbn. tauto.
      + cbn in Ha. rewrite Ha. exists a. split; [reflexivity|]. split; [rewrite Hs, Hsh; cbn; rewrite Eb; reflexivity|].
        intros i Hi. rewrite Hval; [reflexivity|]. rewrite Hsh. small_index. rewrite Eb. exact Hi.
    - destruct (einsum_any T [Some (c fa); Some (c fb); None] [2%nat]) as (a & Ha & Hs & Hval).
      + rewrite Hsh. cbn. split; [apply Hlen; cbn; auto|]. split; [apply Hlen; cbn; auto|exact I].
      + intros l. cbn. tauto.
      + cbn in Ha. rewrite Ha. exists a. split; [reflexivity|]. split; [rewrite Hs, Hsh; cbn; rewrite Ec; reflexivity|].
        intros i Hi. rewrite Hval; [reflexivity|]. rewrite Hsh. small_index. rewrite Ec. exact Hi.
  Qed.
  Theorem vector_raises vf : count_occ Nat.eq_dec [fa; fb; fc] vf <> 1%nat -> one_dim [fa; fb; fc] vf T c = None.
  Proof.
    intros Hv. rewrite count_3 in Hv. unfold one_dim, letters_same, letters_other. cbn [seq combine filter fst snd map].
    destruct (fa =? vf)%nat, (fb =? vf)%nat, (fc =? vf)%nat; cbn in *; try reflexivity; congruence.
  Qed.

  Theorem matrix_value rf kf : count_occ Nat.eq_dec [fa; fb; fc] rf = 1%nat -> count_occ Nat.eq_dec [fa; fb; fc] kf = 1%nat ->
    rf <> kf ->
    exists M, two_dim [fa; fb; fc] rf kf T c = Some (rf, kf, M) /\ rows M = dim rf /\ cols M = dim kf /\
      forall i j, (i < dim rf)%nat -> (j < dim kf)%nat -> ent M i j = mform (shape T) (at_ T)
        (map (fun f => if (f =? rf)%nat then delta i else if (f =? kf)%nat then delta j else co f) [fa; fb; fc]).
  Proof.
    intros Hr Hk Hne. rewrite count_3 in Hr, Hk. unfold two_dim, letters_same. cbn [seq combine filter fst snd map].
    letters fa rf Ea; letters fb rf Eb; letters fc rf Ec; cbn in Hr; try discriminate;
    letters fa kf Ea'; letters fb kf Eb'; letters fc kf Ec'; cbn in Hk; try discriminate; try congruence;
      cbn [map fst snd Nat.eqb Nat.sub nth].
    Ltac two p res Hsh Hlen E E' := match goal with |- context[einsum _ _ _ ?T _] =>
      let a := fresh "a" in let Ha := fresh "Ha" in let Hs := fresh "Hs" in let Hval := fresh "Hval" in
      destruct (einsum_any T p res) as (a & Ha & Hs & Hval);
      [rewrite Hsh; cbn; repeat split; apply Hlen; cbn; auto
      |intros l; cbn; tauto
      |cbn in Ha; cbn; rewrite Ha; unfold dense; rewrite Hs, Hsh; cbn; eexists; split; [reflexivity|]; cbn [rows cols ent];
       split; [rewrite E; reflexivity|]; split; [rewrite E'; reflexivity|]; intros i j Hi Hj; rewrite Hval;
        [rewrite Hsh; reflexivity
        |rewrite Hsh; small_index; rewrite ?E, ?E'; assumption] ] end.
    - two [None; None; Some (c fc)] [0%nat; 1%nat] Hsh Hlen Ea Eb'.
    - two [None; Some (c fb); None] [0%nat; 2%nat] Hsh Hlen Ea Ec'.
    - two [None; None; Some (c fc)] [1%nat; 0%nat] Hsh Hlen Eb Ea'.
    - two [Some (c fa); None; None] [1%nat; 2%nat] Hsh Hlen Eb Ec'.
    - two [None; Some (c fb); None] [2%nat; 0%nat] Hsh Hlen Ec Ea'.
    - two [Some (c fa); None; None] [2%nat; 1%nat] Hsh Hlen Ec Eb'.
  Qed.
End three.

Theorem matrix_times_cochain fa fb fc T dim (c : nat -> list R) rf kf a M :
  shape T = map dim [fa; fb; fc] -> (forall f, In f [fa; fb; fc] -> length (c f) = dim f) ->
  NoDup [fa; fb; fc] -> In rf [fa; fb; fc] -> In kf [fa; fb; fc] -> rf <> kf ->
  one_dim [fa; fb; fc] rf T c = Some a -> two_dim [fa; fb; fc] rf kf T c = Some (rf, kf, M) ->
  forall i, (i < dim rf)%nat -> rsum (cols M) (fun j => ent M i j * nth j (c kf) 0) = at_ a [i].
Proof.
  intros Hsh Hlen Hnd Hr Hk Hne Ha HM i Hi.
  assert (Cr : count_occ Nat.eq_dec [fa; fb; fc] rf = 1%nat).
  { apply Nat.le_antisymm; [apply NoDup_count_occ; exact Hnd|]. apply count_occ_In. exact Hr. }
  assert (Ck : count_occ Nat.eq_dec [fa; fb; fc] kf = 1%nat).
  { apply Nat.le_antisymm; [apply NoDup_count_occ; exact Hnd|]. apply count_occ_In. exact Hk. }
  destruct (vector_value fa fb fc T dim c Hsh Hlen rf Cr) as (a' & Ha' & _ & Hv). rewrite Ha in Ha'. injection Ha' as <-.
  destruct (matrix_value fa fb fc T dim c Hsh Hlen rf kf Cr Ck Hne) as (M' & HM' & _ & Hc & Hm).
  rewrite HM in HM'. injection HM' as <-. rewrite Hv by exact Hi. rewrite Hc.
  rewrite (rsum_ext _ _ (fun j => mform (map (fun d => dim (base d)) (map Gen [fa; fb; fc])) (at_ T)
     (map (repl (fun d => if (base d =? rf)%nat then delta i else fun k => nth k (c (base d)) 0) (Gen kf) (delta j)) (map Gen [fa; fb; fc]))
     * nth j (c kf) 0)).
  - rewrite (mform_units (fun d => dim (base d)) _ (Gen kf) (map Gen [fa; fb; fc])).
    + rewrite map_map, Hsh. cbn [base map]. f_equal. unfold repl. cbn [cf_eqb base].
      assert (G : forall f, (if (f =? kf)%nat then fun k => nth k (c kf) 0 else if (f =? rf)%nat then delta i else fun k => nth k (c f) 0)
               = (if (f =? rf)%nat then delta i else fun k => nth k (c f) 0)).
      { intros f. destruct (f =? kf)%nat eqn:E; [|reflexivity]. apply Nat.eqb_eq in E. subst.
        rewrite (proj2 (Nat.eqb_neq kf rf)) by congruence. reflexivity. }
      rewrite !G. reflexivity.
    + apply FinFun.Injective_map_NoDup; [intros x y E; congruence|exact Hnd].
    + apply in_map. exact Hk.
  - intros j Hj. rewrite Hm by assumption. f_equal. rewrite map_map, Hsh. cbn [base map]. f_equal. unfold repl. cbn [cf_eqb base].
    assert (G : forall f, (if (f =? rf)%nat then delta i else if (f =? kf)%nat then delta j else fun k => nth k (c f) 0)
             = (if (f =? kf)%nat then delta j else if (f =? rf)%nat then delta i else fun k => nth k (c f) 0)).
    { intros f. destruct (f =? kf)%nat eqn:E; [|reflexivity]. apply Nat.eqb_eq in E. subst.
      rewrite (proj2 (Nat.eqb_neq kf rf)) by congruence. reflexivity. }
    rewrite !G. reflexivity.
Qed.

Theorem wrapped_contract T p : length p = 3%nat -> count_none p = 1%nat -> wrapped T p = contract T p.
Proof.
  destruct p as [|[u|] [|[v|] [|[w|] [|]]]]; cbn; intros H1 H2; try discriminate; reflexivity.
Qed.

(** ** wrong and raising terms *)

Definition one_of (l : list nat) : nd := mk_nd l (fun _ => 1).
Definition twice : nop := Arr (fun _ => one_of [1; 1; 1]%nat) [Copy 0 0; Gen 1; Copy 0 0] true.
Definition square : nls := mk_nls [0%nat] 1 1 (fun _ _ => mk_lmat 1 0 (fun _ => Some (mk_mat 1 1 (fun _ _ => 1))))
  (fun _ _ => [0]) (fun _ => [(twice, true)]) (fun _ => Gen 1) [Copy 0 0] (fun _ _ => 1%nat).

Theorem same_unknown_refuted :
  exists d s n X, three_dim 0 1 0 1 d (fun f => f) (fun _ => 0%Z) = Some n /\
    terms s 0 = [(n, true)] /\ tests s 0 = Gen 1 /\ uks s = [Copy 0 0] /\
    (forall x, lhs s x 0 0 = None) /\
    picard_rhs s (cochains s X) 0 0 = Some [-2] /\ nth 0 (b s 0 0) 0 - terms_of s X 0 0 0 = -4 /\
    evaluate_f s (cochains s X) 0 0 = Some [4] /\ residual s X 0 0 0 = 6.
Proof.
  exists (fun _ => one_of [1; 1; 1]%nat), square, twice, (fun _ _ _ => 2).
  split; [reflexivity|]. split; [reflexivity|]. split; [reflexivity|]. split; [reflexivity|].
  split; [intros x; reflexivity|].
  split; [cbn; do 2 f_equal; lra|]. split; [cbv -[Rplus Rmult Rminus Ropp IZR]; lra|].
  split; [cbn; do 2 f_equal; lra|]. cbv -[Rplus Rmult Rminus Ropp IZR]; lra.
Qed.

Theorem transposed_gathering_refuted :
  exists els n test unk known m M, derivative_contribution els n test unk known = Some (Some m) /\
    mdata m 0 = Some M /\ corr n = [unk; test; Copy 2 0] /\
    gm_row m = base unk /\ gm_col m = base test /\ base unk <> base test /\
    rows M = nth 1 (shape (array n 0)) 0%nat /\ cols M = nth 0 (shape (array n 0)) 0%nat /\ rows M <> cols M.
Proof.
  exists [0%nat], (Arr (fun _ => one_of [2; 3; 1]%nat) [Copy 0 0; Gen 1; Copy 2 0] true), (Gen 1), (Copy 0 0),
    [(2%nat, Some (fun _ => [5]))].
  eexists. eexists. split; [reflexivity|]. split; [reflexivity|]. cbn. repeat split; discriminate.
Qed.
(** ** the check of the three forms *)
Lemma three_dim_distinct fa fb fc tf d bs ts n : three_dim fa fb fc tf d bs ts = Some n -> fa <> fb /\ fb <> fc /\ In tf [fa; fb; fc].
Proof.
  unfold three_dim, three_dim_ok, static_term. destruct (Nat.eqb_spec fa fb); [discriminate|]. destruct (Nat.eqb_spec fb fc); [discriminate|].
  cbn [negb andb]. destruct (mem tf [fa; fb; fc]) eqn:M; [|discriminate]. intros _. split; [assumption|]. split; [assumption|].
  unfold mem in M. cbn in M. rewrite !orb_true_iff, !Nat.eqb_eq in M. cbn. intuition congruence.
Qed.
