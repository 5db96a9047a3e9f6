(** Theorems about nonlinear systems: residual, Newton step, Picard step. *)
From Coq Require Import List Arith Bool ZArith Reals Lia Lra.
From Coquelicot Require Import Coquelicot.
From Verif Require Import NlModel NlSpec NlSums NlTerms.
Import ListNotations.
Local Open Scope R_scope.

(** ** vectors *)

Notation vec n f := (map f (seq 0 n)).
Lemma vec_nth n (f : nat -> R) a : (a < n)%nat -> nth a (vec n f) 0 = f a.
Proof.
  intros H. rewrite nth_indep with (d' := f 0%nat) by (rewrite map_length, seq_length; exact H).
  rewrite map_nth, seq_nth by exact H. reflexivity.
Qed.
Lemma vec_of n (v : list R) : length v = n -> v = vec n (fun a => nth a v 0).
Proof.
  intros <-. induction v as [|x v IH]; [reflexivity|]. cbn [length seq map nth]. f_equal.
  rewrite <- seq_shift, map_map. exact IH.
Qed.
Lemma vec_ext n (f g : nat -> R) : (forall a, (a < n)%nat -> f a = g a) -> vec n f = vec n g.
Proof. intros H. apply map_ext_in. intros a Ha. apply in_seq in Ha. apply H. lia. Qed.
Lemma vzip_map (op : R -> R -> R) (f g : nat -> R) l : vzip op (map f l) (map g l) = Some (map (fun a => op (f a) (g a)) l).
Proof. induction l as [|a l IH]; [reflexivity|]. cbn [map vzip]. rewrite IH. reflexivity. Qed.

(** ** the linear part *)

Definition linear_of (s : nls) (X : state) (i e a : nat) : R :=
  rsum (n1 s) (fun j => rsum (ncol s j e) (fun k => entry (mdata (A s i j) e) a k * X (uk s j) e k)).

Lemma uk_in s j : good s -> (j < n1 s)%nat -> In (uk s j) (uks s).
Proof. intros (_ & Hl & _) Hj. unfold uk. apply nth_In. lia. Qed.
Lemma uk_at s j : good s -> (j < n1 s)%nat -> nth_error (uks s) j = Some (uk s j).
Proof. intros (_ & Hl & _) Hj. unfold uk. apply nth_error_nth'. lia. Qed.

Lemma block_vec_value s X i e j : good s -> (i < n0 s)%nat -> (j < n1 s)%nat -> In e (els s) ->
  block_vec s (cochains s X) i e j
  = Some (vec (nrow s i e) (fun a => rsum (ncol s j e) (fun k => entry (mdata (A s i j) e) a k * X (uk s j) e k))).
Proof.
  intros Hs Hi Hj He. unfold block_vec. destruct (proj1 (proj2 (proj2 (proj2 (proj2 (proj2 Hs))))) i j e Hi Hj He) as (M & HM & Hr & Hc).
  rewrite HM. unfold cochains. rewrite (map_nth_error _ _ _ (uk_at s j Hs Hj)). unfold mat_vec.
  rewrite Hc, cochain_length. unfold ncol. rewrite Nat.eqb_refl. rewrite Hr. f_equal. apply map_ext. intros a.
  apply rsum_ext. intros k Hk. rewrite nth_cochain by exact Hk. reflexivity.
Qed.
Lemma linear_value s X i e : good s -> (i < n0 s)%nat -> In e (els s) ->
  linear_f s (cochains s X) i e = Some (vec (nrow s i e) (linear_of s X i e)).
Proof.
  intros Hs Hi He. unfold linear_f, linear_of.
  set (f := fun j a => rsum (ncol s j e) (fun k => entry (mdata (A s i j) e) a k * X (uk s j) e k)).
  pose proof (proj1 Hs) as Hn1.
  assert (G : forall m, (S m <= n1 s)%nat ->
    fold_left (fun acc j => ozip Rplus acc (block_vec s (cochains s X) i e j)) (seq 1 m) (block_vec s (cochains s X) i e 0)
    = Some (vec (nrow s i e) (fun a => rsum (S m) (fun j => f j a)))).
  { induction m as [|m IH]; intros Hm.
    - cbn [seq fold_left]. rewrite block_vec_value by assumption. f_equal. apply map_ext. intros a. simpl. unfold f. lra.
    - rewrite seq_S, fold_left_app. rewrite IH by lia. cbn [fold_left]. rewrite block_vec_value by (try assumption; lia).
      cbn [ozip]. rewrite vzip_map. f_equal. }
  rewrite (G (n1 s - 1)%nat) by lia. replace (S (n1 s - 1)) with (n1 s) by lia. reflexivity.
Qed.

(** ** the nonlinear part *)

Definition has_value (s : nls) (i : nat) (acc : option (option (nat -> nd))) (F : nat -> nat -> R) : Prop :=
  match acc with
  | None => False
  | Some None => forall e a, F e a = 0
  | Some (Some u) => forall e, In e (els s) -> shape (u e) = [nrow s i e] /\
      forall a, (a < nrow s i e)%nat -> at_ (u e) [a] = F e a
  end.
Lemma signed_shape p a : shape (signed p a) = shape a.
Proof. destruct p; reflexivity. Qed.
Lemma signed_at p a r : at_ (signed p a) r = sign p * at_ a r.
Proof. destruct p; cbn; lra. Qed.
Lemma shape_eqb_refl l : shape_eqb l l = true.
Proof. unfold shape_eqb. destruct (list_eq_dec Nat.eq_dec l l); [reflexivity|contradiction]. Qed.
Lemma add_value_value s X i t acc F : good s -> (i < n0 s)%nat -> good_term s i (fst t) -> has_value s i acc F ->
  exists acc', add_value s (combine (uks s) (cochains s X)) acc t = Some (Some acc') /\
    has_value s i (Some (Some acc')) (fun e a => F e a + sign (snd t) * tested s i e a (fun c => X c e) (fst t)).
Proof.
  intros Hs Hi Hg Hacc. destruct (evaluate_value s i (fst t) X Hs Hi Hg) as (d & Hd & Hv).
  unfold add_value. rewrite Hd. destruct acc as [[u|]|]; [| |contradiction].
  - cbn [has_value] in Hacc. cbv zeta.
    assert (Hw : forall e, In e (els s) -> nd_add (u e) (signed (snd t) (d e))
              = Some (mk_nd [nrow s i e] (fun r => at_ (u e) r + at_ (signed (snd t) (d e)) r))).
    { intros e He. unfold nd_add. rewrite signed_shape. destruct (Hacc e He) as [-> _]. destruct (Hv e He) as [-> _].
      rewrite shape_eqb_refl. reflexivity. }
    assert (Hall : forallb (fun e => is_some (nd_add (u e) (signed (snd t) (d e)))) (els s) = true).
    { apply forallb_forall. intros e He. rewrite Hw by exact He. reflexivity. }
    rewrite Hall. eexists. split; [reflexivity|]. cbn [has_value]. intros e He. rewrite Hw by exact He. cbn [or_empty shape at_].
    split; [reflexivity|]. intros a Ha. rewrite signed_at. destruct (Hacc e He) as [_ Hu]. destruct (Hv e He) as [_ Hd'].
    rewrite Hu, Hd' by exact Ha. reflexivity.
  - cbn [has_value] in Hacc. eexists. split; [reflexivity|]. cbn [has_value]. intros e He. rewrite signed_shape.
    destruct (Hv e He) as [Hse Hd']. split; [exact Hse|]. intros a Ha. rewrite signed_at, Hd' by exact Ha. rewrite Hacc. lra.
Qed.
Lemma nonlinear_value s X i : good s -> (i < n0 s)%nat ->
  has_value s i (nonlinear_f s (cochains s X) i) (terms_of s X i).
Proof.
  intros Hs Hi. unfold nonlinear_f, terms_of.
  assert (Hg : forall t, In t (terms s i) -> good_term s i (fst t)) by (intros t; apply (proj2 (proj2 (proj2 (proj2 (proj2 (proj2 (proj2 Hs)))))) i t Hi)).
  revert Hg. generalize (terms s i). intros ts Hg.
  assert (G : forall acc F, has_value s i acc F ->
    has_value s i (fold_left (add_value s (combine (uks s) (cochains s X))) ts acc)
      (fun e a => F e a + lsum ts (fun t => sign (snd t) * tested s i e a (fun c => X c e) (fst t)))).
  { induction ts as [|t ts IH]; intros acc F Ha.
    - cbn [fold_left lsum fold_right]. destruct acc as [[u|]|]; cbn [has_value] in *.
      + intros e He. destruct (Ha e He) as [H1 H2]. split; [exact H1|]. intros a Hlt. rewrite H2 by exact Hlt. lra.
      + intros e a. rewrite Ha. lra.
      + exact Ha.
    - cbn [fold_left]. destruct (add_value_value s X i t acc F Hs Hi (Hg t (or_introl eq_refl)) Ha) as (acc' & -> & Hacc').
      specialize (IH (fun t' H => Hg t' (or_intror H)) _ _ Hacc').
      match goal with H : has_value s i ?x _ |- has_value s i ?x _ => destruct x as [[u|]|] end; cbn [has_value] in *.
      + intros e He. destruct (IH e He) as [H1 H2]. split; [exact H1|]. intros a Hlt. rewrite H2 by exact Hlt. simpl. lra.
      + intros e a. rewrite <- (IH e a). simpl. lra.
      + exact IH. }
  specialize (G (Some None) (fun _ _ => 0) (fun _ _ => eq_refl)).
  match goal with H : has_value s i ?x _ |- has_value s i ?x _ => destruct x as [[u|]|] end; cbn [has_value] in *.
  + intros e He. destruct (G e He) as [H1 H2]. split; [exact H1|]. intros a Hlt. rewrite H2 by exact Hlt. lra.
  + intros e a. rewrite <- (G e a). lra.
  + exact G.
Qed.
Lemma nonlinear_vec_value s X i e : good s -> (i < n0 s)%nat -> In e (els s) ->
  (nonlinear_vec s (cochains s X) i e = Some None /\ (forall a, terms_of s X i e a = 0)) \/
  nonlinear_vec s (cochains s X) i e = Some (Some (vec (nrow s i e) (terms_of s X i e))).
Proof.
  intros Hs Hi He. pose proof (nonlinear_value s X i Hs Hi) as H. unfold nonlinear_vec.
  destruct (nonlinear_f s (cochains s X) i) as [[u|]|]; cbn [has_value] in H; [right|left|contradiction].
  - assert (Hu : forall e', In e' (els s) -> as_vec (nrow s i e') (u e') = Some (vec (nrow s i e') (terms_of s X i e'))).
    { intros e' He'. destruct (H e' He') as [Hsh Hv]. unfold as_vec. rewrite Hsh, Nat.eqb_refl. f_equal. apply vec_ext. exact Hv. }
    fold (nrow s i e). rewrite Hu by exact He.
    assert (Hall : forallb (fun e' => is_some (as_vec (nloc s (base (tests s i)) e') (u e'))) (els s) = true).
    { apply forallb_forall. intros e' He'. fold (nrow s i e'). rewrite Hu by exact He'. reflexivity. }
    rewrite Hall. reflexivity.
  - split; [reflexivity|]. intros a. apply H.
Qed.

Lemma residual_split s X i e a : residual s X i e a = linear_of s X i e a + terms_of s X i e a - nth a (b s i e) 0.
Proof. reflexivity. Qed.

Lemma evaluate_f_value s X i e : good s -> (i < n0 s)%nat -> In e (els s) ->
  evaluate_f s (cochains s X) i e = Some (vec (nrow s i e) (residual s X i e)).
Proof.
  intros Hs Hi He. unfold evaluate_f. rewrite linear_value by assumption.
  pose proof (proj1 (proj2 (proj2 (proj2 (proj2 (proj2 (proj2 Hs)))))) i e Hi He) as Hb.
  assert (Eb : map Ropp (b s i e) = vec (nrow s i e) (fun a => - nth a (b s i e) 0)).
  { rewrite (vec_of _ _ Hb) at 1. apply map_map. }
  destruct (nonlinear_vec_value s X i e Hs Hi He) as [[-> H0]| ->]; rewrite Eb; cbn [ozip]; rewrite !vzip_map; cbn [ozip].
  - f_equal. apply vec_ext. intros a _. rewrite residual_split, H0. lra.
  - rewrite vzip_map. f_equal.
Qed.
Lemma newton_rhs_value s X i e : good s -> (i < n0 s)%nat -> In e (els s) ->
  newton_rhs s (cochains s X) i e = Some (vec (nrow s i e) (fun a => - residual s X i e a)).
Proof. intros Hs Hi He. unfold newton_rhs. rewrite evaluate_f_value by assumption. cbn [option_map]. rewrite map_map. reflexivity. Qed.
Lemma picard_rhs_value s X i e : good s -> (i < n0 s)%nat -> In e (els s) ->
  picard_rhs s (cochains s X) i e = Some (vec (nrow s i e) (fun a => nth a (b s i e) 0 - terms_of s X i e a)).
Proof.
  intros Hs Hi He. unfold picard_rhs.
  pose proof (proj1 (proj2 (proj2 (proj2 (proj2 (proj2 (proj2 Hs)))))) i e Hi He) as Hb.
  destruct (nonlinear_vec_value s X i e Hs Hi He) as [[-> H0]| ->].
  - f_equal. rewrite (vec_of _ _ Hb) at 1. apply vec_ext. intros a _. rewrite H0. lra.
  - rewrite (vec_of _ _ Hb) at 1. cbn [ozip]. rewrite vzip_map. reflexivity.
Qed.

(** ** the matrix of a step *)

Definition block (s : nls) (X : state) (i j e a k : nat) : R :=
  entry (mdata (A s i j) e) a k +
  lsum (terms s i) (fun t => if cf_in (uk s j) (corr (fst t)) then
    sign (snd t) * tested s i e a (fun c => if cf_eqb c (uk s j) then delta k else X c e) (fst t) else 0).

Lemma lhs_value s X i j : good s -> (i < n0 s)%nat -> (j < n1 s)%nat ->
  exists L, lhs s (cochains s X) i j = Some L /\ gm_row L = gm_row (A s i j) /\ gm_col L = gm_col (A s i j) /\
    forall e, In e (els s) -> exists M, mdata L e = Some M /\ rows M = nrow s i e /\ cols M = ncol s j e /\
      forall a k, (a < nrow s i e)%nat -> (k < ncol s j e)%nat -> ent M a k = block s X i j e a k.
Proof.
  intros Hs Hi Hj. unfold lhs. rewrite (uk_at s j Hs Hj). unfold block.
  assert (Hg : forall t, In t (terms s i) -> good_term s i (fst t)) by (intros t; apply (proj2 (proj2 (proj2 (proj2 (proj2 (proj2 (proj2 Hs)))))) i t Hi)).
  pose proof (uk_in s j Hs Hj) as Hu. set (unk := uk s j) in *.
  set (val := fun ts e a k => lsum ts (fun t : nop * bool => if cf_in unk (corr (fst t)) then
    sign (snd t) * tested s i e a (fun c => if cf_eqb c unk then delta k else X c e) (fst t) else 0)).
  assert (G : forall ts, (forall t, In t ts -> good_term s i (fst t)) -> forall L0 F,
    (forall e, In e (els s) -> exists M, mdata L0 e = Some M /\ rows M = nrow s i e /\ cols M = ncol s j e /\
      forall a k, (a < nrow s i e)%nat -> (k < ncol s j e)%nat -> ent M a k = F e a k) ->
    exists L, fold_left (add_term s (cochains s X) i unk) ts (Some L0) = Some L /\ gm_row L = gm_row L0 /\ gm_col L = gm_col L0 /\
    forall e, In e (els s) -> exists M, mdata L e = Some M /\ rows M = nrow s i e /\ cols M = ncol s j e /\
      forall a k, (a < nrow s i e)%nat -> (k < ncol s j e)%nat -> ent M a k = F e a k + val ts e a k).
  { induction ts as [|t ts IH]; intros Hts L0 F H0.
    - exists L0. cbn [fold_left]. split; [reflexivity|]. split; [reflexivity|]. split; [reflexivity|]. intros e He.
      destruct (H0 e He) as (M & HM & Hr & Hc & Hv). exists M. split; [exact HM|]. split; [exact Hr|]. split; [exact Hc|].
      intros a k Ha Hk. rewrite Hv by assumption. cbn. lra.
    - cbn [fold_left]. pose proof (Hts t (or_introl eq_refl)) as Ht.
      unfold add_term at 2. rewrite (proj2 (cf_in_In (tests s i) (corr (fst t)))) by apply Ht. cbn [negb].
      destruct (cf_in unk (corr (fst t))) eqn:E.
      + destruct (block_value s i (fst t) X unk Hs Hi Ht Hu (proj1 (cf_in_In _ _) E)) as (m & Hm & Hmv). rewrite Hm.
        destruct (IH (fun t' H => Hts t' (or_intror H)) (ladd L0 (if snd t then m else lneg m))
                    (fun e a k => F e a k + sign (snd t) * tested s i e a (fun c => if cf_eqb c unk then delta k else X c e) (fst t)))
          as (L & HL & G1 & G2 & HLv).
        * intros e He. destruct (H0 e He) as (M & HM & Hr & Hc & Hv). destruct (Hmv e He) as (M' & HM' & Hr' & Hc' & Hv').
          unfold ladd. cbn [mdata]. rewrite HM.
          assert (E' : exists M2, mdata (if snd t then m else lneg m) e = Some M2 /\ rows M2 = rows M' /\ cols M2 = cols M' /\
                       forall a k, ent M2 a k = sign (snd t) * ent M' a k).
          { destruct (snd t).
            - exists M'. split; [exact HM'|]. split; [reflexivity|]. split; [reflexivity|]. intros. cbn. lra.
            - exists (mneg M'). unfold lneg. cbn [mdata]. rewrite HM'. split; [reflexivity|]. split; [reflexivity|].
              split; [reflexivity|]. intros. cbn. lra. }
          destruct E' as (M2 & HM2 & Hr2 & Hc2 & Hv2). rewrite HM2. unfold madd. unfold ncol in Hc |- *. fold unk in Hc |- *.
          rewrite Hr, Hc, Hr2, Hc2, Hr', Hc', !Nat.eqb_refl. cbn [andb]. eexists. split; [reflexivity|]. cbn [rows cols ent].
          split; [reflexivity|]. split; [reflexivity|]. intros a k Ha Hk. rewrite Hv, Hv2, Hv' by assumption. reflexivity.
        * exists L. split; [exact HL|]. split; [rewrite G1; reflexivity|]. split; [rewrite G2; reflexivity|].
          intros e He. destruct (HLv e He) as (M & HM & Hr & Hc & Hv). exists M. split; [exact HM|]. split; [exact Hr|].
          split; [exact Hc|]. intros a k Ha Hk. rewrite Hv by assumption. unfold val, lsum. cbn [fold_right]. rewrite E. lra.
      + destruct (IH (fun t' H => Hts t' (or_intror H)) L0 F H0) as (L & HL & G1 & G2 & HLv).
        exists L. split; [exact HL|]. split; [exact G1|]. split; [exact G2|].
        intros e He. destruct (HLv e He) as (M & HM & Hr & Hc & Hv). exists M. split; [exact HM|]. split; [exact Hr|].
        split; [exact Hc|]. intros a k Ha Hk. rewrite Hv by assumption. unfold val, lsum. cbn [fold_right]. rewrite E. lra. }
  apply (G (terms s i) Hg (A s i j) (fun e a k => entry (mdata (A s i j) e) a k)).
  intros e He. destruct (proj1 (proj2 (proj2 (proj2 (proj2 (proj2 Hs))))) i j e Hi Hj He) as (M & HM & Hr & Hc).
  exists M. rewrite HM. cbn [entry]. auto.
Qed.
Lemma newton_entry s X i j e a k : good s -> (i < n0 s)%nat -> (j < n1 s)%nat -> In e (els s) ->
  (a < nrow s i e)%nat -> (k < ncol s j e)%nat -> entry (newton_matrix s X i j e) a k = block s X i j e a k.
Proof.
  intros Hs Hi Hj He Ha Hk. unfold newton_matrix. destruct (lhs_value s X i j Hs Hi Hj) as (L & -> & _ & _ & HL).
  destruct (HL e He) as (M & -> & _ & _ & Hv). cbn [entry]. apply Hv; assumption.
Qed.

(** ** a term in the direction of a step *)

Section term.
  Variables (s : nls) (i e a : nat) (X H : state) (n : nop).
  Hypotheses (Hs : good s) (Hi : (i < n0 s)%nat) (Hn : good_term s i n) (He : In e (els s)).
  Definition dirs (c : cf) : nat -> R := if cf_eqb c (tests s i) then fun _ => 0 else H c e.
  Definition vals (c : cf) : nat -> R := if cf_eqb c (tests s i) then delta a else X c e.

  Lemma direction :
    factor n * lsum (corr n) (fun u => mform (shape (array n e)) (at_ (array n e)) (map (repl vals u (dirs u)) (corr n)))
    = rsum (n1 s) (fun j => if cf_in (uk s j) (corr n) then
        rsum (ncol s j e) (fun k => tested s i e a (fun c => if cf_eqb c (uk s j) then delta k else X c e) n * H (uk s j) e k) else 0).
  Proof.
    destruct Hn as (Hm & Hnd & Ht & Hc & Hl & Hsh). rewrite (Hsh e He).
    rewrite (lsum_ext (corr n) _ (fun u => if cf_in u (uks s) then
      rsum (nloc s (base u) e) (fun k => mform (map (fun c => nloc s (base c) e) (corr n)) (at_ (array n e))
        (map (repl vals u (delta k)) (corr n)) * H u e k) else 0)).
    - rewrite lsum_meet; [|exact Hnd|apply Hs].
      rewrite (lsum_nth (uks s) _ (Gen 0)). rewrite <- rsum_mul. replace (length (uks s)) with (n1 s) by (symmetry; apply Hs).
      apply rsum_ext. intros j Hj. fold (uk s j). destruct (cf_in (uk s j) (corr n)); [|ring].
      rewrite <- rsum_mul. apply rsum_ext. intros k Hk. unfold tested. rewrite (Hsh e He). rewrite <- Rmult_assoc. f_equal. f_equal.
      f_equal. apply map_ext. intros c. unfold repl, vals. pose proof (gen_not_copy s i (uk s j) Hs Hi (uk_in s j Hs Hj)) as Hne.
      destruct (cf_eqb c (uk s j)) eqn:E1; [|reflexivity]. apply cf_eqb_eq in E1. subst c.
      rewrite (proj2 (cf_eqb_neq (uk s j) (tests s i)) Hne). reflexivity.
    - intros u Hu. unfold dirs. destruct (cf_eqb u (tests s i)) eqn:E.
      + apply cf_eqb_eq in E. rewrite E. rewrite (proj2 (cf_in_false (tests s i) (uks s))).
        * apply (mform_zero (fun c => nloc s (base c) e)); [exact Ht|exact Hnd|reflexivity].
        * intros Hin. apply (gen_not_copy s i _ Hs Hi Hin). reflexivity.
      + assert (Hin : In u (uks s)) by (apply cf_eqb_neq in E; destruct (Hc u Hu); [contradiction|assumption]).
        rewrite (proj2 (cf_in_In u (uks s)) Hin). symmetry. apply (mform_units (fun c => nloc s (base c) e)); assumption.
  Qed.
End term.

Lemma times_newton s X H i e a : good s -> (i < n0 s)%nat -> In e (els s) -> (a < nrow s i e)%nat ->
  times s (newton_matrix s X) H i e a
  = linear_of s H i e a +
    lsum (terms s i) (fun t => sign (snd t) * (factor (fst t) * lsum (corr (fst t)) (fun u =>
      mform (shape (array (fst t) e)) (at_ (array (fst t) e)) (map (repl (vals s i e a X) u (dirs s i e H u)) (corr (fst t)))))).
Proof.
  intros Hs Hi He Ha. unfold times, linear_of.
  assert (Hg : forall t, In t (terms s i) -> good_term s i (fst t)) by (intros t; apply (proj2 (proj2 (proj2 (proj2 (proj2 (proj2 (proj2 Hs)))))) i t Hi)).
  rewrite (lsum_ext (terms s i) _ (fun t => sign (snd t) * rsum (n1 s) (fun j => if cf_in (uk s j) (corr (fst t)) then
        rsum (ncol s j e) (fun k => tested s i e a (fun c => if cf_eqb c (uk s j) then delta k else X c e) (fst t) * H (uk s j) e k) else 0)))
    by (intros t Ht; rewrite (direction s i e a X H (fst t) Hs Hi (Hg t Ht) He); reflexivity).
  rewrite (lsum_ext (terms s i) _ (fun t => rsum (n1 s) (fun j => sign (snd t) * if cf_in (uk s j) (corr (fst t)) then
        rsum (ncol s j e) (fun k => tested s i e a (fun c => if cf_eqb c (uk s j) then delta k else X c e) (fst t) * H (uk s j) e k) else 0)))
    by (intros; symmetry; apply rsum_mul).
  rewrite lsum_rsum, <- rsum_add. apply rsum_ext. intros j Hj.
  rewrite (rsum_ext (ncol s j e) _ (fun k => block s X i j e a k * H (uk s j) e k)).
  2:{ intros k Hk. rewrite newton_entry by assumption. reflexivity. }
  unfold block.
  rewrite (rsum_ext (ncol s j e) _ (fun k => entry (mdata (A s i j) e) a k * H (uk s j) e k +
    lsum (terms s i) (fun t => (if cf_in (uk s j) (corr (fst t)) then
    sign (snd t) * tested s i e a (fun c => if cf_eqb c (uk s j) then delta k else X c e) (fst t) else 0) * H (uk s j) e k))).
  2:{ intros k Hk. rewrite lsum_mul_r. ring. }
  rewrite rsum_add. f_equal. rewrite <- lsum_rsum. apply lsum_ext. intros t _.
  destruct (cf_in (uk s j) (corr (fst t))).
  - rewrite <- rsum_mul. apply rsum_ext. intros k _. ring.
  - rewrite rsum_zero; [ring|]. intros. ring.
Qed.

(** ** derivatives *)

Lemma is_derive_rsum n (f : nat -> R -> R) (d : nat -> R) r :
  (forall i, (i < n)%nat -> is_derive (f i) r (d i)) -> is_derive (fun t => rsum n (fun i => f i t)) r (rsum n d).
Proof.
  induction n as [|n IH]; intros H; cbn [rsum].
  - apply (is_derive_const 0).
  - apply (is_derive_plus (fun t => rsum n (fun i => f i t)) (f n)); [apply IH; intros; apply H; lia|apply H; lia].
Qed.
Lemma is_derive_lsum {T} (l : list T) (f : T -> R -> R) (d : T -> R) r :
  (forall x, In x l -> is_derive (f x) r (d x)) -> is_derive (fun t => lsum l (fun x => f x t)) r (lsum l d).
Proof.
  induction l as [|x l IH]; intros H; cbn [lsum fold_right].
  - apply (is_derive_const 0).
  - apply (is_derive_plus (f x) (fun t => lsum l (fun x => f x t))); [apply H; left; reflexivity|].
    apply IH. intros y Hy. apply H. right. exact Hy.
Qed.
Lemma is_derive_mform (dims : cf -> nat) (V : R -> cf -> nat -> R) (D : cf -> nat -> R) r cs : forall T,
  NoDup cs -> (forall c k, In c cs -> is_derive (fun t => V t c k) r (D c k)) ->
  is_derive (fun t => mform (map dims cs) T (map (V t) cs)) r
    (lsum cs (fun u => mform (map dims cs) T (map (repl (V r) u (D u)) cs))).
Proof.
  induction cs as [|c cs IH]; intros T Hn HD; cbn [map mform].
  - cbn. apply (is_derive_const (T [])).
  - inversion Hn as [|? ? Hc Hn']; subst.
    assert (E : lsum (c :: cs) (fun u => rsum (dims c) (fun i =>
                  repl (V r) u (D u) c i * mform (map dims cs) (fun idx => T (i :: idx)) (map (repl (V r) u (D u)) cs)))
      = rsum (dims c) (fun i => D c i * mform (map dims cs) (fun idx => T (i :: idx)) (map (V r) cs)
          + V r c i * lsum cs (fun u => mform (map dims cs) (fun idx => T (i :: idx)) (map (repl (V r) u (D u)) cs)))).
    { unfold lsum at 1. cbn [fold_right].
      fold (lsum cs (fun u => rsum (dims c) (fun i =>
                  repl (V r) u (D u) c i * mform (map dims cs) (fun idx => T (i :: idx)) (map (repl (V r) u (D u)) cs)))).
      rewrite rsum_add. f_equal.
      - apply rsum_ext. intros k _. unfold repl at 1. rewrite cf_eqb_refl. f_equal. f_equal. apply map_ext_in. intros d Hd.
        unfold repl. rewrite (proj2 (cf_eqb_neq d c)); [reflexivity|]. intros ->. contradiction.
      - rewrite lsum_rsum. apply rsum_ext. intros k _. rewrite <- lsum_mul. apply lsum_ext. intros u Hu.
        unfold repl at 1. rewrite (proj2 (cf_eqb_neq c u)); [reflexivity|]. intros ->. contradiction. }
    rewrite E. apply (is_derive_rsum (dims c)
      (fun i t => V t c i * mform (map dims cs) (fun idx => T (i :: idx)) (map (V t) cs))).
    intros k _. apply (is_derive_mult (fun t => V t c k) (fun t => mform (map dims cs) (fun idx => T (k :: idx)) (map (V t) cs))).
    + apply HD. left. reflexivity.
    + apply IH; [exact Hn'|]. intros d l Hd. apply HD. right. exact Hd.
    + intros x y. apply Rmult_comm.
Qed.

Lemma is_derive_line x h : is_derive (fun t : R => x + t * h) 0 h.
Proof. auto_derive; [exact I|lra]. Qed.

Lemma move_0 X H c e k : move X H 0 c e k = X c e k.
Proof. unfold move. lra. Qed.

Theorem newton_derivative s X H i e a : good s -> (i < n0 s)%nat -> In e (els s) -> (a < nrow s i e)%nat ->
  is_derive (fun r => residual s (move X H r) i e a) 0 (times s (newton_matrix s X) H i e a).
Proof.
  intros Hs Hi He Ha. rewrite times_newton by assumption.
  assert (Hg : forall t, In t (terms s i) -> good_term s i (fst t)) by (intros t; apply (proj2 (proj2 (proj2 (proj2 (proj2 (proj2 (proj2 Hs)))))) i t Hi)).
  set (d := lsum (terms s i) _).
  replace (linear_of s H i e a + d) with (linear_of s H i e a + d - 0) by lra.
  apply (is_derive_minus (fun r => linear_of s (move X H r) i e a + terms_of s (move X H r) i e a) (fun _ => nth a (b s i e) 0)).
  2:{ apply (is_derive_const (nth a (b s i e) 0)). }
  apply (is_derive_plus (fun r => linear_of s (move X H r) i e a) (fun r => terms_of s (move X H r) i e a)).
  - unfold linear_of. apply (is_derive_rsum (n1 s) (fun j r => rsum (ncol s j e) (fun k => entry (mdata (A s i j) e) a k * move X H r (uk s j) e k))).
    intros j _. apply (is_derive_rsum (ncol s j e) (fun k r => entry (mdata (A s i j) e) a k * move X H r (uk s j) e k)).
    intros k _. unfold move. auto_derive; [exact I|]. lra.
  - unfold terms_of, d. apply (is_derive_lsum (terms s i) (fun t r => sign (snd t) * tested s i e a (fun c => move X H r c e) (fst t))).
    intros t Ht. apply (is_derive_scal (fun r => tested s i e a (fun c => move X H r c e) (fst t)) 0 (sign (snd t))).
    unfold tested. destruct (Hg t Ht) as (Hm & Hnd & Htt & Hc & Hl & Hsh). rewrite (Hsh e He).
    apply (is_derive_scal (fun r => mform (map (fun c => nloc s (base c) e) (corr (fst t))) (at_ (array (fst t) e))
      (map (fun c => if cf_eqb c (tests s i) then delta a else move X H r c e) (corr (fst t)))) 0 (factor (fst t))).
    set (V := fun (r : R) (c : cf) => if cf_eqb c (tests s i) then delta a else move X H r c e).
    rewrite (lsum_ext (corr (fst t)) _ (fun u => mform (map (fun c => nloc s (base c) e) (corr (fst t))) (at_ (array (fst t) e))
       (map (repl (V 0) u (dirs s i e H u)) (corr (fst t))))).
    + apply (is_derive_mform (fun c => nloc s (base c) e) V (dirs s i e H)); [exact Hnd|]. intros c k _. unfold V, dirs.
      destruct (cf_eqb c (tests s i)); [apply (is_derive_const (delta a k))|]. apply is_derive_line.
    + intros u _. apply mform_ext. apply agree_map. intros c k _ _. unfold repl. destruct (cf_eqb c u); [reflexivity|].
      unfold vals, V. destruct (cf_eqb c (tests s i)); [reflexivity|]. symmetry. apply move_0.
Qed.
