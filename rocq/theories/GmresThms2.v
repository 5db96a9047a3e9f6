(** A round of the serial solver: Krylov spaces, smallest residuals, when it fails. *)
From Coq Require Import List Arith ZArith Bool Reals Lia Lra FunctionalExtensionality.
From Verif Require Import GmresModel GmresSpec GmresSums GmresSerial GmresThms.
Import ListNotations.
Local Open Scope R_scope.

Lemma apply_eq n A x : apply n A x = mv n A x.
Proof. apply functional_extensionality. intros i. apply apply_mv. Qed.
Lemma res_eq n A b x : res n A b x = sres n A b x.
Proof. unfold res, sres. rewrite apply_eq. reflexivity. Qed.
Lemma comb_eq k B c l : comb k B c l = rsum k (fun j => c j * B j l).
Proof. apply total_rsum. Qed.
Lemma krylov_S n A r j : krylov n A r (S j) = mv n A (krylov n A r j).
Proof. cbn [krylov]. apply apply_eq. Qed.
Lemma sres_step n A b x d l : sres n A b (fun l => x l + d l) l = sres n A b x l - mv n A d l.
Proof. unfold sres. rewrite mv_add. lra. Qed.

Section Round2.
  Variable n : nat.
  Variable A : mat.
  Variable b : vec.
  Variable linsolve : nat -> mat -> vec -> option vec.

  Lemma upper_ssteps R m Z js : forall q q', upper (snd q) -> ssteps n A R m Z js q = Some q' -> upper (snd q').
  Proof.
    induction js as [|j js IH]; intros [V H] q' U; cbn [ssteps fst snd]; [intros E; injection E as <-; exact U|].
    unfold sstep. destruct (j <? R - 1)%nat.
    - destruct (Req_EM_T _ 0); [discriminate|]. apply IH. apply upper_newH, U.
    - destruct (j =? 0)%nat; [discriminate|]. apply IH. apply upper_newH, U.
  Qed.
  Lemma first_arn A' m Z x V H : norm n (sres n A b x) <> 0 -> upper H ->
    arn n A' m Z 0 (fun i => if (i =? 0)%nat then (fun l => sres n A b x l / norm n (sres n A b x)) else V i) H.
  Proof.
    intros Z0 U. set (be := norm n (sres n A b x)) in *. split; [|split; [exact U|split; intros; lia]].
    intros i j I J. assert (i = 0)%nat as -> by lia. assert (j = 0)%nat as -> by lia. rewrite !Nat.eqb_refl.
    rewrite (dot_ext n _ _ (fun l => / be * sres n A b x l) (fun l => / be * sres n A b x l)) by (intros; lra).
    rewrite dot_scale_l, dot_comm, dot_scale_l, <- norm_sq. fold be. field. exact Z0.
  Qed.

  Lemma sround_parts R m Z x q d V H : upper (snd q) -> sround n A b linsolve R m Z x q = Some (d, (V, H)) ->
    upper H /\ norm n (sres n A b x) <> 0 /\
    (exists y, coefficients linsolve R (norm n (sres n A b x)) H = Some y /\ d = fun l => rsum R (fun j => y j * dir m Z V j l)) /\
    ((0 < R)%nat -> (2 <= R)%nat /\ V 0%nat = (fun l => sres n A b x l / norm n (sres n A b x)) /\ exists hat, fin n A R m Z V H hat).
  Proof.
    intros U. unfold sround. destruct (Req_EM_T (norm n (sres n A b x)) 0) as [Z0|Z0]; [discriminate|].
    set (q1 := (fun i => if (i =? 0)%nat then _ else fst q i, snd q)).
    destruct (ssteps n A R m Z (seq 0 R) q1) as [[V' H']|] eqn:E; [|discriminate].
    destruct (coefficients linsolve R _ H') as [y|] eqn:EC; [|discriminate]. intros X. injection X as <- <- <-.
    split; [exact (upper_ssteps R m Z _ q1 (V', H') U E)|]. split; [exact Z0|]. split; [exists y; split; [exact EC|reflexivity]|].
    intros R0. destruct (ssteps_fin n A R m Z R 0 _ _ V' H' eq_refl R0 (first_arn A m Z x (fst q) (snd q) Z0 U) E) as (hat & F & G & R2).
    split; [exact R2|]. split; [|exists hat; exact F]. rewrite (G 0%nat) by lia. reflexivity.
  Qed.

  (** the smallest residual *)
  Lemma sround_least R m Z x q d V H : solves linsolve R -> upper (snd q) -> sround n A b linsolve R m Z x q = Some (d, (V, H)) ->
    (exists y, forall l, d l = rsum R (fun j => y j * dir m Z V j l)) /\
    forall c, norm n (sres n A b (fun l => x l + d l)) <= norm n (sres n A b (fun l => x l + rsum R (fun j => c j * dir m Z V j l))).
  Proof.
    intros LS U E. destruct (sround_parts R m Z x q d V H U E) as (U' & Z0 & (y & EC & ED) & P). split; [exists y; rewrite ED; reflexivity|].
    intros c. destruct (Nat.eq_dec R 0) as [->|R0].
    - right. f_equal. f_equal. rewrite ED. reflexivity.
    - destruct (P ltac:(lia)) as (R2 & V0 & hat & F). clear P. apply norm_le. set (be := norm n (sres n A b x)) in *.
      set (r' := sres n A b (fun l => x l + d l)).
      assert (R' : forall l, r' l = sres n A b x l - rsum R (fun j => y j * im n A m Z V j l)).
      { intros l. unfold r'. rewrite sres_step, ED. unfold im. rewrite mv_comb. reflexivity. }
      assert (OR : forall i, (i < R)%nat -> dot n r' (im n A m Z V i) = 0).
      { intros i I. rewrite (dot_ext n r' (im n A m Z V i) (fun l => be * V 0%nat l - rsum R (fun j => y j * im n A m Z V j l)) (im n A m Z V i)); [| |reflexivity].
        2:{ intros l L. rewrite R', V0. f_equal. field. exact Z0. }
        rewrite dot_sub_l, dot_scale_l, dot_comb_l, (dot_comm n (V 0%nat)), (im_V n A R m Z V H hat F) by lia.
        pose proof (LS _ _ y EC i I) as NE. rewrite apply_mv in NE. unfold mv in NE.
        rewrite (rsum_ext R _ (fun j => rsum (S R) (fun l => H l i * H l j) * y j)); [rewrite NE; lra|].
        intros j J. rewrite (gram n A R m Z V H hat F) by assumption.
        rewrite (rsum_ext (S R) (fun l => H l j * H l i) (fun l => H l i * H l j)) by (intros; lra). lra. }
      pose proof (least n r' (im n A m Z V) R (fun j => c j - y j) OR) as L.
      rewrite (dot_ext n (sres n A b (fun l => x l + rsum R (fun j => c j * dir m Z V j l))) _
                (fun l => r' l - rsum R (fun j => (c j - y j) * im n A m Z V j l)) (fun l => r' l - rsum R (fun j => (c j - y j) * im n A m Z V j l))); [exact L| |].
      all: intros l _; rewrite R', sres_step, mv_comb; change (mv n A (dir m Z V ?j) l) with (im n A m Z V j l);
        rewrite (rsum_ext R (fun j => (c j - y j) * im n A m Z V j l) (fun j => c j * im n A m Z V j l - y j * im n A m Z V j l)) by (intros; lra);
        rewrite rsum_sub; unfold im; lra.
  Qed.

  (** ** Krylov vectors *)
  Section Kry.
    Variable m : nat.
    Variable Z : nat -> vec.
    Variable r : vec.
    Variable be : R.
    Hypothesis B0 : be <> 0.
    (** V up to index p, with the relation for columns below p *)
    Variable V : nat -> vec.
    Variable H : mat.
    Variable p : nat.
    Hypothesis V0 : V 0%nat = fun l => r l / be.
    Hypothesis NZ : forall k, (k < p)%nat -> H (S k) k <> 0.
    Hypothesis REL : forall k, (k < p)%nat -> forall l, im n A m Z V k l = rsum (S (S k)) (fun i => H i k * V i l).

    Lemma im_low k : (k < m)%nat -> im n A m Z V k = mv n A (V k).
    Proof. intros L. unfold im, dir. replace (k <? m)%nat with true by (symmetry; apply Nat.ltb_lt; lia). reflexivity. Qed.

    Lemma V_in_krylov j : (j <= p)%nat -> (j <= m)%nat -> spn (S j) (krylov n A r) (V j).
    Proof.
      induction j as [j IH] using (well_founded_induction lt_wf). intros JP JM. destruct j as [|j].
      - rewrite V0. apply (spn_ext 1 _ (fun l => / be * krylov n A r 0 l)); [intros; cbn [krylov]; lra|]. apply spn_scale, spn_mem. lia.
      - assert (HN := NZ j ltac:(lia)).
        apply (spn_ext _ _ (fun l => / H (S j) j * (mv n A (V j) l + (-1) * rsum (S j) (fun i => H i j * V i l)))).
        + intros l. rewrite <- im_low by lia. rewrite REL by lia. change (rsum (S (S j)) ?f) with (rsum (S j) f + f (S j)). cbv beta. field. exact HN.
        + apply spn_scale. apply (spn_add _ _ (mv n A (V j)) (fun l => -1 * rsum (S j) (fun i => H i j * V i l))).
          * pose proof (spn_mv n A _ _ _ (IH j ltac:(lia) ltac:(lia) ltac:(lia))) as SS. revert SS. apply spn_trans.
            intros i I. rewrite <- krylov_S. apply spn_mem. lia.
          * apply spn_scale, spn_sum. intros i I. apply (spn_mono (S i)); [lia|]. apply IH; lia.
    Qed.
    Lemma krylov_in_V j : (j <= p)%nat -> (j <= m)%nat -> spn (S j) V (krylov n A r j).
    Proof.
      induction j as [|j IH]; intros JP JM.
      - apply (spn_ext 1 _ (fun l => be * V 0%nat l)); [intros; rewrite V0; cbn [krylov]; field; exact B0|]. apply spn_scale, spn_mem. lia.
      - rewrite krylov_S. pose proof (spn_mv n A _ _ _ (IH ltac:(lia) ltac:(lia))) as SS. revert SS. apply spn_trans.
        intros i I. rewrite <- im_low by lia.
        apply (spn_ext _ _ (fun l => rsum (S (S i)) (fun k => H k i * V k l))); [intros; symmetry; apply REL; lia|].
        apply spn_sum. intros k K. apply spn_mem. lia.
    Qed.
    (** the leading coefficient *)
    Hypothesis O : orth n (S p) V.
    Lemma spn_orth k d i : (k <= i)%nat -> (i <= p)%nat -> spn k V d -> dot n d (V i) = 0.
    Proof.
      intros K I [c E]. rewrite (dot_ext n d (V i) (fun l => rsum k (fun j => c j * V j l)) (V i)) by (intros; auto).
      rewrite dot_comb_l. apply rsum_zero. intros j J. rewrite O by lia. replace (j =? i)%nat with false by (symmetry; apply Nat.eqb_neq; lia). lra.
    Qed.
    Lemma im_V_arn k i : (k < p)%nat -> (i <= S k)%nat -> dot n (im n A m Z V k) (V i) = H i k.
    Proof.
      intros K I. rewrite (dot_ext n (im n A m Z V k) (V i) (fun l => rsum (S (S k)) (fun p => H p k * V p l)) (V i)) by (intros; auto).
      rewrite dot_comb_l. rewrite (rsum_one (S (S k)) _ i ltac:(lia)) by (intros q Q N; rewrite O by lia; apply Nat.eqb_neq in N; rewrite N; lra).
      rewrite O, Nat.eqb_refl by lia. lra.
    Qed.
    Lemma lead j : (j <= p)%nat -> (j <= m)%nat -> dot n (krylov n A r j) (V j) <> 0.
    Proof.
      induction j as [|j IH]; intros JP JM.
      - cbn [krylov]. rewrite (dot_ext n r (V 0%nat) (fun l => be * V 0%nat l) (V 0%nat)); [| |reflexivity].
        + rewrite dot_scale_l, O, Nat.eqb_refl by lia. lra.
        + intros l L. rewrite V0. field. exact B0.
      - destruct (krylov_in_V j ltac:(lia) ltac:(lia)) as [g G].
        assert (dot n (krylov n A r j) (V j) = g j) as GJ.
        { rewrite (dot_ext n (krylov n A r j) (V j) (fun l => rsum (S j) (fun i => g i * V i l)) (V j)) by (intros; auto).
          rewrite dot_comb_l. rewrite (rsum_one (S j) _ j ltac:(lia)) by (intros q Q N; rewrite O by lia; apply Nat.eqb_neq in N; rewrite N; lra).
          rewrite O, Nat.eqb_refl by lia. lra. }
        rewrite krylov_S. rewrite (dot_ext n _ (V (S j)) (fun l => rsum (S j) (fun i => g i * im n A m Z V i l)) (V (S j))); [| |reflexivity].
        + rewrite dot_comb_l. rewrite (rsum_one (S j) _ j ltac:(lia)).
          * rewrite im_V_arn by lia. rewrite <- GJ. apply Rmult_integral_contrapositive_currified; [apply IH; lia|apply NZ; lia].
          * intros i I N. rewrite (spn_orth (S (S i)) (im n A m Z V i)); [lra|lia|lia|].
            apply (spn_ext _ _ (fun l => rsum (S (S i)) (fun k => H k i * V k l))); [intros; symmetry; apply REL; lia|].
            apply spn_sum. intros k K. apply spn_mem. lia.
        + intros l L. rewrite (mv_ext n A A (krylov n A r j) (fun l => rsum (S j) (fun i => g i * V i l)) l) by (intros; auto).
          rewrite mv_comb. apply rsum_ext. intros i I. rewrite im_low by lia. reflexivity.
    Qed.
    Lemma krylov_independent k : (k <= S p)%nat -> (k <= S m)%nat -> independent n k (krylov n A r).
    Proof.
      intros KP KM c E.
      assert (forall i j, (i <= k)%nat -> (k - i <= j)%nat -> (j < k)%nat -> c j = 0) as G.
      { induction i as [|i IH]; intros j I J1 J2; [lia|]. destruct (Nat.eq_dec j (k - S i)) as [->|N]; [|apply IH; lia].
        set (q := (k - S i)%nat) in *.
        assert (dot n (fun l => rsum k (fun j => c j * krylov n A r j l)) (V q) = 0) as D.
        { apply rsum_zero. intros l L. rewrite <- comb_eq, E by exact L. lra. }
        rewrite dot_comb_l in D. rewrite (rsum_one k _ q J2) in D.
        - apply Rmult_integral in D. destruct D as [D|D]; [exact D|]. exfalso. revert D. apply lead; lia.
        - intros j J N. destruct (Nat.lt_ge_cases j q) as [L|L].
          + rewrite (spn_orth (S j) (krylov n A r j)); [lra|lia|lia|]. apply krylov_in_V; lia.
          + rewrite (IH j) by lia. lra. }
      intros j J. apply (G k j); lia.
    Qed.
    (** a vanishing remainder makes the Krylov vectors dependent *)
    Lemma breakdown_dependent : (p < m)%nat -> norm n (hatv n p (im n A m Z V p) V) = 0 -> ~ independent n (S (S p)) (krylov n A r).
    Proof.
      intros PM HN IND. pose proof (norm_zero n _ HN) as HZ. rewrite im_low in HZ by exact PM. unfold hatv in HZ.
      destruct (V_in_krylov p ltac:(lia) ltac:(lia)) as [c C].
      (* the combination of the V i *)
      assert (spn (S p) (krylov n A r) (fun l => rsum (S p) (fun i => dot n (mv n A (V p)) (V i) * V i l))) as [e EE].
      { apply spn_sum. intros i I. apply (spn_mono (S i)); [lia|]. apply V_in_krylov; lia. }
      assert (CP : c p <> 0).
      { intros CZ. assert (spn p V (V p)) as SP.
        { apply (spn_trans p (krylov n A r)).
          - intros j J. apply (spn_mono (S j)); [lia|]. apply krylov_in_V; lia.
          - exists c. intros l. rewrite C. cbn [rsum]. rewrite CZ. lra. }
        pose proof (spn_orth p (V p) p (Nat.le_refl p) (Nat.le_refl p) SP) as D. rewrite O, Nat.eqb_refl in D by lia. lra. }
      apply CP.
      assert (Q := IND (fun j => (if (j =? 0)%nat then 0 else c (j - 1)%nat) - (if (j =? S p)%nat then 0 else e j))).
      assert (P : forall j, (j < S (S p))%nat -> (if (j =? 0)%nat then 0 else c (j - 1)%nat) - (if (j =? S p)%nat then 0 else e j) = 0).
      { apply Q. intros l L. rewrite comb_eq.
        rewrite (rsum_ext _ _ (fun j => (if (j =? 0)%nat then 0 else c (j - 1)%nat) * krylov n A r j l - (if (j =? S p)%nat then 0 else e j) * krylov n A r j l))
          by (intros; lra).
        rewrite rsum_sub. rewrite rsum_shift. cbn [Nat.eqb].
        assert (rsum (S p) (fun i => c (S i - 1)%nat * krylov n A r (S i) l) = mv n A (V p) l) as ->.
        { rewrite (mv_ext n A A (V p) (fun l => rsum (S p) (fun j => c j * krylov n A r j l)) l) by (intros; auto). rewrite mv_comb.
          apply rsum_ext. intros i I. rewrite krylov_S. f_equal. f_equal. lia. }
        change (rsum (S (S p)) ?f) with (rsum (S p) f + f (S p)). cbv beta. rewrite Nat.eqb_refl.
        rewrite (rsum_ext (S p) _ (fun j => e j * krylov n A r j l)) by
          (intros j J; replace (j =? S p)%nat with false by (symmetry; apply Nat.eqb_neq; lia); reflexivity).
        rewrite <- EE. specialize (HZ l L). lra. }
      specialize (P (S p) ltac:(lia)). cbn [Nat.eqb] in P. rewrite Nat.eqb_refl in P. replace (S p - 1)%nat with p in P by lia. lra.
    Qed.
  End Kry.
End Round2.
