(** The theorems of GmresProps.v. *)
From Coq Require Import List Arith ZArith Bool Reals Lia Lra FunctionalExtensionality.
From Verif Require Import GmresModel GmresSpec GmresSums GmresSerial GmresSerial2 GmresThms GmresThms2 GmresThms3 GmresThms4.
Import ListNotations.
Local Open Scope R_scope.

Lemma shares_rsum SIZE Ar fr A b : shares SIZE Ar fr A b ->
  (forall i j, rsum SIZE (fun r => Ar r i j) = A i j) /\ (forall i, rsum SIZE (fun r => fr r i) = b i).
Proof. intros [H G]. split; intros; rewrite <- total_rsum; auto. Qed.
Lemma shares_one A b : shares 1 (fun _ => A) (fun _ => b) A b.
Proof. split; intros; unfold total; cbn; lra. Qed.

Section Main.
  Variable n : nat.
  Variable A : mat.
  Variable b : vec.
  Variable linsolve : nat -> mat -> vec -> option vec.
  Notation VH := ((nat -> vec) * mat)%type.

  Lemma best_step_down x x' (allowed : vec -> Prop) : allowed (fun _ => 0) -> best_step n A b allowed x x' -> norm n (sres n A b x') <= norm n (sres n A b x).
  Proof.
    intros Z [_ M]. specialize (M _ Z). rewrite !len_norm, !res_eq in M.
    replace (fun l => x l + 0) with x in M by (apply functional_extensionality; intros; lra). exact M.
  Qed.
  Lemma augmented_zero r m k z : in_augmented n A r m k z (fun _ => 0).
  Proof. exists (fun _ => 0), (fun _ => 0). intros l. rewrite !comb_eq, !rsum_zero by (intros; lra). lra. Qed.
  Lemma krylov_zero r k : in_krylov n A r k (fun _ => 0).
  Proof. exists (fun _ => 0). intros l. rewrite comb_eq, rsum_zero by (intros; lra). reflexivity. Qed.

  (** ** gmres *)
  Lemma snext_upper R T xq xq' : upper (snd (snd xq)) -> snext n A b linsolve R T xq = Some xq' -> upper (snd (snd xq')).
  Proof.
    intros U. unfold snext. destruct (sround n A b linsolve R R (fun _ _ => 0) (fst xq) (snd xq)) as [[d [V H]]|] eqn:E; [|discriminate].
    intros X. injection X as <-. cbn [snd]. destruct (sround_parts n A b linsolve R R _ _ _ d V H U E) as [U' _]. exact U'.
  Qed.
  Lemma snext_best R T xq xq' : solves linsolve R -> upper (snd (snd xq)) -> snext n A b linsolve R T xq = Some xq' ->
    best_step n A b (in_krylov n A (res n A b (fst xq)) R) (fst xq) (fst xq').
  Proof.
    intros LS U. unfold snext. destruct (sround n A b linsolve R R (fun _ _ => 0) (fst xq) (snd xq)) as [[d [V H]]|] eqn:E; [|discriminate].
    intros X. injection X as <-. cbn [fst].
    destruct (sround_best n A b linsolve R R 0 _ (fst xq) (snd xq) d V H ltac:(lia) LS U E) as [(d' & AL & ED) M].
    split; [exists d'; split; [apply augmented_none in AL; exact AL|exact ED]|]. intros d2 D2. apply M. apply augmented_none. exact D2.
  Qed.
  Lemma tr_upper R x0 g T : tr (snext n A b linsolve R) (x0, q0) g T -> forall i, (i <= T)%nat -> upper (snd (snd (g i))).
  Proof.
    intros [G0 GI]. induction i as [|i IH]; intros I; [rewrite G0; intros p k L; reflexivity|].
    apply (snext_upper R i (g i)); [apply IH; lia|apply GI; lia].
  Qed.
  Lemma tr_best R x0 g T : solves linsolve R -> tr (snext n A b linsolve R) (x0, q0) g T ->
    best_run n A b (gmres_steps n A b R) x0 T (fun i => fst (g i)).
  Proof.
    intros LS TR. split; [rewrite (proj1 TR); reflexivity|]. intros i I. unfold gmres_steps. apply (snext_best R i); [exact LS| |].
    - apply (tr_upper R x0 g T TR). lia.
    - apply (proj2 TR). exact I.
  Qed.
  Lemma tr_mono R x0 : solves linsolve R -> forall g T, tr (snext n A b linsolve R) (x0, q0) g T ->
    forall i, (i < T)%nat -> bet n A b fst (g (S i)) <= bet n A b fst (g i).
  Proof.
    intros LS g T TR i I. unfold bet. apply (best_step_down _ _ (in_krylov n A (res n A b (fst (g i))) R)); [apply krylov_zero|].
    exact (proj2 (tr_best R x0 g T LS TR) i I).
  Qed.

  Lemma sgmres_result R atol m x0 : solves linsolve R ->
    match sgmres n A b linsolve R atol m x0 with
    | Diverged | Fuel => False
    | Failed => exists g T, tr (snext n A b linsolve R) (x0, q0) g T /\ going n A b fst atol m T (g T) /\ snext n A b linsolve R T (g T) = None
    | Done x T beta j info => exists g, tr (snext n A b linsolve R) (x0, q0) g T /\ x = fst (g T) /\ beta = len n (res n A b x) /\ (T <= limit m)%nat /\
        good_end n A b atol m (fun i => fst (g i)) T j info
    end.
  Proof.
    intros LS. pose proof (loop_result n A b fst (snext n A b linsolve R) atol m (x0, q0) (tr_mono R x0 LS) (enough m) 0 None (x0, q0) (fun _ => (x0, q0))) as P.
    specialize (P ltac:(split; [reflexivity|intros; lia]) eq_refl ltac:(reflexivity) ltac:(intros; lia) ltac:(lia)).
    unfold sgmres. destruct (sloop n A b fst (snext n A b linsolve R) atol m (enough m) 0 None (x0, q0)); try exact P.
    - destruct P as (g & P1 & P2 & P3 & P4). exists g. split; [exact P1|]. split; [exact P2|]. split; [|exact P4].
      rewrite len_norm, res_eq, P2. exact P3.
    - unfold enough, limit in P. lia.
  Qed.

  (** the first round *)
  Lemma first_go {X} (xof : X -> vec) next atol m s0 fuel : starts n A b atol m (xof s0) ->
    sloop n A b xof next atol m (S fuel) 0 None s0 =
    match next 0%nat s0 with None => Failed | Some s' => sloop n A b xof next atol m fuel 1 (Some (new_betas None (bet n A b xof s0))) s' end.
  Proof.
    intros ST. cbn [sloop]. fold (bet n A b xof s0). rewrite stop_judged by discriminate.
    assert (judged (before None (bet n A b xof s0)) (bet n A b xof s0) atol 0 m = Go) as ->; [|reflexivity].
    unfold judged, starts in *. cbn [before]. destruct m as [k|k].
    - destruct ST as [K B]. rewrite len_norm, res_eq in B. fold (bet n A b xof s0) in B. rewrite (proj2 (rltb_false _ _) B).
      replace (k <=? Z.of_nat 0)%Z with false by (symmetry; apply Z.leb_gt; lia).
      rewrite (proj2 (rltb_false _ _) (Rle_refl (bet n A b xof s0))). reflexivity.
    - replace (k <=? Z.of_nat 0)%Z with false by (symmetry; apply Z.leb_gt; lia). reflexivity.
  Qed.
  Lemma sgmres_fails R atol m x0 : starts n A b atol m x0 -> snext n A b linsolve R 0 (x0, q0) = None -> sgmres n A b linsolve R atol m x0 = Failed.
  Proof. intros ST N. unfold sgmres, enough. rewrite (first_go fst) by exact ST. rewrite N. reflexivity. Qed.
  Lemma snext_none R T xq : sround n A b linsolve R R (fun _ _ => 0) (fst xq) (snd xq) = None -> snext n A b linsolve R T xq = None.
  Proof. intros E. unfold snext. rewrite E. reflexivity. Qed.
  Lemma upper_q0 : upper (snd q0).
  Proof. intros i k L. reflexivity. Qed.

  (** ** lgmres *)
  Lemma split_min inner outer T : split_mk inner outer T = (inner + outer - Nat.min T outer, Nat.min T outer)%nat.
  Proof.
    unfold split_mk. destruct (Nat.ltb_spec T outer) as [L|L].
    - rewrite Nat.min_l by lia. reflexivity.
    - rewrite Nat.min_r by lia. f_equal. lia.
  Qed.
  Notation LX := (vec * (VH * (nat -> vec)))%type.
  Lemma slnext_upper inner outer T (y y' : LX) : upper (snd (fst (snd y))) -> slnext n A b linsolve inner outer T y = Some y' -> upper (snd (fst (snd y'))).
  Proof.
    destruct y as [x [q hist]]. intros U. unfold slnext. destruct (split_mk inner outer T) as [m k].
    destruct (sround n A b linsolve (inner + outer) m _ x q) as [[d [V H]]|] eqn:E; [|discriminate].
    intros X. injection X as <-. cbn [snd fst]. destruct (sround_parts n A b linsolve (inner + outer) m _ x q d V H U E) as [U' _]. exact U'.
  Qed.
  Lemma ltr_upper inner outer x0 g T : tr (slnext n A b linsolve inner outer) (x0, (q0, fun _ _ => 0)) g T -> forall i, (i <= T)%nat -> upper (snd (fst (snd (g i)))).
  Proof.
    intros [G0 GI]. induction i as [|i IH]; intros I; [rewrite G0; intros p k L; reflexivity|].
    apply (slnext_upper inner outer i (g i)); [apply IH; lia|apply GI; lia].
  Qed.
  (** the history holds the corrections *)
  Lemma ltr_hist inner outer x0 g T : tr (slnext n A b linsolve inner outer) (x0, (q0, fun _ _ => 0)) g T ->
    forall i, (i <= T)%nat -> forall p l, (p < i)%nat -> snd (snd (g i)) p l = fst (g (S p)) l - fst (g p) l.
  Proof.
    intros [G0 GI]. induction i as [|i IH]; intros I p l P; [lia|]. specialize (GI i ltac:(lia)).
    destruct (g i) as [x [q hist]] eqn:EG. unfold slnext in GI. destruct (split_mk inner outer i) as [m k].
    destruct (sround n A b linsolve (inner + outer) m _ x q) as [[d q']|]; [|discriminate]. injection GI as GI.
    rewrite <- GI. cbn [snd]. destruct (Nat.eqb_spec p i) as [->|N].
    - rewrite <- GI, EG. cbn [fst]. lra.
    - specialize (IH ltac:(lia) p l ltac:(lia)). cbn [snd] in IH. exact IH.
  Qed.
  Lemma ltr_best inner outer x0 g T : solves linsolve (inner + outer) -> tr (slnext n A b linsolve inner outer) (x0, (q0, fun _ _ => 0)) g T ->
    best_run n A b (lgmres_steps n A b inner outer) x0 T (fun i => fst (g i)).
  Proof.
    intros LS TR. split; [rewrite (proj1 TR); reflexivity|]. intros i I. unfold lgmres_steps.
    pose proof (ltr_upper inner outer x0 g T TR i ltac:(lia)) as U. pose proof (ltr_hist inner outer x0 g T TR i ltac:(lia)) as HH.
    pose proof (proj2 TR i I) as N. destruct (g i) as [x [q hist]] eqn:EG. cbn [fst snd] in *. unfold slnext in N. rewrite split_min in N.
    set (k := Nat.min i outer) in *. set (m := (inner + outer - k)%nat) in *. assert (k <= i /\ k <= outer)%nat as [K1 K2] by (unfold k; lia).
    destruct (sround n A b linsolve (inner + outer) m _ x q) as [[d [V H]]|] eqn:E; [|discriminate]. injection N as <-. cbn [fst].
    destruct (sround_best n A b linsolve (inner + outer) m k _ x q d V H ltac:(unfold m; lia) LS U E) as [(d' & AL & ED) M].
    assert (SAME : forall d, in_augmented n A (res n A b x) m k (fun i0 => hist (i + m - 1 - (m + i0))%nat) d <->
                   in_augmented n A (res n A b x) m k (fun p l => fst (g (i - p)%nat) l - fst (g (i - p - 1)%nat) l) d).
    { intros d0. split; intros (c & e & D); exists c, e; intros l; rewrite D; f_equal; rewrite !comb_eq; apply rsum_ext; intros p P.
      - replace (i + m - 1 - (m + p))%nat with (i - p - 1)%nat by lia. rewrite HH by lia. replace (S (i - p - 1)) with (i - p)%nat by lia. reflexivity.
      - replace (i + m - 1 - (m + p))%nat with (i - p - 1)%nat by lia. rewrite HH by lia. replace (S (i - p - 1)) with (i - p)%nat by lia. reflexivity. }
    split; [exists d'; split; [apply SAME, AL|exact ED]|]. intros d2 D2. apply M. apply SAME. exact D2.
  Qed.
  Lemma ltr_mono inner outer x0 : solves linsolve (inner + outer) -> forall g T, tr (slnext n A b linsolve inner outer) (x0, (q0, fun _ _ => 0)) g T ->
    forall i, (i < T)%nat -> bet n A b fst (g (S i)) <= bet n A b fst (g i).
  Proof.
    intros LS g T TR i I. unfold bet.
    apply (best_step_down _ _ (lgmres_steps n A b inner outer (fun i => fst (g i)) i)); [apply augmented_zero|].
    exact (proj2 (ltr_best inner outer x0 g T LS TR) i I).
  Qed.
  Lemma slgmres_result inner outer atol m x0 : solves linsolve (inner + outer) ->
    match slgmres n A b linsolve inner outer atol m x0 with
    | Diverged | Fuel => False
    | Failed => exists g T, tr (slnext n A b linsolve inner outer) (x0, (q0, fun _ _ => 0)) g T /\ going n A b fst atol m T (g T) /\
                  slnext n A b linsolve inner outer T (g T) = None
    | Done x T beta j info => exists g, tr (slnext n A b linsolve inner outer) (x0, (q0, fun _ _ => 0)) g T /\ x = fst (g T) /\
        beta = len n (res n A b x) /\ (T <= limit m)%nat /\ good_end n A b atol m (fun i => fst (g i)) T j info
    end.
  Proof.
    intros LS. pose proof (loop_result n A b fst (slnext n A b linsolve inner outer) atol m (x0, (q0, fun _ _ => 0)) (ltr_mono inner outer x0 LS)
      (enough m) 0 None (x0, (q0, fun _ _ => 0)) (fun _ => (x0, (q0, fun _ _ => 0)))) as P.
    specialize (P ltac:(split; [reflexivity|intros; lia]) eq_refl ltac:(reflexivity) ltac:(intros; lia) ltac:(lia)).
    unfold slgmres. destruct (sloop n A b fst (slnext n A b linsolve inner outer) atol m (enough m) 0 None (x0, (q0, fun _ _ => 0))); try exact P.
    - destruct P as (g & P1 & P2 & P3 & P4). exists g. split; [exact P1|]. split; [exact P2|]. split; [|exact P4].
      rewrite len_norm, res_eq, P2. exact P3.
    - unfold enough, limit in P. lia.
  Qed.
  Lemma slgmres_fails inner outer atol m x0 : starts n A b atol m x0 -> slnext n A b linsolve inner outer 0 (x0, (q0, fun _ _ => 0)) = None ->
    slgmres n A b linsolve inner outer atol m x0 = Failed.
  Proof. intros ST N. unfold slgmres, enough. rewrite (first_go fst) by exact ST. rewrite N. reflexivity. Qed.
End Main.

(** ** statements on ranks *)
Section Statements.
  Variable n SIZE : nat.
  Variable Ar : nat -> mat.
  Variable fr : nat -> vec.
  Variable A : mat.
  Variable b : vec.
  Variable linsolve : nat -> mat -> vec -> option vec.
  Hypothesis HS : (0 < SIZE)%nat.
  Hypothesis SH : shares SIZE Ar fr A b.
  Let HA := proj1 (shares_rsum SIZE Ar fr A b SH).
  Let Hb := proj2 (shares_rsum SIZE Ar fr A b SH).
  Notation G := (gmres n SIZE Ar fr linsolve).
  Notation L := (lgmres n SIZE Ar fr linsolve).

  Lemma ranks_gmres R atol m x0 : G R atol m x0 = gmres n 1 (fun _ => A) (fun _ => b) linsolve R atol m x0.
  Proof.
    destruct (shares_rsum 1 _ _ A b (shares_one A b)) as [HA1 Hb1].
    rewrite (gmres_serial n SIZE Ar fr linsolve A b HS HA Hb). symmetry. apply (gmres_serial n 1); [lia|exact HA1|exact Hb1].
  Qed.
  Lemma ranks_lgmres inner outer atol m x0 : L inner outer atol m x0 = lgmres n 1 (fun _ => A) (fun _ => b) linsolve inner outer atol m x0.
  Proof.
    destruct (shares_rsum 1 _ _ A b (shares_one A b)) as [HA1 Hb1].
    rewrite (lgmres_serial n SIZE Ar fr linsolve A b HS HA Hb). symmetry. apply (lgmres_serial n 1); [lia|exact HA1|exact Hb1].
  Qed.

  Lemma gmres_run R atol m x0 x T beta j info : solves linsolve R -> G R atol m x0 = Done x T beta j info ->
    exists xs, best_run n A b (gmres_steps n A b R) x0 T xs /\ xs T = x /\ beta = len n (res n A b x) /\ (T <= limit m)%nat /\
               good_end n A b atol m xs T j info.
  Proof.
    intros LS. rewrite (gmres_serial n SIZE Ar fr linsolve A b HS HA Hb). intros E. pose proof (sgmres_result n A b linsolve R atol m x0 LS) as P.
    rewrite E in P. destruct P as (g & TR & -> & P). exists (fun i => fst (g i)). split; [apply (tr_best n A b linsolve R x0 g T LS TR)|].
    split; [reflexivity|exact P].
  Qed.
  Lemma lgmres_run inner outer atol m x0 x T beta j info : solves linsolve (inner + outer) -> L inner outer atol m x0 = Done x T beta j info ->
    exists xs, best_run n A b (lgmres_steps n A b inner outer) x0 T xs /\ xs T = x /\ beta = len n (res n A b x) /\ (T <= limit m)%nat /\
               good_end n A b atol m xs T j info.
  Proof.
    intros LS. rewrite (lgmres_serial n SIZE Ar fr linsolve A b HS HA Hb). intros E. pose proof (slgmres_result n A b linsolve inner outer atol m x0 LS) as P.
    rewrite E in P. destruct P as (g & TR & -> & P). exists (fun i => fst (g i)). split; [apply (ltr_best n A b linsolve inner outer x0 g T LS TR)|].
    split; [reflexivity|exact P].
  Qed.
  Lemma gmres_ends R atol m x0 : solves linsolve R -> G R atol m x0 <> Diverged /\ G R atol m x0 <> Fuel.
  Proof.
    intros LS. rewrite (gmres_serial n SIZE Ar fr linsolve A b HS HA Hb). pose proof (sgmres_result n A b linsolve R atol m x0 LS) as P.
    split; intros E; rewrite E in P; exact P.
  Qed.
  Lemma lgmres_ends inner outer atol m x0 : solves linsolve (inner + outer) -> L inner outer atol m x0 <> Diverged /\ L inner outer atol m x0 <> Fuel.
  Proof.
    intros LS. rewrite (lgmres_serial n SIZE Ar fr linsolve A b HS HA Hb). pose proof (slgmres_result n A b linsolve inner outer atol m x0 LS) as P.
    split; intros E; rewrite E in P; exact P.
  Qed.
  Lemma run_down (allowed : (nat -> vec) -> nat -> vec -> Prop) x0 T xs : (forall xs i, allowed xs i (fun _ => 0)) -> best_run n A b allowed x0 T xs ->
    forall i j, (i <= j)%nat -> (j <= T)%nat -> len n (res n A b (xs j)) <= len n (res n A b (xs i)).
  Proof.
    intros Z [_ B] i j IJ. induction j as [|j IH]; intros JT; [assert (i = 0)%nat as -> by lia; lra|].
    destruct (Nat.eq_dec i (S j)) as [->|N]; [lra|]. apply Rle_trans with (len n (res n A b (xs j))); [|apply IH; lia].
    rewrite !len_norm, !res_eq. apply (best_step_down n A b (xs j) (xs (S j)) (allowed xs j)); [apply Z|apply B; lia].
  Qed.
  Lemma gmres_not_worse R atol m x0 x T beta j info : solves linsolve R -> G R atol m x0 = Done x T beta j info ->
    len n (res n A b x) <= len n (res n A b x0).
  Proof.
    intros LS E. destruct (gmres_run R atol m x0 x T beta j info LS E) as (xs & B & <- & _). rewrite <- (proj1 B).
    apply (run_down _ x0 T xs (fun xs i => krylov_zero n A _ R) B); lia.
  Qed.
  Lemma lgmres_not_worse inner outer atol m x0 x T beta j info : solves linsolve (inner + outer) -> L inner outer atol m x0 = Done x T beta j info ->
    len n (res n A b x) <= len n (res n A b x0).
  Proof.
    intros LS E. destruct (lgmres_run inner outer atol m x0 x T beta j info LS E) as (xs & B & <- & _). rewrite <- (proj1 B).
    apply (run_down _ x0 T xs (fun xs i => augmented_zero n A _ _ _ _) B); lia.
  Qed.
  Lemma end_info atol k xs T j info : (0 < k)%Z -> good_end n A b atol (Int k) xs T j info ->
    (info = 0%Z <-> len n (res n A b (xs T)) < atol).
  Proof.
    intros K [(-> & -> & H)|[(-> & -> & H & H2)|(-> & -> & H & H2 & _)]]; split; intros; try assumption; try reflexivity; try lia; lra.
  Qed.
  Lemma gmres_info R atol k x0 x T beta j info : solves linsolve R -> (0 < k)%Z -> G R atol (Int k) x0 = Done x T beta j info ->
    (info = 0%Z <-> len n (res n A b x) < atol).
  Proof.
    intros LS K E. destruct (gmres_run R atol (Int k) x0 x T beta j info LS E) as (xs & _ & <- & _ & _ & GE). exact (end_info atol k xs T j info K GE).
  Qed.
  Lemma lgmres_info inner outer atol k x0 x T beta j info : solves linsolve (inner + outer) -> (0 < k)%Z ->
    L inner outer atol (Int k) x0 = Done x T beta j info -> (info = 0%Z <-> len n (res n A b x) < atol).
  Proof.
    intros LS K E. destruct (lgmres_run inner outer atol (Int k) x0 x T beta j info LS E) as (xs & _ & <- & _ & _ & GE). exact (end_info atol k xs T j info K GE).
  Qed.

  (** failures *)
  Lemma gmres_first_fails R atol m x0 : starts n A b atol m x0 ->
    ((n < R)%nat \/ R = 1%nat \/ ~ independent n R (krylov n A (res n A b x0)) \/ solution n A b x0) -> G R atol m x0 = Failed.
  Proof.
    intros ST C. rewrite (gmres_serial n SIZE Ar fr linsolve A b HS HA Hb). apply sgmres_fails; [exact ST|]. apply snext_none. cbn [fst snd].
    destruct (sround n A b linsolve R R (fun _ _ => 0) x0 q0) as [d|] eqn:E; [|reflexivity]. exfalso.
    destruct (sround_dim n A b linsolve R R _ x0 q0 d upper_q0 E) as [D1 D2].
    destruct C as [C|[C|[C|C]]]; [lia|lia| |].
    - apply C. exact (sround_independent n A b linsolve R R 0 _ x0 q0 d ltac:(lia) upper_q0 E).
    - destruct d as [d [V H]]. destruct (sround_parts n A b linsolve R R _ x0 q0 d V H upper_q0 E) as (_ & Z0 & _). apply Z0. apply norm_of_zero.
      intros i I. unfold sres. rewrite <- (C i I), apply_mv. lra.
  Qed.
  Lemma lgmres_first_fails inner outer atol m x0 : starts n A b atol m x0 ->
    ((n < inner + outer)%nat \/ (inner + outer = 1)%nat \/ ~ independent n (inner + outer) (krylov n A (res n A b x0)) \/ solution n A b x0) ->
    L inner outer atol m x0 = Failed.
  Proof.
    intros ST C. rewrite (lgmres_serial n SIZE Ar fr linsolve A b HS HA Hb). apply slgmres_fails; [exact ST|]. unfold slnext. rewrite split_min.
    cbn [Nat.min]. rewrite Nat.sub_0_r.
    destruct (sround n A b linsolve (inner + outer) (inner + outer) _ x0 q0) as [d|] eqn:E; [|reflexivity]. exfalso.
    destruct (sround_dim n A b linsolve _ _ _ x0 q0 d upper_q0 E) as [D1 D2].
    destruct C as [C|[C|[C|C]]]; [lia|lia| |].
    - apply C. exact (sround_independent n A b linsolve (inner + outer) (inner + outer) 0 _ x0 q0 d ltac:(lia) upper_q0 E).
    - destruct d as [d [V H]]. destruct (sround_parts n A b linsolve _ _ _ x0 q0 d V H upper_q0 E) as (_ & Z0 & _). apply Z0. apply norm_of_zero.
      intros i I. unfold sres. rewrite <- (C i I), apply_mv. lra.
  Qed.
  Lemma gmres_fails_only R atol m x0 : solves linsolve R -> solves_regular linsolve R -> injective n A -> R <> 1%nat -> G R atol m x0 = Failed ->
    exists xs T, best_run n A b (gmres_steps n A b R) x0 T xs /\ (T < limit m)%nat /\
                 (solution n A b (xs T) \/ ~ independent n R (krylov n A (res n A b (xs T)))).
  Proof.
    intros LS LR INJ R1. rewrite (gmres_serial n SIZE Ar fr linsolve A b HS HA Hb). intros E. pose proof (sgmres_result n A b linsolve R atol m x0 LS) as P.
    rewrite E in P. destruct P as (g & T & TR & GO & N). exists (fun i => fst (g i)), T. split; [apply (tr_best n A b linsolve R x0 g T LS TR)|].
    split; [unfold going in GO; unfold limit; destruct m; [destruct GO as [GO _]|]; lia|].
    destruct (Req_EM_T (norm n (sres n A b (fst (g T)))) 0) as [Z|Z].
    - left. intros i I. pose proof (norm_zero n _ Z i I) as Q. unfold sres in Q. rewrite apply_mv. lra.
    - right. intros IND. unfold snext in N.
      pose proof (sround_success n A b linsolve R (fst (g T)) (snd (g T)) INJ LR (tr_upper n A b linsolve R x0 g T TR T (Nat.le_refl T)) R1 Z IND) as S.
      destruct (sround n A b linsolve R R _ (fst (g T)) (snd (g T))) as [[d q]|]; [discriminate|contradiction].
  Qed.
  (** as many steps as unknowns *)
  Lemma gmres_full atol m x0 x T beta j info xs : solves linsolve n -> solution n A b xs -> G n atol m x0 = Done x T beta j info -> (0 < T)%nat ->
    solution n A b x /\ T = 1%nat.
  Proof.
    intros LS SOL. rewrite (gmres_serial n SIZE Ar fr linsolve A b HS HA Hb). intros E T0. pose proof (sgmres_result n A b linsolve n atol m x0 LS) as P.
    rewrite E in P. destruct P as (g & TR & -> & _).
    assert (ZERO : forall i, (i < T)%nat -> norm n (sres n A b (fst (g (S i)))) = 0).
    { intros i I. pose proof (proj2 TR i I) as N. unfold snext in N.
      destruct (sround n A b linsolve n n (fun _ _ => 0) (fst (g i)) (snd (g i))) as [[d [V H]]|] eqn:ES; [|discriminate]. injection N as <-. cbn [fst].
      apply (sround_exact n A b linsolve _ (fst (g i)) (snd (g i)) d V H xs LS (tr_upper n A b linsolve n x0 g T TR i ltac:(lia)) ES SOL). }
    split.
    - intros i I. pose proof (ZERO (T - 1)%nat ltac:(lia)) as Z. replace (S (T - 1)) with T in Z by lia.
      pose proof (norm_zero n _ Z i I) as Q. unfold sres in Q. rewrite apply_mv. lra.
    - destruct (Nat.eq_dec T 1) as [?|T1]; [assumption|exfalso]. pose proof (proj2 TR 1%nat ltac:(lia)) as N. unfold snext, sround in N.
      destruct (Req_EM_T (norm n (sres n A b (fst (g 1%nat)))) 0) as [_|NZ]; [discriminate|]. apply NZ, ZERO. lia.
  Qed.
  Lemma gmres_full_converges atol k x0 xs : solves linsolve n -> solves_regular linsolve n -> injective n A -> solution n A b xs -> n <> 1%nat ->
    independent n n (krylov n A (res n A b x0)) -> 0 < atol -> (0 < k)%Z ->
    exists x T beta, G n atol (Int k) x0 = Done x T beta 1 0 /\ len n (res n A b x) < atol /\ (T <= 1)%nat.
  Proof.
    intros LS LR INJ SOL N1 IND AT K. rewrite (gmres_serial n SIZE Ar fr linsolve A b HS HA Hb).
    pose proof (sgmres_result n A b linsolve n atol (Int k) x0 LS) as P.
    destruct (Rlt_le_dec (len n (res n A b x0)) atol) as [C|C].
    - assert (sgmres n A b linsolve n atol (Int k) x0 = Done x0 0 (bet n A b fst (x0, q0 : (nat -> vec) * mat)) 1 0) as E.
      { unfold sgmres, enough. cbn [sloop]. rewrite stop_judged by discriminate. unfold judged. rewrite len_norm, res_eq in C.
        cbn [fst]. rewrite (proj2 (rltb_true _ _) C). reflexivity. }
      rewrite E. eexists. eexists. eexists. split; [reflexivity|]. split; [exact C|lia].
    - assert (ST : starts n A b atol (Int k) x0) by (split; assumption).
      unfold sgmres, enough. rewrite (first_go n A b fst) by exact ST.
      assert (Z0 : norm n (sres n A b x0) <> 0) by (rewrite len_norm, res_eq in C; lra).
      pose proof (sround_success n A b linsolve n x0 q0 INJ LR upper_q0 N1 Z0 IND) as S. unfold snext at 1. cbn [fst snd].
      destruct (sround n A b linsolve n n (fun _ _ => 0) x0 q0) as [[d [V H]]|] eqn:ES; [|contradiction].
      pose proof (sround_exact n A b linsolve _ x0 q0 d V H xs LS upper_q0 ES SOL) as Z1.
      destruct (Z.to_nat k) as [|f] eqn:EK; [lia|]. cbn [sloop fst].
      rewrite stop_judged by (intros l El; injection El as <-; apply new_betas_some). unfold judged. rewrite Z1. rewrite (proj2 (rltb_true _ _) AT).
      cbn [Z.ltb Z.compare]. eexists. eexists. eexists. split; [reflexivity|]. rewrite len_norm, res_eq, Z1. split; [exact AT|lia].
  Qed.
  Lemma lgmres_full_converges inner outer atol k x0 xs : (inner + outer = n)%nat -> solves linsolve n -> solves_regular linsolve n -> injective n A -> solution n A b xs -> n <> 1%nat ->
    independent n n (krylov n A (res n A b x0)) -> 0 < atol -> (0 < k)%Z ->
    exists x T beta, L inner outer atol (Int k) x0 = Done x T beta 1 0 /\ len n (res n A b x) < atol /\ (T <= 1)%nat.
  Proof.
    intros IO LS LR INJ SOL N1 IND AT K. rewrite (lgmres_serial n SIZE Ar fr linsolve A b HS HA Hb).
    destruct (Rlt_le_dec (len n (res n A b x0)) atol) as [C|C].
    - assert (slgmres n A b linsolve inner outer atol (Int k) x0 = Done x0 0 (norm n (sres n A b x0)) 1 0) as E.
      { unfold slgmres, enough. cbn [sloop]. rewrite stop_judged by discriminate. unfold judged. rewrite len_norm, res_eq in C.
        cbn [fst]. rewrite (proj2 (rltb_true _ _) C). reflexivity. }
      rewrite E. eexists. eexists. eexists. split; [reflexivity|]. split; [exact C|lia].
    - assert (ST : starts n A b atol (Int k) x0) by (split; assumption).
      unfold slgmres, enough. rewrite (first_go n A b fst) by exact ST.
      assert (Z0 : norm n (sres n A b x0) <> 0) by (rewrite len_norm, res_eq in C; lra).
      pose proof (sround_success n A b linsolve n x0 q0 INJ LR upper_q0 N1 Z0 IND) as S. unfold slnext at 1. rewrite split_min. cbn [Nat.min]. rewrite Nat.sub_0_r, IO.
      change (fun j => (fun _ : nat => fun _ : nat => 0) (0 + n - 1 - j)%nat) with (fun _ _ : nat => 0). cbn [fst snd].
      destruct (sround n A b linsolve n n (fun _ _ => 0) x0 q0) as [[d [V H]]|] eqn:ES; [|contradiction].
      pose proof (sround_exact n A b linsolve _ x0 q0 d V H xs LS upper_q0 ES SOL) as Z1.
      destruct (Z.to_nat k) as [|f] eqn:EK; [lia|]. cbn [sloop fst].
      rewrite stop_judged by (intros l El; injection El as <-; apply new_betas_some). unfold judged. rewrite Z1. rewrite (proj2 (rltb_true _ _) AT).
      cbn [Z.ltb Z.compare]. eexists. eexists. eexists. split; [reflexivity|]. rewrite len_norm, res_eq, Z1. split; [exact AT|lia].
  Qed.
End Statements.
