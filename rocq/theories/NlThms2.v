(** Theorems about nonlinear systems: exact steps, assembled systems, terms that raise, terms with three forms. *)
From Coq Require Import List Arith Bool ZArith Reals Lia Lra.
From Coquelicot Require Import Coquelicot.
From Verif Require Import NlModel NlSpec NlSums NlTerms NlThms.
Import ListNotations.
Local Open Scope R_scope.

(** ** exact steps *)

Lemma mform_scale dims (W : cf -> nat -> R) u cs T c h : NoDup cs -> In u cs ->
  mform (map dims cs) T (map (repl W u (fun k => c * h k)) cs) = c * mform (map dims cs) T (map (repl W u h) cs).
Proof.
  intros Hn Hu. rewrite <- !(mform_units dims W u cs T) by assumption. rewrite <- rsum_mul. apply rsum_ext. intros. ring.
Qed.

Lemma lsum_only (l : list cf) u f : NoDup l -> (forall c, In c l -> c <> u -> f c = 0) ->
  lsum l f = if cf_in u l then f u else 0.
Proof.
  intros Hn Hf. induction l as [|c l IH]; [reflexivity|]. inversion Hn as [|? ? Hc Hn']; subst.
  unfold lsum. cbn [fold_right]. fold (lsum l f). unfold cf_in. cbn [existsb]. fold (cf_in u l).
  rewrite (IH Hn' (fun c' H1 H2 => Hf c' (or_intror H1) H2)).
  destruct (cf_eqb u c) eqn:E; cbn [orb].
  - apply cf_eqb_eq in E. subst. rewrite (proj2 (cf_in_false c l) Hc). lra.
  - apply cf_eqb_neq in E. rewrite (Hf c); [lra|left; reflexivity|congruence].
Qed.

Theorem newton_exact_in_one s X H u r i e a : good s -> (i < n0 s)%nat -> In e (els s) -> (a < nrow s i e)%nat ->
  In u (uks s) ->
  residual s (move X (only u H) r) i e a = residual s X i e a + r * times s (newton_matrix s X) (only u H) i e a.
Proof.
  intros Hs Hi He Ha Hu. rewrite times_newton by assumption. rewrite !residual_split.
  assert (Hg : forall t, In t (terms s i) -> good_term s i (fst t)) by (intros t; apply (proj2 (proj2 (proj2 (proj2 (proj2 (proj2 (proj2 Hs)))))) i t Hi)).
  assert (E1 : linear_of s (move X (only u H) r) i e a = linear_of s X i e a + r * linear_of s (only u H) i e a).
  { unfold linear_of. rewrite <- rsum_mul, <- rsum_add. apply rsum_ext. intros j _. rewrite <- rsum_mul, <- rsum_add.
    apply rsum_ext. intros k _. unfold move. ring. }
  rewrite E1. rewrite Rmult_plus_distr_l.
  set (d := lsum (terms s i) _).
  assert (E2 : terms_of s (move X (only u H) r) i e a = terms_of s X i e a + r * d).
  { unfold terms_of, d. rewrite <- lsum_mul, <- lsum_add. apply lsum_ext. intros t Ht.
    destruct (Hg t Ht) as (Hm & Hnd & Htt & Hc & Hl & Hsh). unfold tested. rewrite (Hsh e He).
    pose proof (gen_not_copy s i u Hs Hi Hu) as Hne.
    set (n := fst t) in *. set (dims := fun c => nloc s (base c) e).
    rewrite (lsum_only (corr n) u _ Hnd).
    2:{ intros c Hc' Hcu. apply (mform_zero dims); [exact Hc'|exact Hnd|]. intros k. unfold dirs, only.
        destruct (cf_eqb c (tests s i)); [reflexivity|]. rewrite (proj2 (cf_eqb_neq c u) Hcu). reflexivity. }
    assert (E3 : mform (map dims (corr n)) (at_ (array n e))
        (map (fun c => if cf_eqb c (tests s i) then delta a else move X (only u H) r c e) (corr n))
      = mform (map dims (corr n)) (at_ (array n e)) (map (fun c => if cf_eqb c (tests s i) then delta a else X c e) (corr n))
        + r * (if cf_in u (corr n) then mform (map dims (corr n)) (at_ (array n e))
                 (map (repl (vals s i e a X) u (dirs s i e (only u H) u)) (corr n)) else 0)).
    { destruct (cf_in u (corr n)) eqn:Ein.
      - apply cf_in_In in Ein. rewrite <- (mform_scale dims _ u) by assumption.
        transitivity (mform (map dims (corr n)) (at_ (array n e))
          (map (repl (vals s i e a X) u (fun k => X u e k + r * dirs s i e (only u H) u k)) (corr n))).
        + apply mform_ext. apply agree_map. intros c k _ _. unfold repl, vals, move, only, dirs.
          destruct (cf_eqb c u) eqn:Ecu.
          * apply cf_eqb_eq in Ecu. subst c. rewrite (proj2 (cf_eqb_neq _ _) Hne). rewrite cf_eqb_refl. reflexivity.
          * destruct (cf_eqb c (tests s i)); [reflexivity|]. ring.
        + rewrite (mform_sum dims _ u) by assumption. f_equal. apply mform_ext. apply agree_map. intros c k _ _.
          unfold repl, vals. destruct (cf_eqb c u) eqn:Ecu; [|reflexivity]. apply cf_eqb_eq in Ecu. subst c.
          rewrite (proj2 (cf_eqb_neq _ _) Hne). reflexivity.
      - rewrite Rmult_0_r, Rplus_0_r. apply mform_ext. apply agree_map. intros c k Hc' _.
        destruct (cf_eqb c (tests s i)); [reflexivity|]. unfold move, only. rewrite (proj2 (cf_eqb_neq c u)); [ring|].
        intros ->. apply cf_in_false in Ein. contradiction. }
    fold dims. rewrite E3. ring. }
  rewrite E2. ring.
Qed.

Lemma mform3 n1 n2 n3 T (u v w : nat -> R) :
  mform [n1; n2; n3] T [u; v; w] = rsum n1 (fun i => rsum n2 (fun j => rsum n3 (fun k => u i * v j * w k * T [i; j; k]))).
Proof.
  cbn [mform]. apply rsum_ext. intros i _. rewrite <- rsum_mul. apply rsum_ext. intros j _. rewrite <- !rsum_mul.
  apply rsum_ext. intros k _. ring.
Qed.
Lemma quad1 n1 n2 n3 T (t x y h g z : nat -> R) : (forall i, z i = 0) ->
  mform [n1; n2; n3] T [t; (fun i => x i + h i); (fun i => y i + g i)]
  = mform [n1; n2; n3] T [t; x; y] + (mform [n1; n2; n3] T [z; x; y] + (mform [n1; n2; n3] T [t; h; y]
    + (mform [n1; n2; n3] T [t; x; g] + 0))) + mform [n1; n2; n3] T [t; h; g].
Proof.
  intros Hz. rewrite !mform3, Rplus_0_r. do 3 (rewrite <- !rsum_add; apply rsum_ext; intros ? _). rewrite Hz. ring.
Qed.
Lemma quad2 n1 n2 n3 T (t x y h g z : nat -> R) : (forall i, z i = 0) ->
  mform [n1; n2; n3] T [(fun i => x i + h i); t; (fun i => y i + g i)]
  = mform [n1; n2; n3] T [x; t; y] + (mform [n1; n2; n3] T [h; t; y] + (mform [n1; n2; n3] T [x; z; y]
    + (mform [n1; n2; n3] T [x; t; g] + 0))) + mform [n1; n2; n3] T [h; t; g].
Proof.
  intros Hz. rewrite !mform3, Rplus_0_r. do 3 (rewrite <- !rsum_add; apply rsum_ext; intros ? _). rewrite Hz. ring.
Qed.
Lemma quad3 n1 n2 n3 T (t x y h g z : nat -> R) : (forall i, z i = 0) ->
  mform [n1; n2; n3] T [(fun i => x i + h i); (fun i => y i + g i); t]
  = mform [n1; n2; n3] T [x; y; t] + (mform [n1; n2; n3] T [h; y; t] + (mform [n1; n2; n3] T [x; g; t]
    + (mform [n1; n2; n3] T [x; y; z] + 0))) + mform [n1; n2; n3] T [h; g; t].
Proof.
  intros Hz. rewrite !mform3, Rplus_0_r. do 3 (rewrite <- !rsum_add; apply rsum_ext; intros ? _). rewrite Hz. ring.
Qed.

Lemma tested3 s i e a X H n : good s -> (i < n0 s)%nat -> good_term s i n -> In e (els s) -> length (corr n) = 3%nat ->
  tested s i e a (fun c k => X c e k + H c e k) n
  = tested s i e a (fun c => X c e) n
    + factor n * lsum (corr n) (fun u => mform (shape (array n e)) (at_ (array n e)) (map (repl (vals s i e a X) u (dirs s i e H u)) (corr n)))
    + tested s i e a (fun c => H c e) n.
Proof.
  intros Hs Hi (Hm & Hnd & Ht & Hc & Hl & Hsh) He H3. unfold tested. rewrite (Hsh e He).
  destruct (corr n) as [|c1 [|c2 [|c3 [|]]]]; try discriminate. clear Hm Hc Hl Hsh.
  rewrite <- !Rmult_plus_distr_l. f_equal. cbn [map lsum fold_right].
  inversion Hnd as [|? ? Hn1 Hnd1]; subst. inversion Hnd1 as [|? ? Hn2 Hnd2]; subst. simpl in Hn1, Hn2.
  assert (N12 : c1 <> c2) by intuition congruence. assert (N13 : c1 <> c3) by intuition congruence.
  assert (N23 : c2 <> c3) by intuition congruence.
  unfold repl. rewrite !cf_eqb_refl.
  rewrite (proj2 (cf_eqb_neq c1 c2)), (proj2 (cf_eqb_neq c1 c3)), (proj2 (cf_eqb_neq c2 c1)), (proj2 (cf_eqb_neq c2 c3)),
    (proj2 (cf_eqb_neq c3 c1)), (proj2 (cf_eqb_neq c3 c2)) by congruence.
  unfold vals, dirs. destruct Ht as [Ht|[Ht|[Ht|[]]]]; rewrite <- Ht; rewrite !cf_eqb_refl.
  - rewrite (proj2 (cf_eqb_neq c2 c1)), (proj2 (cf_eqb_neq c3 c1)) by congruence. apply quad1. reflexivity.
  - rewrite (proj2 (cf_eqb_neq c1 c2)), (proj2 (cf_eqb_neq c3 c2)) by congruence. apply quad2. reflexivity.
  - rewrite (proj2 (cf_eqb_neq c1 c3)), (proj2 (cf_eqb_neq c2 c3)) by congruence. apply quad3. reflexivity.
Qed.
Theorem newton_remainder s X H i e a : good s -> (i < n0 s)%nat -> In e (els s) -> (a < nrow s i e)%nat ->
  (forall t, In t (terms s i) -> length (corr (fst t)) = 3%nat) ->
  residual s (fun c e k => X c e k + H c e k) i e a
  = residual s X i e a + times s (newton_matrix s X) H i e a + terms_of s H i e a.
Proof.
  intros Hs Hi He Ha H3. rewrite times_newton by assumption. rewrite !residual_split.
  assert (Hg : forall t, In t (terms s i) -> good_term s i (fst t)) by (intros t; apply (proj2 (proj2 (proj2 (proj2 (proj2 (proj2 (proj2 Hs)))))) i t Hi)).
  assert (E1 : linear_of s (fun c e k => X c e k + H c e k) i e a = linear_of s X i e a + linear_of s H i e a).
  { unfold linear_of. rewrite <- rsum_add. apply rsum_ext. intros j _. rewrite <- rsum_add. apply rsum_ext. intros k _. ring. }
  rewrite E1. set (d := lsum (terms s i) _).
  assert (E2 : terms_of s (fun c e k => X c e k + H c e k) i e a = terms_of s X i e a + d + terms_of s H i e a).
  { unfold terms_of, d. rewrite <- !lsum_add. apply lsum_ext. intros t Ht.
    rewrite (tested3 s i e a X H (fst t) Hs Hi (Hg t Ht) He (H3 t Ht)). ring. }
  rewrite E2. ring.
Qed.

(** ** assembled systems *)

Lemma assembled_ext s g F G i r : (forall e a, In e (els s) -> (a < nrow s i e)%nat -> F i e a = G i e a) ->
  assembled s g F i r = assembled s g G i r.
Proof.
  intros H. apply lsum_ext. intros e He. apply rsum_ext. intros a Ha. rewrite H by assumption. reflexivity.
Qed.
Lemma assembled_add s g F G i r : assembled s g (fun i e a => F i e a + G i e a) i r = assembled s g F i r + assembled s g G i r.
Proof.
  unfold assembled. rewrite <- lsum_add. apply lsum_ext. intros e _. rewrite <- rsum_add. apply rsum_ext. intros a _.
  destruct (_ =? _)%nat; lra.
Qed.
Lemma assembled_opp s g F i r : assembled s g (fun i e a => - F i e a) i r = - assembled s g F i r.
Proof.
  unfold assembled. rewrite <- lsum_opp. apply lsum_ext. intros e _. rewrite <- rsum_opp. apply rsum_ext. intros a _.
  destruct (_ =? _)%nat; lra.
Qed.
Lemma global_times_value s g N L Z i r : numbered s g N ->
  global_times s g N L Z i r = assembled s g (times s L (spread g Z)) i r.
Proof.
  intros Hn. unfold global_times, assembled, times, assembled_matrix.
  rewrite (rsum_ext (n1 s) _ (fun j => lsum (els s) (fun e => rsum (nrow s i e) (fun a =>
     if (nth a (g (base (tests s i)) e) 0 =? r)%nat then rsum (ncol s j e) (fun k => entry (L i j e) a k * spread g Z (uk s j) e k) else 0)))).
  - rewrite <- lsum_rsum. apply lsum_ext. intros e _. rewrite rsum_swap. apply rsum_ext. intros a _.
    destruct (_ =? r)%nat; [reflexivity|]. apply rsum_zero. reflexivity.
  - intros j Hj.
    rewrite (rsum_ext (N j) _ (fun c => lsum (els s) (fun e => rsum (nrow s i e) (fun a => rsum (ncol s j e) (fun k =>
      (if (nth a (g (base (tests s i)) e) 0 =? r)%nat && (nth k (g (base (uk s j)) e) 0 =? c)%nat
       then entry (L i j e) a k else 0) * Z (uk s j) c))))).
    2:{ intros c _. rewrite <- lsum_mul_r. apply lsum_ext. intros e _. rewrite <- rsum_mul_r. apply rsum_ext. intros a _.
        rewrite <- rsum_mul_r. reflexivity. }
    rewrite <- lsum_rsum. apply lsum_ext. intros e He. rewrite rsum_swap. apply rsum_ext. intros a _.
    destruct (_ =? r)%nat; cbn [andb].
    + rewrite rsum_swap. apply rsum_ext. intros k Hk. unfold spread. specialize (Hn j e k Hj He Hk).
      set (m := nth k (g (base (uk s j)) e) 0%nat) in *. rewrite (rsum_one (N j) _ m Hn).
      * rewrite Nat.eqb_refl. reflexivity.
      * intros c _ Hc. rewrite (proj2 (Nat.eqb_neq m c)) by congruence. ring.
    + apply rsum_zero. intros c _. apply rsum_zero. intros k _. ring.
Qed.

Theorem newton_assembled s g N Y Z i r : good s -> (i < n0 s)%nat -> numbered s g N ->
  is_derive (fun t => assembled s g (residual s (spread g (fun c k => Y c k + t * Z c k))) i r) 0
    (global_times s g N (newton_matrix s (spread g Y)) Z i r).
Proof.
  intros Hs Hi Hn. rewrite (global_times_value s g N _ Z i r Hn). unfold assembled.
  apply (is_derive_lsum (els s) (fun e t => rsum (nrow s i e) (fun a => if (nth a (g (base (tests s i)) e) 0 =? r)%nat
     then residual s (spread g (fun c k => Y c k + t * Z c k)) i e a else 0))).
  intros e He. apply (is_derive_rsum (nrow s i e) (fun a t => if (nth a (g (base (tests s i)) e) 0 =? r)%nat
     then residual s (spread g (fun c k => Y c k + t * Z c k)) i e a else 0)).
  intros a Ha. destruct (_ =? r)%nat; [|apply (is_derive_const 0)].
  apply (newton_derivative s (spread g Y) (spread g Z) i e a Hs Hi He Ha).
Qed.

Theorem newton_step s g N Y Z i r : good s -> (i < n0 s)%nat -> numbered s g N ->
  (forall t, In t (terms s i) -> length (corr (fst t)) = 3%nat) ->
  global_times s g N (newton_matrix s (spread g Y)) Z i r
  = assembled s g (fun i e a => value (newton_rhs s (cochains s (spread g Y)) i e) a) i r ->
  assembled s g (residual s (spread g (fun c k => Y c k + Z c k))) i r = assembled s g (terms_of s (spread g Z)) i r.
Proof.
  intros Hs Hi Hn H3 Hsol.
  rewrite (assembled_ext s g _ (fun i e a => - residual s (spread g Y) i e a)) in Hsol.
  2:{ intros e a He Ha. rewrite newton_rhs_value by assumption. cbn [value]. apply vec_nth. exact Ha. }
  rewrite assembled_opp, (global_times_value s g N _ Z i r Hn) in Hsol.
  transitivity (assembled s g (residual s (spread g Y)) i r + assembled s g (times s (newton_matrix s (spread g Y)) (spread g Z)) i r
                + assembled s g (terms_of s (spread g Z)) i r).
  - rewrite <- !assembled_add. apply assembled_ext. intros e a He Ha.
    apply (newton_remainder s (spread g Y) (spread g Z) i e a Hs Hi He Ha H3).
  - rewrite Hsol. lra.
Qed.

Theorem picard_step s g N Y Z i r : good s -> (i < n0 s)%nat -> numbered s g N ->
  global_times s g N (linear_matrix s) Z i r
    - assembled s g (fun i e a => value (picard_rhs s (cochains s (spread g Y)) i e) a) i r
  = assembled s g (residual s (spread g Z)) i r
    + (assembled s g (terms_of s (spread g Y)) i r - assembled s g (terms_of s (spread g Z)) i r).
Proof.
  intros Hs Hi Hn. rewrite (global_times_value s g N _ Z i r Hn).
  unfold Rminus. rewrite <- !assembled_opp, <- !assembled_add. apply assembled_ext. intros e a He Ha.
  rewrite picard_rhs_value by assumption. cbn [value]. rewrite vec_nth by exact Ha. rewrite residual_split.
  unfold times, linear_matrix, linear_of. ring.
Qed.
Theorem picard_fixed s g N Y i r : good s -> (i < n0 s)%nat -> numbered s g N ->
  global_times s g N (linear_matrix s) Y i r
    = assembled s g (fun i e a => value (picard_rhs s (cochains s (spread g Y)) i e) a) i r
  <-> assembled s g (residual s (spread g Y)) i r = 0.
Proof. intros Hs Hi Hn. pose proof (picard_step s g N Y Y i r Hs Hi Hn) as H. split; intros E; lra. Qed.

(** ** what is computed is defined *)

Theorem newton_defined s X i : good s -> (i < n0 s)%nat ->
  (forall j, (j < n1 s)%nat -> exists L, lhs s (cochains s X) i j = Some L /\
     gm_row L = gm_row (A s i j) /\ gm_col L = gm_col (A s i j) /\
     forall e, In e (els s) -> exists M, mdata L e = Some M /\ rows M = nrow s i e /\ cols M = ncol s j e) /\
  (forall e, In e (els s) -> exists v w, newton_rhs s (cochains s X) i e = Some v /\ length v = nrow s i e /\
     (forall a, (a < nrow s i e)%nat -> nth a v 0 = - residual s X i e a) /\
     evaluate_f s (cochains s X) i e = Some w /\ length w = nrow s i e /\
     (forall a, (a < nrow s i e)%nat -> nth a w 0 = residual s X i e a)).
Proof.
  intros Hs Hi. split.
  - intros j Hj. destruct (lhs_value s X i j Hs Hi Hj) as (L & HL & G1 & G2 & HM). exists L.
    split; [exact HL|]. split; [exact G1|]. split; [exact G2|]. intros e He. destruct (HM e He) as (M & H1 & H2 & H3 & _).
    exists M. auto.
  - intros e He. exists (vec (nrow s i e) (fun a => - residual s X i e a)), (vec (nrow s i e) (residual s X i e)).
    split; [apply newton_rhs_value; assumption|]. rewrite !map_length, seq_length. split; [reflexivity|].
    split; [intros a Ha; apply (vec_nth _ (fun a => - residual s X i e a)); exact Ha|].
    split; [apply evaluate_f_value; assumption|]. split; [reflexivity|]. intros a Ha. apply vec_nth. exact Ha.
Qed.
Theorem picard_defined s X i e : good s -> (i < n0 s)%nat -> In e (els s) ->
  exists v, picard_rhs s (cochains s X) i e = Some v /\ length v = nrow s i e /\
    forall a, (a < nrow s i e)%nat -> nth a v 0 = nth a (b s i e) 0 - terms_of s X i e a.
Proof.
  intros Hs Hi He. eexists. split; [apply picard_rhs_value; assumption|]. rewrite map_length, seq_length.
  split; [reflexivity|]. intros a Ha. apply (vec_nth _ (fun a => nth a (b s i e) 0 - terms_of s X i e a)). exact Ha.
Qed.

(** ** terms that raise *)

Lemma fold_none s x i unk ts : fold_left (add_term s x i unk) ts None = None.
Proof. induction ts as [|t ts IH]; [reflexivity|exact IH]. Qed.
Lemma lhs_raises s x i j unk t : nth_error (uks s) j = Some unk -> In t (terms s i) ->
  In unk (corr (fst t)) ->
  derivative_contribution (els s) (fst t) (tests s i) unk (known_from (uks s) x (tests s i) unk 0 (corr (fst t))) = None ->
  lhs s x i j = None.
Proof.
  intros Hj Ht Hu Hd. unfold lhs. rewrite Hj. generalize (Some (A s i j)) as acc. revert Ht. generalize (terms s i) as ts.
  induction ts as [|t' ts IH]; intros Ht acc; [contradiction|]. cbn [fold_left]. destruct Ht as [->|Ht].
  - replace (add_term s x i unk acc t) with (@None lmat); [apply fold_none|]. unfold add_term. destruct acc; [|reflexivity].
    destruct (negb (cf_in (tests s i) (corr (fst t)))); [reflexivity|]. rewrite (proj2 (cf_in_In _ _) Hu), Hd. reflexivity.
  - apply IH. exact Ht.
Qed.

Lemma known_more us x test unk cs : forall k,
  (length cs <= count_none (map (fun c => if open test unk c then None else itm us x c) cs) + length (known_from us x test unk k cs))%nat.
Proof.
  induction cs as [|c cs IH]; intros k; [apply Nat.le_refl|]. cbn [map known_from length]. rewrite app_length.
  specialize (IH (S k)). unfold count_none in *. cbn [filter]. unfold open at 1.
  destruct (cf_eqb c unk || cf_eqb c test); cbn [is_none length]; [lia|]. destruct (is_none (itm us x c)); cbn [length]; lia.
Qed.
Lemma known_short us x test unk c cs : forall k, In c cs -> open test unk c = false -> itm us x c = None ->
  (length cs < count_none (map (fun c => if open test unk c then None else itm us x c) cs) + length (known_from us x test unk k cs))%nat.
Proof.
  induction cs as [|d cs IH]; intros k Hc Ho Hi; [contradiction|]. cbn [map known_from length]. rewrite app_length.
  destruct Hc as [->|Hc].
  - pose proof (known_more us x test unk cs (S k)). unfold count_none in *. cbn [filter]. rewrite Ho, Hi. unfold open in Ho. rewrite Ho.
    cbn [is_none length]. lia.
  - specialize (IH (S k) Hc Ho Hi). unfold count_none in *. cbn [filter]. unfold open at 1.
    destruct (cf_eqb d unk || cf_eqb d test); cbn [is_none length]; [lia|]. destruct (is_none (itm us x d)); cbn [length]; lia.
Qed.
Lemma itm_none us x c : ~ In c us -> itm us x c = None.
Proof.
  intros H. unfold itm. replace (cf_index c us) with (@None nat); [reflexivity|]. symmetry.
  induction us as [|d us IH]; [reflexivity|]. cbn [cf_index]. rewrite (proj2 (cf_eqb_neq c d)) by (intros ->; apply H; left; reflexivity).
  rewrite IH; [reflexivity|]. intros Hi. apply H. right. exact Hi.
Qed.

Theorem known_factor_raises s x i j unk t c : nth_error (uks s) j = Some unk -> In t (terms s i) ->
  In unk (corr (fst t)) -> In c (corr (fst t)) -> c <> tests s i -> ~ In c (uks s) -> lhs s x i j = None.
Proof.
  intros Hj Ht Hu Hc Hct Hcu. apply (lhs_raises s x i j unk t Hj Ht Hu). unfold derivative_contribution.
  destruct (negb (direct (fst t))); [reflexivity|]. destruct (negb (cf_in (tests s i) (corr (fst t)))); [reflexivity|].
  rewrite (proj2 (cf_in_In _ _) Hu). cbn [negb]. cbv zeta. rewrite picks.
  assert (Hne : c <> unk) by (intros ->; apply Hcu; apply nth_error_In in Hj; exact Hj).
  pose proof (known_short (uks s) x (tests s i) unk c (corr (fst t)) 0 Hc) as Hlt.
  specialize (Hlt ltac:(unfold open; rewrite (proj2 (cf_eqb_neq c unk) Hne), (proj2 (cf_eqb_neq c _) Hct); reflexivity)
                  (itm_none _ _ _ Hcu)).
  rewrite (proj2 (Nat.eqb_neq _ _)) by lia. reflexivity.
Qed.
Theorem nothing_known_raises s x i j unk t : nth_error (uks s) j = Some unk -> In t (terms s i) ->
  In unk (corr (fst t)) -> (forall c, In c (corr (fst t)) -> c = tests s i \/ c = unk) -> lhs s x i j = None.
Proof.
  intros Hj Ht Hu Hc. apply (lhs_raises s x i j unk t Hj Ht Hu). unfold derivative_contribution.
  destruct (negb (direct (fst t))); [reflexivity|]. destruct (negb (cf_in (tests s i) (corr (fst t)))); [reflexivity|].
  rewrite (proj2 (cf_in_In _ _) Hu). cbn [negb]. cbv zeta. rewrite picks.
  destruct (negb _); [reflexivity|]. unfold eliminate.
  replace (forallb is_none (map (fun c => if open (tests s i) unk c then None else itm (uks s) x c) (corr (fst t)))) with true; [reflexivity|].
  symmetry. apply forallb_forall. intros o Ho. apply in_map_iff in Ho as (c & <- & Hin).
  assert (E : open (tests s i) unk c = true).
  { unfold open. destruct (Hc c Hin) as [->| ->]; rewrite cf_eqb_refl, ?orb_true_r; reflexivity. }
  rewrite E. reflexivity.
Qed.
