(** The whole solvers do what serial solvers without caches do. *)
From Coq Require Import List Arith ZArith Bool Reals Lia Lra FunctionalExtensionality.
From Verif Require Import GmresModel GmresSpec GmresSums GmresSerial.
Import ListNotations.
Local Open Scope R_scope.

Section Serial2.
  Variable n : nat.
  Variable A : mat.
  Variable b : vec.
  Variable linsolve : nat -> mat -> vec -> option vec.
  Notation VH := ((nat -> vec) * mat)%type.

  Definition snext (R : nat) (_ : nat) (xq : vec * VH) : option (vec * VH) :=
    match sround n A b linsolve R R (fun _ _ => 0) (fst xq) (snd xq) with
    | None => None
    | Some (d, q) => Some ((fun l => fst xq l + d l), q)
    end.
  (** with all corrections so far *)
  Definition slnext (inner outer T : nat) (xqh : vec * (VH * (nat -> vec))) : option (vec * (VH * (nat -> vec))) :=
    let '(x, (q, hist)) := xqh in
    let '(m, k) := split_mk inner outer T in
    match sround n A b linsolve (inner + outer) m (fun j => hist (T + m - 1 - j)%nat) x q with
    | None => None
    | Some (d, q') => Some ((fun l => x l + d l), (q', fun i => if (i =? T)%nat then d else hist i))
    end.
  Fixpoint sloop {X} (xof : X -> vec) (next : nat -> X -> option X) (atol : R) (m : maxit) (fuel ITER : nat) (BETA : option (list R)) (s : X)
    : outcome :=
    match fuel with
    | O => Fuel
    | S fuel' =>
        let beta := norm n (sres n A b (xof s)) in
        let B := new_betas BETA beta in
        match stop B atol ITER m with
        | Stop j info => if (info <? 0)%Z then Diverged else Done (xof s) ITER beta j info
        | Go => match next ITER s with None => Failed | Some s' => sloop xof next atol m fuel' (S ITER) (Some B) s' end
        end
    end.
  Definition q0 : VH := (fun _ _ => 0, fun _ _ => 0).
  Definition sgmres (rs : nat) (atol : R) (m : maxit) (x0 : vec) : outcome := sloop fst (snext rs) atol m (enough m) 0 None (x0, q0).
  Definition slgmres (inner outer : nat) (atol : R) (m : maxit) (x0 : vec) : outcome :=
    sloop fst (slnext inner outer) atol m (enough m) 0 None (x0, (q0, fun _ _ => 0)).
End Serial2.

Section Ranks2.
  Variable n SIZE : nat.
  Variable Ar : nat -> mat.
  Variable fr : nat -> vec.
  Variable linsolve : nat -> mat -> vec -> option vec.
  Variable A : mat.
  Variable b : vec.
  Hypothesis HS : (0 < SIZE)%nat.
  Hypothesis HA : forall i j, rsum SIZE (fun r => Ar r i j) = A i j.
  Hypothesis Hb : forall i, rsum SIZE (fun r => fr r i) = b i.

  Lemma loop_serial {X Y} (xof : X -> vec) (yof : Y -> vec) nx ny (rel : nat -> X -> Y -> Prop) atol m :
    (forall T x y, rel T x y -> xof x = yof y) ->
    (forall T x y, rel T x y -> match ny T y with None => nx T x = None | Some y' => exists x', nx T x = Some x' /\ rel (S T) x' y' end) ->
    forall fuel T B x y, rel T x y ->
    loop n SIZE Ar fr xof nx atol m fuel T B x = sloop n A b yof ny atol m fuel T B y.
  Proof.
    intros EX ST. induction fuel as [|fuel IH]; intros T B x y R; [reflexivity|]. cbn [loop sloop].
    rewrite (residual_sres n SIZE Ar fr A b HA Hb), (EX T x y R).
    destruct (stop _ atol T m); [|reflexivity]. pose proof (ST T x y R) as P. destruct (ny T y) as [y'|]; [|rewrite P; reflexivity].
    destruct P as (x' & -> & R'). apply IH. exact R'.
  Qed.

  Lemma fresh_supp : supp SIZE fresh.
  Proof. intros r i k _ _. reflexivity. Qed.
  Lemma fresh_combined : combined SIZE fresh = (fun _ _ => 0).
  Proof.
    apply functional_extensionality. intros i. apply functional_extensionality. intros j. apply rsum_zero. reflexivity.
  Qed.

  Lemma gmres_serial R atol m x0 : gmres n SIZE Ar fr linsolve R atol m x0 = sgmres n A b linsolve R atol m x0.
  Proof.
    unfold gmres, sgmres.
    apply (loop_serial fst fst _ _ (fun _ xs yq => fst xs = fst yq /\ snd yq = (Vm (snd xs), combined SIZE (snd xs)) /\ supp SIZE (snd xs))).
    - intros T x y (E & _). exact E.
    - intros T [x s] [y q] (E & Q & SU). cbn [fst snd] in *. subst y q. unfold snext. cbn [fst snd].
      pose proof (round_serial n SIZE Ar fr linsolve A b HS HA Hb R x s SU) as P.
      destruct (sround n A b linsolve R R _ x _) as [[d [V H]]|]; [|exact P].
      destruct P as (s' & E & EV & EH & SU'). eexists. split; [exact E|]. cbn [fst snd]. rewrite EV, EH. repeat split. exact SU'.
    - cbn [fst snd]. rewrite fresh_combined. repeat split.
  Qed.

  (** ** lgmres *)
  Variable inner outer : nat.
  Definition Zok (T : nat) (hist : nat -> vec) (Z : nat -> option vec) : Prop :=
    forall i, Z i = if (i <? T)%nat && ((outer =? 0)%nat || (T <=? i + outer)%nat) then Some (hist i) else None.
  Definition AZok (T : nat) (hist : nat -> vec) (AZ : nat -> option (nat -> vec)) : Prop :=
    forall i, if (S i <? T)%nat && (T - 1 <=? i + outer)%nat then exists a, AZ i = Some a /\ reduce SIZE a = mv n A (hist i) else AZ i = None.

  Ltac bcase := repeat match goal with
    | |- context [(?a <? ?c)%nat] => destruct (Nat.ltb_spec a c)
    | |- context [(?a <=? ?c)%nat] => destruct (Nat.leb_spec a c)
    | |- context [(?a =? ?c)%nat] => destruct (Nat.eqb_spec a c)
    end.

  Lemma cached_first T hist Z AZ : (1 <= T)%nat -> (1 <= outer)%nat -> Zok T hist Z -> AZok T hist AZ ->
    exists a AZ', cached_product n Ar outer T (T - 1) Z AZ = Some (a, AZ') /\ reduce SIZE a = mv n A (hist (T - 1)%nat) /\ AZok (S T) hist AZ'.
  Proof.
    intros T1 O1 HZ HAZ. unfold cached_product.
    pose proof (HAZ (T - 1)%nat) as N. replace (S (T - 1) <? T)%nat with false in N by (symmetry; apply Nat.ltb_ge; lia). cbn [andb] in N.
    rewrite N, (HZ (T - 1)%nat). replace (T - 1 <? T)%nat with true by (symmetry; apply Nat.ltb_lt; lia).
    replace (T <=? T - 1 + outer)%nat with true by (symmetry; apply Nat.leb_le; lia). rewrite orb_true_r. cbn [andb].
    assert (exists AZ1, (if (outer <? T)%nat then match AZ (T - outer - 1)%nat with Some _ => Some (del AZ (T - outer - 1)) | None => None end
                         else Some AZ) = Some AZ1 /\
            forall i, AZ1 i = if (T <=? i + outer)%nat then AZ i else None) as (AZ1 & -> & E1).
    { destruct (Nat.ltb_spec outer T) as [L|L].
      - pose proof (HAZ (T - outer - 1)%nat) as P. replace (S (T - outer - 1) <? T)%nat with true in P by (symmetry; apply Nat.ltb_lt; lia).
        replace (T - 1 <=? T - outer - 1 + outer)%nat with true in P by (symmetry; apply Nat.leb_le; lia). cbn [andb] in P.
        destruct P as (a & -> & _). eexists. split; [reflexivity|]. intros i. unfold del.
        destruct (Nat.eqb_spec i (T - outer - 1)) as [->|Ni].
        + replace (T <=? T - outer - 1 + outer)%nat with false by (symmetry; apply Nat.leb_gt; lia). reflexivity.
        + destruct (Nat.leb_spec T (i + outer)) as [?|G]; [reflexivity|]. pose proof (HAZ i) as P.
          replace (T - 1 <=? i + outer)%nat with false in P by (symmetry; apply Nat.leb_gt; lia). rewrite andb_false_r in P. exact P.
      - eexists. split; [reflexivity|]. intros i. destruct (Nat.leb_spec T (i + outer)) as [?|G]; [reflexivity|]. lia. }
    eexists. eexists. split; [reflexivity|]. split; [apply (reduce_mv n SIZE Ar A HA)|].
    intros i. unfold put. destruct (Nat.eqb_spec i (T - 1)) as [->|Ni].
    - replace (S (T - 1) <? S T)%nat with true by (symmetry; apply Nat.ltb_lt; lia).
      replace (S T - 1 <=? T - 1 + outer)%nat with true by (symmetry; apply Nat.leb_le; lia). cbn [andb].
      eexists. split; [reflexivity|apply (reduce_mv n SIZE Ar A HA)].
    - destruct (Nat.ltb_spec (S i) (S T)) as [L|L]; cbn [andb].
      + replace (S T - 1)%nat with T by lia. rewrite E1 by lia. destruct (Nat.leb_spec T (i + outer)) as [G|G]; [|reflexivity].
        pose proof (HAZ i) as P. replace (S i <? T)%nat with true in P by (symmetry; apply Nat.ltb_lt; lia).
        replace (T - 1 <=? i + outer)%nat with true in P by (symmetry; apply Nat.leb_le; lia). exact P.
      + pose proof (HAZ i) as P. replace (S i <? T)%nat with false in P by (symmetry; apply Nat.ltb_ge; lia). cbn [andb] in P.
        rewrite E1, P. destruct (T <=? i + outer)%nat; reflexivity.
  Qed.
  Lemma cached_later T hist Z AZ i : (S i < T)%nat -> (T <= i + outer)%nat -> AZok (S T) hist AZ ->
    exists a, cached_product n Ar outer T i Z AZ = Some (a, AZ) /\ reduce SIZE a = mv n A (hist i).
  Proof.
    intros L G HAZ. pose proof (HAZ i) as P. replace (S i <? S T)%nat with true in P by (symmetry; apply Nat.ltb_lt; lia).
    replace (S T - 1 <=? i + outer)%nat with true in P by (symmetry; apply Nat.leb_le; lia). cbn [andb] in P.
    destruct P as (a & E & Ra). exists a. unfold cached_product. rewrite E. split; [reflexivity|exact Ra].
  Qed.

  Lemma split_sum T m k : split_mk inner outer T = (m, k) -> (m + k = inner + outer /\ k <= T /\ k <= outer /\ (k = 0 -> T = 0 \/ outer = 0))%nat.
  Proof. unfold split_mk. destruct (Nat.ltb_spec T outer) as [L|L]; intros E; injection E as <- <-; lia. Qed.

  Lemma lsteps_serial T m k hist Z : split_mk inner outer T = (m, k) -> Zok T hist Z ->
    forall c j s AZ, (j + c = inner + outer)%nat -> supp SIZE s -> (j < inner + outer -> held SIZE j s)%nat ->
    AZok (if (j <=? m)%nat then T else S T) hist AZ ->
    match ssteps n A (inner + outer) m (fun j => hist (T + m - 1 - j)%nat) (seq j c) (Vm s, combined SIZE s) with
    | None => lsteps n SIZE Ar (inner + outer) m outer T (seq j c) Z (s, AZ) = None
    | Some (V, H) => exists s' AZ', lsteps n SIZE Ar (inner + outer) m outer T (seq j c) Z (s, AZ) = Some (s', AZ') /\ Vm s' = V /\
                       combined SIZE s' = H /\ supp SIZE s' /\ AZok (if (inner + outer <=? m)%nat then T else S T) hist AZ'
    end.
  Proof.
    intros SP HZ. destruct (split_sum T m k SP) as (E1 & E2 & E3 & E4).
    induction c as [|c IH]; intros j s AZ E SU HE HAZ.
    - cbn [seq ssteps lsteps]. exists s, AZ. replace (inner + outer)%nat with j by lia. repeat split; assumption.
    - cbn [seq ssteps lsteps fst]. assert (held SIZE j s) as HJ by (apply HE; lia).
      assert (exists Avj AZ', (if (j <? m)%nat then Some (times_current n Ar j s, AZ) else cached_product n Ar outer T (T + m - 1 - j) Z AZ) = Some (Avj, AZ') /\
              reduce SIZE Avj = mv n A (dir m (fun j => hist (T + m - 1 - j)%nat) (Vm s) j) /\
              AZok (if (S j <=? m)%nat then T else S T) hist AZ') as (Avj & AZ' & -> & RA & HAZ').
      { unfold dir. destruct (Nat.ltb_spec j m) as [L|L].
        - eexists. eexists. split; [reflexivity|]. split; [apply (times_current_mv n SIZE Ar A HA); exact (proj2 HJ)|].
          replace (j <=? m)%nat with true in HAZ by (symmetry; apply Nat.leb_le; lia).
          replace (S j <=? m)%nat with true by (symmetry; apply Nat.leb_le; lia). exact HAZ.
        - replace (S j <=? m)%nat with false by (symmetry; apply Nat.leb_gt; lia).
          destruct (Nat.eq_dec j m) as [->|N].
          + rewrite Nat.leb_refl in HAZ. replace (T + m - 1 - m)%nat with (T - 1)%nat by lia.
            destruct (cached_first T hist Z AZ ltac:(lia) ltac:(lia) HZ HAZ) as (a & AZ' & EC & Ra & HAZ'). exists a, AZ'. auto.
          + replace (j <=? m)%nat with false in HAZ by (symmetry; apply Nat.leb_gt; lia).
            destruct (cached_later T hist Z AZ (T + m - 1 - j) ltac:(lia) ltac:(lia) HAZ) as (a & EC & Ra). exists a, AZ. auto. }
      rewrite <- RA.
      pose proof (step_serial n SIZE HS (inner + outer) j Avj s ltac:(lia) SU HJ) as P.
      destruct (sstep n (inner + outer) j _ _) as [[V H]|]; [|rewrite P; reflexivity].
      destruct P as (s' & -> & <- & <- & SU' & HE'). apply IH; [lia|exact SU'|exact HE'|exact HAZ'].
  Qed.

  Lemma recent_hist T hist Z : Zok T hist Z -> forall l, (forall i, In i l -> (i < T /\ T <= i + outer)%nat) -> recent Z l = Some (map hist l).
  Proof.
    intros HZ. induction l as [|i l IH]; intros H; [reflexivity|]. cbn [recent map]. rewrite (HZ i).
    destruct (H i (or_introl eq_refl)) as [L G]. replace (i <? T)%nat with true by (symmetry; apply Nat.ltb_lt; lia).
    replace (T <=? i + outer)%nat with true by (symmetry; apply Nat.leb_le; lia). rewrite orb_true_r. cbn [andb].
    rewrite IH; [reflexivity|]. intros j J. apply H. right. exact J.
  Qed.

  Lemma directions_hist T m k hist Z s : split_mk inner outer T = (m, k) -> Zok T hist Z ->
    exists W, directions m k T Z s = Some W /\ forall j, (j < inner + outer)%nat -> W j = dir m (fun j => hist (T + m - 1 - j)%nat) (Vm s) j.
  Proof.
    intros SP HZ. destruct (split_sum T m k SP) as (E1 & E2 & E3 & E4). unfold directions. destruct (Nat.eqb_spec k 0) as [K|K].
    - exists (Vm s). split; [reflexivity|]. intros j J. unfold dir. replace (j <? m)%nat with true by (symmetry; apply Nat.ltb_lt; lia). reflexivity.
    - rewrite (recent_hist T hist Z HZ).
      + eexists. split; [reflexivity|]. intros j J. unfold dir. destruct (Nat.ltb_spec j m) as [L|L]; [reflexivity|].
        rewrite map_map. rewrite (nth_indep _ _ (hist (T - 0 - 1)%nat)) by (rewrite map_length, seq_length; lia).
        rewrite (map_nth (fun i => hist (T - i - 1)%nat) (seq 0 k) 0%nat (j - m)). rewrite seq_nth by lia. f_equal. lia.
      + intros i I. apply in_map_iff in I. destruct I as (p & <- & P). apply in_seq in P. lia.
  Qed.

  Definition lrel (T : nat) (S0 : lst) (y : vec * (((nat -> vec) * mat) * (nat -> vec))) : Prop :=
    lx S0 = fst y /\ fst (snd y) = (Vm (lmem S0), combined SIZE (lmem S0)) /\ supp SIZE (lmem S0) /\
    Zok T (snd (snd y)) (lZ S0) /\ AZok T (snd (snd y)) (lAZ S0).

  Lemma lround_serial T S0 y : lrel T S0 y ->
    match slnext n A b linsolve inner outer T y with
    | None => lround n SIZE Ar fr linsolve inner outer T S0 = None
    | Some y' => exists S1, lround n SIZE Ar fr linsolve inner outer T S0 = Some S1 /\ lrel (S T) S1 y'
    end.
  Proof.
    destruct y as [x [q hist]]. intros (EX & EQ & SU & HZ & HAZ). cbn [fst snd] in *. subst x q.
    unfold slnext, lround. destruct (split_mk inner outer T) as [m k] eqn:SP. destruct (split_sum T m k SP) as (E1 & E2 & E3 & E4).
    unfold sround. rewrite (residual_sres n SIZE Ar fr A b HA Hb). cbn [fst snd].
    destruct (Req_EM_T (norm n (sres n A b (lx S0))) 0) as [Z0|Z0]; [reflexivity|].
    set (v0 := fun l => sres n A b (lx S0) l / norm n (sres n A b (lx S0))).
    destruct (begin_keeps SIZE HS v0 (lmem S0) SU) as (S00 & H0 & C0).
    pose proof (lsteps_serial T m k hist (lZ S0) SP HZ (inner + outer) 0 (begin SIZE v0 (lmem S0)) (lAZ S0) eq_refl S00 (fun _ => H0) HAZ) as P.
    rewrite C0 in P. cbn [begin Vm] in P. fold v0.
    destruct (ssteps n A (inner + outer) m _ _ _) as [[V H]|]; [|rewrite P; reflexivity].
    destruct P as (s' & AZ' & EL & EV & EH & SU' & HAZ'). rewrite EL, EH.
    destruct (coefficients linsolve (inner + outer) (norm n (sres n A b (lx S0))) H) as [yc|]; [|reflexivity].
    destruct (directions_hist T m k hist (lZ S0) s' SP HZ) as (W & -> & HW).
    set (d := fun l => rsum (inner + outer) (fun j => yc j * dir m (fun j0 => hist (T + m - 1 - j0)%nat) V j l)).
    assert (ED : (fun l => rsum (inner + outer) (fun j => yc j * W j l)) = d).
    { apply functional_extensionality. intros l. unfold d. apply rsum_ext. intros j J. rewrite HW, EV by exact J. reflexivity. }
    rewrite ED.
    assert (HAZ2 : AZok (S T) (fun i => if (i =? T)%nat then d else hist i) AZ').
    { intros i. destruct (Nat.ltb_spec (S i) (S T)) as [L|L]; cbn [andb].
      - replace (i =? T)%nat with false by (symmetry; apply Nat.eqb_neq; lia). destruct (Nat.leb_spec (inner + outer) m) as [K|K].
        + assert (k = 0)%nat as K0 by lia. destruct (E4 K0) as [->|O0]; [lia|].
          replace (S T - 1 <=? i + outer)%nat with false by (symmetry; apply Nat.leb_gt; lia).
          pose proof (HAZ' i) as P. replace (T - 1 <=? i + outer)%nat with (T - 1 <=? i)%nat in P by (rewrite O0, Nat.add_0_r; reflexivity).
          destruct (Nat.ltb_spec (S i) T), (Nat.leb_spec (T - 1) i); cbn [andb] in P; try exact P; lia.
        + pose proof (HAZ' i) as P. replace (S i <? S T)%nat with true in P by (symmetry; apply Nat.ltb_lt; lia). exact P.
      - pose proof (HAZ' i) as P. destruct (inner + outer <=? m)%nat.
        + replace (S i <? T)%nat with false in P by (symmetry; apply Nat.ltb_ge; lia). exact P.
        + replace (S i <? S T)%nat with false in P by (symmetry; apply Nat.ltb_ge; lia). exact P. }
    assert (exists Z', (if (outer <=? T)%nat && (0 <? outer)%nat
                      then match lZ S0 (T - outer)%nat with Some _ => Some (del (lZ S0) (T - outer)) | None => None end
                      else Some (lZ S0)) = Some Z' /\ Zok (S T) (fun i => if (i =? T)%nat then d else hist i) (put Z' T d)) as (Z' & -> & HZ').
    { destruct (Nat.leb_spec outer T) as [L|L]; [destruct (Nat.ltb_spec 0 outer) as [L2|L2]|]; cbn [andb].
      - rewrite (HZ (T - outer)%nat). replace (T - outer <? T)%nat with true by (symmetry; apply Nat.ltb_lt; lia).
        replace (T <=? T - outer + outer)%nat with true by (symmetry; apply Nat.leb_le; lia). rewrite orb_true_r. cbn [andb].
        eexists. split; [reflexivity|]. intros i. unfold put, del. rewrite (HZ i). bcase; cbn [andb orb]; try lia; reflexivity.
      - eexists. split; [reflexivity|]. intros i. unfold put. rewrite (HZ i). bcase; cbn [andb orb]; try lia; reflexivity.
      - eexists. split; [reflexivity|]. intros i. unfold put. rewrite (HZ i). bcase; cbn [andb orb]; try lia; reflexivity. }
    eexists. split; [reflexivity|]. unfold lrel. cbn [lx lmem lZ lAZ fst snd]. rewrite EV, EH.
    split; [apply functional_extensionality; intros l; f_equal; exact (equal_f ED l)|]. split; [reflexivity|]. split; [exact SU'|]. split; [exact HZ'|exact HAZ2].
  Qed.

  Lemma lgmres_serial atol m x0 : lgmres n SIZE Ar fr linsolve inner outer atol m x0 = slgmres n A b linsolve inner outer atol m x0.
  Proof.
    unfold lgmres, slgmres. apply (loop_serial lx fst _ _ lrel).
    - intros T x y (E & _). exact E.
    - apply lround_serial.
    - unfold lrel. cbn [lx lmem lZ lAZ fst snd]. rewrite fresh_combined. repeat split.
  Qed.
End Ranks2.
