(** Proofs about assembling *)
From Coq Require Import List Arith ZArith QArith Qcanon Bool Lia.
From Verif Require Import Dict GmModel GmSpec GmProofs GmChain QSums LmModel LmSpec.
Import ListNotations.
Local Open Scope nat_scope.

(** ** sparse matrices *)
Definition minor (m : smat) : nat := match sm_fmt m with CSR => sm_nc m | CSC => sm_nr m end.
Definition major (m : smat) : nat := match sm_fmt m with CSR => sm_nr m | CSC => sm_nc m end.
Definition sm_ok (m : smat) : Prop := length (sm_lines m) = major m /\ Forall (Forall (fun iv => fst iv < minor m)) (sm_lines m).

Lemma line_sum n (P : nat -> bool) ln : Forall (fun iv : nat * Qc => fst iv < n) ln ->
  qsum (map (fun iv => if P (fst iv) then snd iv else 0%Qc) ln) = sumq n (fun b => if P b then line_at ln b else 0%Qc).
Proof.
  induction ln as [|[i v] ln IH]; intros H.
  - symmetry. apply sumq_zero. intros b _. destruct (P b); reflexivity.
  - inversion H as [|? ? Hi H']; subst. cbn [map qsum fold_right fst snd] in *. fold (qsum (map (fun iv : nat * Qc => if P (fst iv) then snd iv else 0%Qc) ln)).
    rewrite IH by auto.
    rewrite (sumq_ext n (fun b => if P b then line_at ((i, v) :: ln) b else 0%Qc)
      (fun b => (if i =? b then if P b then v else 0 else 0) + (if P b then line_at ln b else 0))%Qc).
    + rewrite sumq_add. f_equal. rewrite (sumq_single n _ i Hi).
      * now rewrite Nat.eqb_refl.
      * intros j _ Hj. destruct (Nat.eqb_spec i j); congruence.
    + intros b _. unfold line_at, qsum. cbn [filter fst]. destruct (i =? b); cbn [map snd fold_right]; destruct (P b); ring.
Qed.
Lemma line_at_out n ln c : Forall (fun iv : nat * Qc => fst iv < n) ln -> n <= c -> line_at ln c = 0%Qc.
Proof.
  intros H Hc. unfold line_at. induction H as [|[i v] ln Hi H IH]; simpl in *; auto. destruct (Nat.eqb_spec i c); [lia|auto].
Qed.
Lemma line_at_has ln c : line_has ln c = false -> line_at ln c = 0%Qc.
Proof.
  unfold line_has, line_at. induction ln as [|[i v] ln IH]; simpl; auto. destruct (i =? c); simpl; [discriminate|auto].
Qed.

Lemma obind_length {A B} (f : A -> option B) l s : obind l f = Some s -> length s = length l.
Proof. intros H. apply obind_forall2 in H. now apply Forall2_len in H. Qed.
Lemma obind_map_some {A B} (f : A -> option B) (g : A -> B) l : (forall a, In a l -> f a = Some (g a)) -> obind l f = Some (map g l).
Proof.
  intros H. apply obind_forall2. induction l as [|a l IH]; simpl; constructor; [apply H; now left|]. apply IH. intros b Hb. apply H. now right.
Qed.

Definition hit (r c : nat) (x : triple) : bool := (fst (fst x) =? r) && (snd (fst x) =? c).
Lemma entry_sum ts r c : entry ts r c = qsum (map (fun x => if hit r c x then snd x else 0%Qc) ts).
Proof. unfold entry. apply qsum_filter. Qed.
Lemma entry_app ts us r c : entry (ts ++ us) r c = (entry ts r c + entry us r c)%Qc.
Proof. rewrite !entry_sum, map_app. apply qsum_app. Qed.
Lemma entry_concat l r c : entry (concat l) r c = qsum (map (fun ts => entry ts r c) l).
Proof. induction l as [|a l IH]; simpl; auto. now rewrite entry_app, IH. Qed.

(** the double sum of one element *)
Definition dense (gr gc : list nat) (M : nat -> nat -> Qc) (r c : nat) : Qc :=
  sumq (length gr) (fun a => sumq (length gc) (fun b => if (nth a gr 0 =? r) && (nth b gc 0 =? c) then M a b else 0%Qc)).

Lemma combine_seq_nth {A} (d : A) (l : list A) : forall k, combine (seq k (length l)) l = map (fun i => (i, nth (i - k) l d)) (seq k (length l)).
Proof.
  induction l as [|a l IH]; intros k; cbn [length seq combine map]; auto. rewrite Nat.sub_diag. cbn [nth]. f_equal. rewrite IH.
  apply map_ext_in. intros i Hi. apply in_seq in Hi. replace (i - k) with (S (i - S k)) by lia. reflexivity.
Qed.
Lemma nth_nth_error {A} (l : list A) i d : i < length l -> nth_error l i = Some (nth i l d).
Proof. intros H. now apply nth_error_nth'. Qed.

Lemma elem_triples_ok (gr gc : list nat) m : sm_ok m -> sm_nr m = length gr -> sm_nc m = length gc ->
  exists ts, elem_triples None gr gc m = Some ts /\ (forall r c, entry ts r c = dense gr gc (sm_at m) r c) /\
    (forall r c v, In (r, c, v) ts -> In r gr /\ In c gc).
Proof.
  intros [Hl Hi] Hr Hc. unfold elem_triples. rewrite (combine_seq_nth []).
  set (g := fun jl : nat * list (nat * Qc) => map (fun iv : nat * Qc =>
     match sm_fmt m with CSR => (nth (fst jl) gr 0, nth (fst iv) gc 0, snd iv) | CSC => (nth (fst iv) gr 0, nth (fst jl) gc 0, snd iv) end) (snd jl)).
  assert (Hin : forall j, j < major m -> Forall (fun iv : nat * Qc => fst iv < minor m) (nth j (sm_lines m) [])).
  { intros j Hj. rewrite Forall_forall in Hi. apply Hi, nth_In. lia. }
  rewrite (obind_map_some _ g).
  2:{ intros [j ln] Hj. apply in_map_iff in Hj as (j' & E & Hj). injection E as <- <-. apply in_seq in Hj. rewrite Nat.sub_0_r.
      unfold line_triples, g. cbn [fst snd]. apply obind_map_some. intros [i v] Hiv.
      specialize (Hin j'). rewrite Forall_forall in Hin. unfold major, minor in *.
      assert (H1 : fst (i, v) < match sm_fmt m with CSR => sm_nc m | CSC => sm_nr m end) by (apply Hin; auto; lia).
      cbn [fst snd cut_small] in *.
      destruct (sm_fmt m); rewrite !(nth_nth_error _ _ 0) by lia; reflexivity. }
  cbn [option_map]. eexists. split; [reflexivity|]. rewrite map_map. split.
  - intros r c. rewrite entry_concat, map_map. cbn [fst snd]. unfold dense. rewrite Hl.
    assert (E : forall j, j < major m -> entry (g (j, nth (j - 0) (sm_lines m) [])) r c =
      match sm_fmt m with
      | CSR => sumq (length gc) (fun b => if (nth j gr 0 =? r) && (nth b gc 0 =? c) then sm_at m j b else 0%Qc)
      | CSC => sumq (length gr) (fun a => if (nth a gr 0 =? r) && (nth j gc 0 =? c) then sm_at m a j else 0%Qc)
      end).
    { intros j Hj. rewrite Nat.sub_0_r. rewrite entry_sum. unfold g, sm_at, hit. cbn [fst snd]. rewrite map_map.
      specialize (Hin j Hj). unfold minor in Hin. destruct (sm_fmt m); cbn [fst snd].
      - rewrite <- Hc. rewrite <- (line_sum (sm_nc m) (fun b => (nth j gr 0 =? r) && (nth b gc 0 =? c))) by auto. reflexivity.
      - rewrite <- Hr. rewrite <- (line_sum (sm_nr m) (fun a => (nth a gr 0 =? r) && (nth j gc 0 =? c))) by auto. reflexivity. }
    unfold sumq at 1. unfold major in *. destruct (sm_fmt m) eqn:F.
    + rewrite <- Hr. apply qsum_map_ext. intros j Hj. apply in_seq in Hj. apply E. lia.
    + transitivity (sumq (length gc) (fun b => sumq (length gr) (fun a => if (nth a gr 0 =? r) && (nth b gc 0 =? c) then sm_at m a b else 0%Qc))).
      * rewrite <- Hc. apply qsum_map_ext. intros j Hj. apply in_seq in Hj. apply E. lia.
      * rewrite sumq_swap. reflexivity.
  - intros r c v H. apply in_concat in H as (l & Hl1 & H). apply in_map_iff in Hl1 as (j & <- & Hj). apply in_seq in Hj.
    unfold g in H. cbn [fst snd] in H. apply in_map_iff in H as ([i w] & E & H). rewrite Nat.sub_0_r in H.
    specialize (Hin j). rewrite Forall_forall in Hin. unfold major, minor in *.
    assert (H1 : fst (i, w) < match sm_fmt m with CSR => sm_nc m | CSC => sm_nr m end) by (apply Hin; auto; lia).
    cbn [fst snd] in *. destruct (sm_fmt m); injection E as <- <- <-; split; apply nth_In; lia.
Qed.

(** ** all ranks *)
Definition mat_of (Ms : list lmat) (e a b : nat) : Qc := match nget (concat Ms) e with Some m => sm_at m a b | None => 0%Qc end.
Definition vec_of (bs : list lvec) (e a : nat) : Qc := match nget (concat bs) e with Some d => nth a d 0%Qc | None => 0%Qc end.
Definition fits (gr gc : dgm) (Ms : list lmat) : Prop :=
  wf_numbering gr /\ wf_numbering gc /\ map keys Ms = map keys gr /\ same_elements gr gc /\
  forall e m, In (e, m) (concat Ms) -> sm_ok m /\ sm_nr m = length (numbers gr e) /\ sm_nc m = length (numbers gc e).
Definition vfits (g : dgm) (bs : list lvec) : Prop :=
  wf_numbering g /\ map keys bs = map keys g /\ forall e d, In (e, d) (concat bs) -> length d = length (numbers g e).

Lemma keys_concat {V} (l : list (dict nat V)) : keys (concat l) = concat (map keys l).
Proof. unfold keys. now rewrite concat_map. Qed.
Lemma numbers_get (g : dgm) e : numbers g e = match nget (concat g) e with Some r => r | None => [] end.
Proof.
  unfold numbers. induction (concat g) as [|[a b] l IH]; simpl; auto. rewrite (Nat.eqb_sym e a). destruct (a =? e); auto.
Qed.
Lemma numbers_in (g : dgm) e row : wf_numbering g -> In (e, row) (concat g) -> numbers g e = row.
Proof.
  intros H Hi. rewrite numbers_get. rewrite (in_get Nat.eqb Nat_eqb_spec (concat g) e row); auto.
  rewrite keys_concat. unfold wf_numbering in H. now rewrite map_fst_keys in H.
Qed.
Lemma wf_rank (g : dgm) r : wf_numbering g -> In r g -> NoDup (keys r).
Proof.
  intros H Hr. unfold wf_numbering in H. rewrite map_fst_keys in H. induction g as [|x g IH]; [destruct Hr|].
  simpl in H. apply NoDup_app_elim in H as (H1 & H2 & _). destruct Hr as [->|Hr]; auto.
Qed.
Lemma rank_numbers (g : dgm) r e : wf_numbering g -> In r g -> In e (keys r) -> nget r e = Some (numbers g e).
Proof.
  intros H Hr He. apply (get_keys Nat.eqb Nat_eqb_spec) in He as [row Hrow]. rewrite Hrow. f_equal. symmetry.
  apply numbers_in; auto. apply in_concat. exists r. split; auto. now apply (get_in Nat.eqb Nat_eqb_spec).
Qed.
(** the entry of one rank is the entry seen from all ranks *)
Lemma rank_get {V} (Ms : list (dict nat V)) M e : NoDup (concat (map keys Ms)) -> In M Ms -> In e (keys M) -> nget M e = nget (concat Ms) e.
Proof.
  intros H HM He. apply (get_keys Nat.eqb Nat_eqb_spec) in He as [v Hv]. rewrite Hv. symmetry. apply (in_get Nat.eqb Nat_eqb_spec).
  - now rewrite keys_concat.
  - apply in_concat. exists M. split; auto. now apply (get_in Nat.eqb Nat_eqb_spec).
Qed.
Lemma elements_keys (g : dgm) : elements g = concat (map keys g).
Proof. unfold elements. rewrite <- keys_concat. reflexivity. Qed.
Lemma elements_nodup (g : dgm) : wf_numbering g -> NoDup (elements g).
Proof. intros H. rewrite elements_keys. unfold wf_numbering in H. now rewrite map_fst_keys in H. Qed.
Lemma same_elements_keys (g h : dgm) : same_elements g h <-> agree g h.
Proof. reflexivity. Qed.
Definition rank_ok (ng nc : nat -> list nat) (Mf : nat -> nat -> nat -> Qc) (x : rgm * rgm * lmat) : Prop :=
  forall e, In e (keys (fst (fst x))) -> nget (fst (fst x)) e = Some (ng e) /\ nget (snd (fst x)) e = Some (nc e) /\
    exists m, nget (snd x) e = Some m /\ sm_at m = Mf e /\ sm_ok m /\ sm_nr m = length (ng e) /\ sm_nc m = length (nc e).
Lemma rank_triples_ok ng nc Mf gr gc M : rank_ok ng nc Mf (gr, gc, M) ->
  exists ts, rank_triples None gr gc M = Some ts /\ (forall r c, entry ts r c = qsum (map (fun e => dense (ng e) (nc e) (Mf e) r c) (keys gr))) /\
    (forall r c v, In (r, c, v) ts -> exists e, In e (keys gr) /\ In r (ng e) /\ In c (nc e)).
Proof.
  intros H. unfold rank_ok in H. cbn [fst snd] in H. unfold rank_triples.
  assert (G : forall l, (forall e, In e l -> In e (keys gr)) -> exists s, obind l (fun e =>
    match nget gr e, nget gc e, nget M e with Some a, Some b, Some m => elem_triples None a b m | _, _, _ => None end) = Some s /\
    (forall r c, entry (concat s) r c = qsum (map (fun e => dense (ng e) (nc e) (Mf e) r c) l)) /\
    (forall r c v, In (r, c, v) (concat s) -> exists e, In e (keys gr) /\ In r (ng e) /\ In c (nc e))).
  { induction l as [|e l IH]; intros Hl.
    - exists []. simpl. repeat split; auto. intros ? ? ? [].
    - destruct IH as (s & E & Hs & Hi); [intros; apply Hl; now right|]. destruct (H e) as (E1 & E2 & m & E3 & Hm & Hok & Hr & Hc); [apply Hl; now left|].
      destruct (elem_triples_ok (ng e) (nc e) m Hok Hr Hc) as (ts & Et & Hts & Hin). exists (ts :: s). cbn [obind].
      rewrite E1, E2, E3, Et, E. split; auto. cbn [concat]. split.
      + intros r c. rewrite entry_app, Hs, Hts, Hm. reflexivity.
      + intros r c v Hv. apply in_app_or in Hv as [Hv|Hv]; [|eauto]. exists e. split; [apply Hl; now left|eauto]. }
  destruct (G (keys gr)) as (s & E & Hs & Hi); auto. exists (concat s). rewrite E. cbn [option_map]. auto.
Qed.
Lemma ranks_ok ng nc Mf gr : forall gc Ms, length gr = length gc -> length gr = length Ms ->
  Forall (rank_ok ng nc Mf) (combine (combine gr gc) Ms) ->
  exists A, assemble_matrix None gr gc Ms = Some A /\ length A = length gr /\
    (forall r c, value_at A r c = qsum (map (fun e => dense (ng e) (nc e) (Mf e) r c) (concat (map keys gr)))) /\
    (forall ts r c v, In ts A -> In (r, c, v) ts -> exists e, In e (concat (map keys gr)) /\ In r (ng e) /\ In c (nc e)).
Proof.
  induction gr as [|x gr IH]; intros [|y gc] [|M Ms] H1 H2 H; try discriminate.
  - exists []. repeat split; auto. intros ? ? ? ? [].
  - cbn [combine] in H. inversion H as [|? ? Hx H']; subst. destruct (rank_triples_ok _ _ _ _ _ _ Hx) as (ts & E & Hts & Hi).
    destruct (IH gc Ms) as (A & EA & HlA & HA & HiA); auto. exists (ts :: A). unfold assemble_matrix in *. cbn [combine obind fst snd].
    rewrite E, EA. repeat split; auto.
    + simpl. now rewrite HlA.
    + intros r c. unfold value_at in *. cbn [map qsum fold_right concat]. fold (qsum (map (fun ts0 => entry ts0 r c) A)).
      rewrite Hts, HA, map_app, qsum_app. reflexivity.
    + intros ts' r c v [<-|Hin] Hv; cbn [map concat].
      * destruct (Hi r c v Hv) as (e & He & ?). exists e. rewrite in_app_iff. auto.
      * destruct (HiA ts' r c v Hin Hv) as (e & He & ?). exists e. rewrite in_app_iff. auto.
Qed.
Lemma fits_ranks gr gc Ms : fits gr gc Ms -> length gr = length gc /\ length gr = length Ms /\
  Forall (rank_ok (numbers gr) (numbers gc) (mat_of Ms)) (combine (combine gr gc) Ms).
Proof.
  intros (Hwr & Hwc & Hk & He & Hs).
  assert (L1 : length gr = length gc) by (now apply Forall2_len in He).
  assert (L2 : length gr = length Ms) by (now rewrite <- (map_length keys gr), <- Hk, map_length).
  split; auto. split; auto. apply Forall_forall. intros [[x y] M] Hin e Hx. cbn [fst snd] in *.
  apply In_nth_error in Hin as [k Hn].
  assert (Hn1 : nth_error gr k = Some x /\ nth_error gc k = Some y /\ nth_error Ms k = Some M).
  { clear - Hn. revert gr gc Ms Hn. induction k as [|k IH]; intros [|a gr] [|b gc] [|m Ms] H; simpl in *; try discriminate; [injection H as -> -> ->; auto|eauto]. }
  destruct Hn1 as (N1 & N2 & N3).
  assert (Hy : In e (keys y)).
  { destruct (Forall2_nth_l _ _ _ _ _ He N1) as (y' & Ny & Hxy). rewrite N2 in Ny. injection Ny as <-. now apply Hxy. }
  assert (HM : In e (keys M)).
  { assert (E : nth_error (map keys Ms) k = nth_error (map keys gr) k) by now rewrite Hk.
    rewrite (map_nth_error keys k Ms N3), (map_nth_error keys k gr N1) in E. injection E as ->. auto. }
  split; [apply (rank_numbers gr x); auto; eapply nth_error_In; eauto|].
  split; [apply (rank_numbers gc y); auto; eapply nth_error_In; eauto|].
  assert (ND : NoDup (concat (map keys Ms))) by (rewrite Hk; unfold wf_numbering in Hwr; now rewrite map_fst_keys in Hwr).
  pose proof (rank_get Ms M e ND (nth_error_In _ _ N3) HM) as E.
  apply (get_keys Nat.eqb Nat_eqb_spec) in HM as [m Hm]. exists m. split; auto. split; [|apply Hs].
  - unfold mat_of. rewrite <- E, Hm. reflexivity.
  - apply in_concat. exists M. split; [eapply nth_error_In; eauto|now apply (get_in Nat.eqb Nat_eqb_spec)].
Qed.
Lemma assemble_matrix_ok gr gc Ms : fits gr gc Ms ->
  exists A, assemble_matrix None gr gc Ms = Some A /\ length A = length gr /\
    (forall r c, value_at A r c = global_entry gr gc (mat_of Ms) r c) /\
    (forall ts r c v, In ts A -> In (r, c, v) ts -> used gr r /\ used gc c).
Proof.
  intros H. pose proof H as (Hwr & Hwc & Hk & He & Hs). apply fits_ranks in H as (L1 & L2 & H).
  destruct (ranks_ok _ _ _ gr gc Ms L1 L2 H) as (A & E & HA & HV & Hi). exists A. split; auto. split; auto. split.
  - intros r c. rewrite HV. unfold global_entry. now rewrite elements_keys.
  - intros ts r c v Ht Hv. destruct (Hi ts r c v Ht Hv) as (e & Hin & Hr & Hc).
    assert (Hin' : In e (concat (map keys gc))) by (apply (agree_in gr gc); auto).
    split; [exists e, (numbers gr e)|exists e, (numbers gc e)]; split; auto.
    + apply row_at_key in Hin as [row Hrow]. destruct Hrow as (x & Hx & Hrow). rewrite (numbers_in gr e row); auto; [exists x; auto|apply in_concat; eauto].
    + apply row_at_key in Hin' as [row Hrow]. destruct Hrow as (x & Hx & Hrow). rewrite (numbers_in gc e row); auto; [exists x; auto|apply in_concat; eauto].
Qed.
