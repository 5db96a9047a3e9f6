(** The invariant of the first-come numbering of UnModel. *)
From Coq Require Import Arith List Bool Lia.
From Verif Require Import NdArray Dict GmModel GmProofs UnModel UnSpec.
Import ListNotations.

Lemma sig_eqb_spec a b : sig_eqb a b = true <-> a = b.
Proof.
  revert b. induction a as [|x a IH]; intros [|y b]; simpl; split; try discriminate; auto.
  - rewrite andb_true_iff, Nat.eqb_eq, IH. intros [-> ->]; auto.
  - intros [= -> ->]. rewrite andb_true_iff, Nat.eqb_eq, IH. auto.
Qed.

(** ** assigning an array of the shape of the slice *)
Lemma fits_refl sh : fits sh sh = true.
Proof. induction sh; simpl; auto. rewrite Nat.eqb_refl. auto. Qed.
Lemma bc_index_id sh ix r : ravelF sh ix = Some r -> bc_index sh ix = ix.
Proof.
  revert ix r. induction sh as [|n sh IH]; intros [|i ix] r; simpl; try discriminate; auto.
  destruct (i <? n) eqn:E; [|discriminate]. destruct (ravelF sh ix) as [q|] eqn:Q; [|discriminate]. intros _.
  rewrite (IH _ _ Q). destruct (n =? 1) eqn:E1; auto. apply Nat.eqb_eq in E1. apply Nat.ltb_lt in E. f_equal. lia.
Qed.
Lemma obind_seq {A} (l : list A) : obind (seq 0 (length l)) (nth_error l) = Some l.
Proof.
  assert (forall pre, obind (seq (length pre) (length l)) (nth_error (pre ++ l)) = Some l) as H.
  { induction l as [|a l IH]; intros pre; simpl; auto.
    rewrite nth_error_app2, Nat.sub_diag by lia. simpl.
    specialize (IH (pre ++ [a])). rewrite app_length, Nat.add_comm in IH. simpl in IH.
    rewrite <- app_assoc in IH. simpl in IH. now rewrite IH. }
  apply (H []).
Qed.
Lemma obind_map {A B C} (f : A -> B) (g : B -> option C) l : obind (map f l) g = obind l (fun a => g (f a)).
Proof. induction l as [|a l IH]; simpl; auto. now rewrite IH. Qed.
Lemma obind_ext {A B} (f g : A -> option B) l : (forall a, In a l -> f a = g a) -> obind l f = obind l g.
Proof. induction l as [|a l IH]; intros H; simpl; auto. rewrite H by (left; auto). rewrite IH; auto. intros b Hb. apply H. now right. Qed.
Lemma spread_same v sh : sh <> [] -> v_dims v = sh -> length (v_data v) = prodl sh -> spread v sh = Some (v_data v).
Proof.
  intros Hne Hd Hl. unfold spread. rewrite Hd. destruct sh as [|n0 sh0] eqn:Esh; [contradiction|]. rewrite <- Esh in *. clear Hne Hd.
  rewrite fits_refl.
  transitivity (obind (map (ravelF sh) (indices sh)) (fun o => match o with Some r => nth_error (v_data v) r | None => None end)).
  - rewrite obind_map. apply obind_ext. intros ix Hix. apply in_indices_ravel in Hix as [r Hr]. now rewrite (bc_index_id _ _ _ Hr).
  - rewrite ravelF_indices_seq, obind_map, <- Hl. apply obind_seq.
Qed.
Lemma spread_number x tgt : spread {| v_dims := []; v_data := [x] |} tgt = Some (repeat x (prodl tgt)).
Proof. reflexivity. Qed.

(** ** places *)
Definition key_of (p : place) : option (list nat) :=
  match p with
  | PVertex v => Some [v]
  | PEdge a b _ _ => Some [a; b]
  | PFace f _ => Some f
  | PIn _ _ => None
  end.
Definition lab_edge (a b n : nat) : list place := map (fun r => PEdge a b r (n - 1 - r)) (seq 0 n).
Definition blk (k : list nat) (shs : list (list nat)) : list place :=
  match k, shs with
  | [v], _ => [PVertex v]
  | [a; b], [[n]] => lab_edge a b n
  | f, [sh] => map (PFace f) (indices sh)
  | f, [sh1; sh2] => map (fun ix => PFace f (0 :: ix)) (indices sh1) ++ map (fun ix => PFace f (1 :: ix)) (indices sh2)
  | _, _ => []
  end.
Definition dims (shs : list (list nat)) : list nat :=
  match shs with
  | [sh] => sh
  | [sh1; sh2] => [prodl sh1 + prodl sh2]
  | _ => []
  end.
(** requests that occur *)
Inductive request_ok : list nat -> list (list nat) -> Prop :=
| ro_node v : request_ok [v] [[]]
| ro_edge a b n : request_ok [a; b] [[n]]
| ro_face f sh : length f = 4 -> sh <> [] -> request_ok f [sh]
| ro_pair f sh1 sh2 : length f = 4 -> request_ok f [sh1; sh2].

Lemma indices_length sh : length (indices sh) = prodl sh.
Proof. rewrite <- (map_length (ravelF sh)), ravelF_indices_seq, map_length, seq_length. auto. Qed.
Lemma len4 {A} (f : list A) : length f = 4 -> exists a b c d, f = [a; b; c; d].
Proof. destruct f as [|a [|b [|c [|d [|]]]]]; simpl; try discriminate. eauto. Qed.
Lemma blk_length k shs : request_ok k shs -> length (blk k shs) = prodl (dims shs).
Proof.
  intros [v|a b n|f sh Hf Hs|f sh1 sh2 Hf].
  - reflexivity.
  - simpl. unfold lab_edge. rewrite map_length, seq_length. lia.
  - apply len4 in Hf as (a & b & c & d & ->). simpl. now rewrite map_length, indices_length.
  - apply len4 in Hf as (a & b & c & d & ->). simpl. rewrite app_length, !map_length, !indices_length. lia.
Qed.
Lemma blk_key k shs p : request_ok k shs -> In p (blk k shs) -> key_of p = Some k.
Proof.
  intros [v|a b n|f sh Hf Hs|f sh1 sh2 Hf].
  - intros [<-|[]]. reflexivity.
  - simpl. unfold lab_edge. intros H. apply in_map_iff in H as (r & <- & _). reflexivity.
  - apply len4 in Hf as (a & b & c & d & ->). simpl. intros H. apply in_map_iff in H as (r & <- & _). reflexivity.
  - apply len4 in Hf as (a & b & c & d & ->). simpl. intros H.
    apply in_app_iff in H as [H|H]; apply in_map_iff in H as (r & <- & _); reflexivity.
Qed.
Lemma NoDup_map_inj {A B} (f : A -> B) l : (forall a b, f a = f b -> a = b) -> NoDup l -> NoDup (map f l).
Proof. intros H. apply FinFun.Injective_map_NoDup. exact H. Qed.
Lemma blk_NoDup k shs : request_ok k shs -> NoDup (blk k shs).
Proof.
  intros [v|a b n|f sh Hf Hs|f sh1 sh2 Hf].
  - simpl. repeat constructor. auto.
  - simpl. unfold lab_edge. apply NoDup_map_inj; [intros x y; congruence|apply seq_NoDup].
  - apply len4 in Hf as (a & b & c & d & ->). simpl. apply NoDup_map_inj; [intros x y; congruence|apply indices_NoDup].
  - apply len4 in Hf as (a & b & c & d & ->). simpl. apply NoDup_app_intro.
    + apply NoDup_map_inj; [intros x y; congruence|apply indices_NoDup].
    + apply NoDup_map_inj; [intros x y; congruence|apply indices_NoDup].
    + intros p H1 H2. apply in_map_iff in H1 as (r & <- & _). apply in_map_iff in H2 as (q & H & _). discriminate.
Qed.

Lemma same_refl t p : same t p p.
Proof. now left. Qed.
Lemma same_sym t p q : same t p q -> same t q p.
Proof. intros [->|(Ht & a & b & k & k' & Hab & -> & ->)]; [now left|]. right. split; auto. exists b, a, k', k. auto. Qed.
Lemma same_trans t p q r : same t p q -> same t q r -> same t p r.
Proof.
  intros [->|(Ht & a & b & k & k' & Hab & -> & ->)]; auto.
  intros [<-|(_ & a1 & b1 & k1 & k1' & Hab1 & H1 & ->)]; [right; split; auto; exists a, b, k, k'; auto|].
  injection H1 as <- <- <- <-. now left.
Qed.

(** ** what a visit does, in terms of places *)
Definition vreq (m : list nat) (x : visit) : list (list nat * list (list nat)) :=
  match x with
  | VNode a s => match nth_error m a with Some c => [([c], [[]])] | None => [] end
  | VEdge _ a b n s => match nth_error m a, nth_error m b with Some c, Some d => [([c; d], [[n]])] | _, _ => [] end
  | VFace f sh s => match corners m f with Some k => [(k, [sh])] | None => [] end
  | VPair f sh1 sh2 s1 s2 => match corners m f with Some k => [(k, [sh1; sh2])] | None => [] end
  | VIn _ _ => []
  end.
Definition vin (x : visit) : list slot := match x with VIn _ s => s_slots s | _ => [] end.
Definition vplaces (e : nat) (m : list nat) (x : visit) : list (slot * place) :=
  match x with
  | VNode a s => match nth_error m a with Some c => map (fun s => (s, PVertex c)) (s_slots s) | None => [] end
  | VEdge _ a b n s =>
      match nth_error m a, nth_error m b with Some c, Some d => combine (s_slots s) (lab_edge c d n) | _, _ => [] end
  | VFace f sh s => match corners m f with Some k => combine (s_slots s) (map (PFace k) (indices sh)) | None => [] end
  | VPair f sh1 sh2 s1 s2 =>
      match corners m f with
      | Some k => combine (s_slots s1) (map (fun ix => PFace k (0 :: ix)) (indices sh1)) ++
                  combine (s_slots s2) (map (fun ix => PFace k (1 :: ix)) (indices sh2))
      | None => []
      end
  | VIn sh s => map (fun s => (s, PIn e s)) (s_slots s)
  end.
Definition slice_ok (s : slice) (sh : list nat) : Prop := s_dims s = sh /\ length (s_slots s) = prodl sh /\ sh <> [].
Definition vok (turn : bool) (m : list nat) (x : visit) : Prop :=
  match x with
  | VNode a s => (exists c, nth_error m a = Some c) /\ length (s_slots s) = prodl (s_dims s) /\ s_slots s <> []
  | VEdge t a b n s => t = turn /\ (exists c, nth_error m a = Some c) /\ (exists c, nth_error m b = Some c) /\ slice_ok s [n]
  | VFace f sh s => (exists k, corners m f = Some k) /\ length f = 4 /\ slice_ok s sh
  | VPair f sh1 sh2 s1 s2 => (exists k, corners m f = Some k) /\ length f = 4 /\ slice_ok s1 sh1 /\ slice_ok s2 sh2
  | VIn sh s => slice_ok s sh
  end.
Lemma corners_length m f k : corners m f = Some k -> length k = length f.
Proof.
  revert k. induction f as [|i f IH]; simpl; intros k.
  - intros [= <-]. reflexivity.
  - unfold corners in *. simpl. destruct (nth_error m i); [|discriminate]. destruct (obind f (nth_error m)); [|discriminate].
    intros [= <-]. simpl. f_equal. auto.
Qed.
Lemma vreq_ok turn m x k shs : vok turn m x -> In (k, shs) (vreq m x) -> request_ok k shs.
Proof.
  destruct x; simpl.
  - intros [[c ->] _]. intros [[= <- <-]|[]]. constructor.
  - intros (_ & [c ->] & [d ->] & _). intros [[= <- <-]|[]]. constructor.
  - intros ([c E] & Hl & _ & _ & Hn). rewrite E. intros [[= <- <-]|[]]. constructor; auto. now rewrite (corners_length _ _ _ E).
  - intros ([c E] & Hl & _). rewrite E. intros [[= <- <-]|[]]. constructor; auto. now rewrite (corners_length _ _ _ E).
  - tauto.
Qed.

Lemma Forall2_app_gh {A} (gh ext : list A) ns ps :
  Forall2 (fun n p => nth_error gh n = Some p) ns ps -> Forall2 (fun n p => nth_error (gh ++ ext) n = Some p) ns ps.
Proof.
  induction 1; constructor; auto. rewrite nth_error_app1; auto. apply nth_error_Some. congruence.
Qed.
Lemma Forall2_seq {A} (gh b : list A) : Forall2 (fun n p => nth_error (gh ++ b) n = Some p) (seq (length gh) (length b)) b.
Proof.
  revert gh. induction b as [|a b IH]; intros gh; simpl; constructor.
  - rewrite nth_error_app2, Nat.sub_diag by lia. reflexivity.
  - specialize (IH (gh ++ [a])). rewrite app_length in IH. simpl in IH. rewrite Nat.add_1_r, <- app_assoc in IH. exact IH.
Qed.

Lemma rev_seq n : rev (seq 0 n) = map (fun r => n - 1 - r) (seq 0 n).
Proof.
  induction n as [|n IH]; auto. rewrite seq_S at 1. rewrite rev_app_distr, IH. simpl. rewrite Nat.sub_0_r. f_equal.
  - lia.
  - rewrite <- seq_shift, map_map. apply map_ext. intros r. lia.
Qed.
Lemma lab_edge_rev t a b n : a <> b -> t = true -> Forall2 (same t) (rev (lab_edge b a n)) (lab_edge a b n).
Proof.
  intros Hab Ht. unfold lab_edge. rewrite <- map_rev, rev_seq, map_map.
  assert (forall l, (forall r, In r l -> r < n) ->
    Forall2 (same t) (map (fun x => PEdge b a (n - 1 - x) (n - 1 - (n - 1 - x))) l) (map (fun r => PEdge a b r (n - 1 - r)) l)) as H.
  { induction l as [|r l IH]; intros Hl; simpl; constructor.
    - right. split; auto. exists b, a, (n - 1 - r), r. split; [congruence|]. split; auto. f_equal. specialize (Hl r (or_introl eq_refl)). lia.
    - apply IH. intros q Hq. apply Hl. now right. }
  apply H. intros r Hr. apply in_seq in Hr. lia.
Qed.
Lemma Forall2_rev' {A B} (Q : A -> B -> Prop) l m : Forall2 Q l m -> Forall2 Q (rev l) (rev m).
Proof. induction 1; simpl; auto. apply Forall2_app; auto. Qed.
Lemma Forall2_comp {A B C} (Q : A -> B -> Prop) (S : B -> C -> Prop) l m n :
  Forall2 Q l m -> Forall2 S m n -> Forall2 (fun a c => exists b, Q a b /\ S b c) l n.
Proof. intros H. revert n. induction H; intros n Hn; inversion Hn; subst; constructor; eauto. Qed.
Lemma Forall2_length' {A B} (Q : A -> B -> Prop) l m : Forall2 Q l m -> length l = length m.
Proof. induction 1; simpl; auto. Qed.

Section Engine.
  Context (turn : bool) (R : list (list nat * list (list nat))).
  Context (Rok : forall k shs, In (k, shs) R -> request_ok k shs).
  Context (Rfun : forall k shs shs', In (k, shs) R -> In (k, shs') R -> shs = shs').
  Context (Rturn : turn = true -> forall a b shs shs', In ([a; b], shs) R -> In ([b; a], shs') R -> shs = shs').

  Record Good (I : list (nat * slot)) (P : list place) (st : state) (gh : list place) : Prop := {
    g_len : length gh = cur st;
    g_nd : NoDup gh;
    g_pool : forall k v, pget (pool st) k = Some v -> exists shs, In (k, shs) R /\ v_dims v = dims shs /\
               Forall2 (fun n p => nth_error gh n = Some p) (v_data v) (blk k shs);
    g_in : forall p, In p gh -> match key_of p with
                               | Some k => exists v, pget (pool st) k = Some v
                               | None => exists e s, p = PIn e s /\ In (e, s) I
                               end;
    g_turn : turn = true -> forall a b, a <> b -> pget (pool st) [a; b] <> None -> pget (pool st) [b; a] = None;
    g_from : incl gh P }.

  Lemma Good0 : Good [] [] st0 [].
  Proof. constructor; simpl; auto; try discriminate; try tauto; [constructor|intros p []]. Qed.
  Lemma Good_weak I P I' P' st gh : incl I I' -> incl P P' -> Good I P st gh -> Good I' P' st gh.
  Proof.
    intros Hi Hp [A B C D E F]. constructor; auto.
    - intros p Hpg. specialize (D p Hpg). destruct (key_of p); auto. destruct D as (e & s & -> & Hes). eauto.
    - intros p Hpg. auto.
  Qed.

  Lemma pget_put st k v k' : pget (put sig_eqb (pool st) k v) k' = if sig_eqb k' k then Some v else pget (pool st) k'.
  Proof. unfold pget. apply get_put. apply sig_eqb_spec. Qed.

  (** a new block *)
  Lemma alloc I P st gh k shs :
    Good I P st gh -> In (k, shs) R -> pget (pool st) k = None ->
    (turn = true -> forall a b, k = [a; b] -> a <> b -> pget (pool st) [b; a] = None) ->
    let v := {| v_dims := dims shs; v_data := seq (cur st) (prodl (dims shs)) |} in
    let st' := {| pool := put sig_eqb (pool st) k v; cur := cur st + prodl (dims shs) |} in
    Good I (blk k shs ++ P) st' (gh ++ blk k shs) /\
    Forall2 (fun n p => nth_error (gh ++ blk k shs) n = Some p) (v_data v) (blk k shs).
  Proof.
    intros HG HR Hk Ht v st'. pose proof (Rok _ _ HR) as Hro. pose proof (blk_length _ _ Hro) as Hbl.
    assert (Forall2 (fun n p => nth_error (gh ++ blk k shs) n = Some p) (v_data v) (blk k shs)) as HF.
    { unfold v. simpl. rewrite <- Hbl, <- (g_len _ _ _ _ HG). apply Forall2_seq. }
    split; [|exact HF]. constructor.
    - rewrite app_length, (g_len _ _ _ _ HG), Hbl. reflexivity.
    - apply NoDup_app_intro; [apply (g_nd _ _ _ _ HG)|now apply blk_NoDup|].
      intros p H1 H2. apply (blk_key _ _ _ Hro) in H2. apply (g_in _ _ _ _ HG) in H1. rewrite H2 in H1.
      destruct H1 as [w Hw]. congruence.
    - intros k' v'. unfold st'. simpl. rewrite pget_put. destruct (sig_eqb k' k) eqn:E.
      + apply sig_eqb_spec in E as ->. intros [= <-]. exists shs. auto.
      + intros Hg. destruct (g_pool _ _ _ _ HG _ _ Hg) as (s' & H1 & H2 & H3). exists s'. split; auto. split; auto. now apply Forall2_app_gh.
    - intros p Hp. apply in_app_iff in Hp as [Hp|Hp].
      + apply (g_in _ _ _ _ HG) in Hp. destruct (key_of p) as [k'|]; auto. destruct Hp as [w Hw]. unfold st'. simpl. rewrite pget_put.
        destruct (sig_eqb k' k); eauto.
      + rewrite (blk_key _ _ _ Hro Hp). unfold st'. simpl. exists v. rewrite pget_put. now rewrite (proj2 (sig_eqb_spec k k)).
    - intros Htr a b Hab. unfold st'. simpl. rewrite !pget_put.
      destruct (sig_eqb [b; a] k) eqn:E2.
      + apply sig_eqb_spec in E2. intros H. destruct (sig_eqb [a; b] k) eqn:E1.
        * apply sig_eqb_spec in E1. rewrite <- E2 in E1. congruence.
        * rewrite (Ht Htr b a) in H; auto; congruence.
      + destruct (sig_eqb [a; b] k) eqn:E1.
        * apply sig_eqb_spec in E1. intros _. apply (Ht Htr a b); auto.
        * apply (g_turn _ _ _ _ HG); auto.
    - intros p Hp. apply in_app_iff in Hp as [Hp|Hp]; apply in_app_iff; [right|left; auto]. now apply (g_from _ _ _ _ HG).
  Qed.

  (** taking a block, or a new one *)
  Lemma fetch_ok I P st gh k shs :
    Good I P st gh -> In (k, shs) R -> (turn = true -> length k <> 2) ->
    exists v st' ext, fetch k (dims shs) st = (v, st') /\ v_dims v = dims shs /\
      Forall2 (fun n p => nth_error (gh ++ ext) n = Some p) (v_data v) (blk k shs) /\
      Good I (blk k shs ++ P) st' (gh ++ ext).
  Proof.
    intros HG HR Hlen. unfold fetch. destruct (pget (pool st) k) as [v|] eqn:E.
    - exists v, st, []. rewrite app_nil_r. destruct (g_pool _ _ _ _ HG _ _ E) as (s' & H1 & H2 & H3).
      assert (s' = shs) as -> by (eapply Rfun; eauto). split; auto. split; auto. split; auto.
      eapply Good_weak; [| |exact HG]; [apply incl_refl|apply incl_appr, incl_refl].
    - unfold keep, arange. simpl. eexists _, _, (blk k shs). split; [reflexivity|]. split; auto.
      destruct (alloc I P st gh k shs HG HR E) as [A B].
      { intros Ht a b ->. intros _. now specialize (Hlen Ht). }
      split; auto.
  Qed.

  (** the numbers xs are those of places that are the same as ps *)
  Definition fill (gh : list place) (xs : list nat) (ps : list place) : Prop :=
    Forall2 (fun n p => exists p', nth_error gh n = Some p' /\ same turn p' p) xs ps.
  Lemma fill_eq gh xs ps : Forall2 (fun n p => nth_error gh n = Some p) xs ps -> fill gh xs ps.
  Proof. apply Forall2_impl. intros n p H. exists p. split; auto. apply same_refl. Qed.

  Lemma fetch_turn_ok I P st gh a b n :
    Good I P st gh -> In ([a; b], [[n]]) R -> turn = true ->
    exists v st' ext, fetch_turn a b n st = (v, st') /\ v_dims v = [n] /\
      fill (gh ++ ext) (v_data v) (lab_edge a b n) /\ Good I (lab_edge a b n ++ P) st' (gh ++ ext).
  Proof.
    intros HG HR Ht. unfold fetch_turn. destruct (pget (pool st) [a; b]) as [v|] eqn:E.
    - exists v, st, []. rewrite app_nil_r. destruct (g_pool _ _ _ _ HG _ _ E) as (s' & H1 & H2 & H3).
      assert (s' = [[n]]) as -> by (eapply Rfun; eauto). split; auto. split; auto. split; [now apply fill_eq|].
      eapply Good_weak; [| |exact HG]; [apply incl_refl|apply incl_appr, incl_refl].
    - destruct (pget (pool st) [b; a]) as [v|] eqn:E2.
      + assert (a <> b) as Hab by congruence.
        exists (turned v), st, []. rewrite app_nil_r. destruct (g_pool _ _ _ _ HG _ _ E2) as (s' & H1 & H2 & H3).
        assert (s' = [[n]]) as -> by (symmetry; eapply Rturn; eauto). split; auto. split; auto. split.
        * simpl. unfold fill. eapply Forall2_comp; [|apply lab_edge_rev; auto]. now apply Forall2_rev'.
        * eapply Good_weak; [| |exact HG]; [apply incl_refl|apply incl_appr, incl_refl].
      + unfold keep, arange. simpl. eexists _, _, (lab_edge a b n). split; [reflexivity|]. split; auto.
        destruct (alloc I P st gh [a; b] [[n]] HG HR E) as [A B].
        { intros _ a' b' [= <- <-] _. auto. }
        split; [|exact A]. apply fill_eq. exact B.
  Qed.
  Lemma arange_ok I P st gh e sh (ss : list slot) :
    Good I P st gh -> length ss = prodl sh -> NoDup ss -> (forall s, In s ss -> ~ In (e, s) I) ->
    exists v st' ext, arange sh st = (v, st') /\ v_dims v = sh /\
      fill (gh ++ ext) (v_data v) (map (PIn e) ss) /\ Good (map (pair e) ss ++ I) (map (PIn e) ss ++ P) st' (gh ++ ext).
  Proof.
    intros HG Hl Hnd Hnew. unfold arange. eexists _, _, (map (PIn e) ss). split; [reflexivity|]. split; auto. split.
    - apply fill_eq. simpl. rewrite <- Hl, <- (g_len _ _ _ _ HG). rewrite <- (map_length (PIn e) ss). apply Forall2_seq.
    - constructor.
      + rewrite app_length, map_length, (g_len _ _ _ _ HG), Hl. reflexivity.
      + apply NoDup_app_intro; [apply (g_nd _ _ _ _ HG)|apply NoDup_map_inj; auto; congruence|].
        intros p H1 H2. apply in_map_iff in H2 as (s & <- & Hs). apply (g_in _ _ _ _ HG) in H1. simpl in H1.
        destruct H1 as (e' & s' & [= <- <-] & H). now apply (Hnew s).
      + intros k v Hg. destruct (g_pool _ _ _ _ HG _ _ Hg) as (s' & H1 & H2 & H3). exists s'. split; auto. split; auto. now apply Forall2_app_gh.
      + intros p Hp. apply in_app_iff in Hp as [Hp|Hp].
        * apply (g_in _ _ _ _ HG) in Hp. destruct (key_of p); auto. destruct Hp as (e' & s' & -> & H). exists e', s'. split; auto. apply in_app_iff; auto.
        * apply in_map_iff in Hp as (s & <- & Hs). simpl. exists e, s. split; auto. apply in_app_iff. left. now apply in_map.
      + apply (g_turn _ _ _ _ HG).
      + intros p Hp. apply in_app_iff in Hp as [Hp|Hp]; apply in_app_iff; [right|left; auto]. now apply (g_from _ _ _ _ HG).
  Qed.

  (** ** the writes *)
  Definition Wok (gh : list place) (w : writes) (Pl : list (slot * place)) : Prop :=
    (forall s n, In (s, n) w -> exists p p', In (s, p) Pl /\ nth_error gh n = Some p' /\ same turn p' p) /\
    (forall s p, In (s, p) Pl -> exists n, In (s, n) w).
  Lemma Wok_ext gh ext w Pl : Wok gh w Pl -> Wok (gh ++ ext) w Pl.
  Proof.
    intros [A B]. split; auto. intros s n H. destruct (A s n H) as (p & p' & H1 & H2 & H3). exists p, p'. split; auto. split; auto.
    rewrite nth_error_app1; auto. apply nth_error_Some. congruence.
  Qed.
  Lemma Wok_put gh w Pl ss xs ps : Wok gh w Pl -> length ss = length xs -> fill gh xs ps ->
    Wok gh (combine ss xs ++ w) (combine ss ps ++ Pl).
  Proof.
    intros [A B] Hl Hf. split.
    - intros s n H. apply in_app_iff in H as [H|H].
      + clear A B. revert xs ps Hl Hf H. induction ss as [|s0 ss IH]; intros [|x xs] ps Hl Hf H; simpl in *; try tauto; try discriminate.
        inversion Hf as [|? p ? ps' Hp Hf']; subst. destruct H as [[= <- <-]|H].
        * destruct Hp as (p' & H1 & H2). exists p, p'. simpl. auto.
        * destruct (IH xs ps' ltac:(lia) Hf' H) as (p1 & p' & H1 & H2). exists p1, p'. simpl. tauto.
      + destruct (A s n H) as (p & p' & H1 & H2). exists p, p'. rewrite in_app_iff. tauto.
    - intros s p H. apply in_app_iff in H as [H|H].
      + clear A B. revert xs ps Hl Hf H. induction ss as [|s0 ss IH]; intros [|x xs] ps Hl Hf H; simpl in *; try tauto; try discriminate.
        inversion Hf as [|? p0 ? ps' Hp Hf']; subst. simpl in H. destruct H as [[= <- <-]|H].
        * exists x. simpl. auto.
        * destruct (IH xs ps' ltac:(lia) Hf' H) as (n & Hn). exists n. simpl. auto.
      + destruct (B s p H) as (n & Hn). exists n. rewrite in_app_iff. auto.
  Qed.
  Lemma put_slice_ok gh w Pl s sh v ps : slice_ok s sh -> v_dims v = sh -> fill gh (v_data v) ps -> length ps = prodl sh ->
    Wok gh w Pl -> exists w', put_slice s v w = Some w' /\ Wok gh w' (combine (s_slots s) ps ++ Pl).
  Proof.
    intros (Hd & Hl & Hn) Hv Hf Hlen HW. unfold put_slice. rewrite Hd. pose proof (Forall2_length' _ _ _ Hf) as Hfl.
    rewrite spread_same by (auto; lia). eexists. split; [reflexivity|]. apply Wok_put; auto. lia.
  Qed.
  Lemma combine_map_r {A B} (f : A -> B) l : combine l (map f l) = map (fun a => (a, f a)) l.
  Proof. induction l; simpl; f_equal; auto. Qed.
  Lemma combine_repeat {A B} (l : list A) (b : B) : combine l (repeat b (length l)) = map (fun a => (a, b)) l.
  Proof. induction l; simpl; f_equal; auto. Qed.
  Lemma fill_repeat gh n p p' k : nth_error gh n = Some p' -> same turn p' p -> fill gh (repeat n k) (repeat p k).
  Proof. intros H1 H2. unfold fill. induction k; simpl; constructor; eauto. Qed.
  Lemma fill_cut gh xs p1 p2 : fill gh xs (p1 ++ p2) -> fill gh (firstn (length p1) xs) p1 /\ fill gh (skipn (length p1) xs) p2.
  Proof.
    unfold fill. revert xs. induction p1 as [|p p1 IH]; intros xs H; simpl in *.
    - split; auto.
    - inversion H as [|x ? xs' ? Hx Hr]; subst. destruct (IH _ Hr). simpl. split; auto.
  Qed.
  Lemma map_snd_combine {A B} (l : list A) (m : list B) : length l = length m -> map snd (combine l m) = m.
  Proof. revert m. induction l; intros [|b m] H; simpl in *; try discriminate; f_equal; auto. Qed.

  Lemma visit_ok e m x w st gh I P Pl :
    Good I P st gh -> Wok gh w Pl -> vok turn m x -> incl (vreq m x) R ->
    NoDup (vin x) -> (forall s, In s (vin x) -> ~ In (e, s) I) ->
    exists w' st' ext, do_visit m x (w, st) = Some (w', st') /\
      Good (map (pair e) (vin x) ++ I) (map snd (vplaces e m x) ++ P) st' (gh ++ ext) /\ Wok (gh ++ ext) w' (vplaces e m x ++ Pl).
  Proof.
    intros HG HW Hv HR Hnd Hnew. destruct x as [a s|t a b n s|f sh s|f sh1 sh2 s1 s2|sh s]; simpl in *.
    - destruct Hv as ([c Hc] & Hl & Hne). rewrite Hc in *.
      assert (In ([c], [[]]) R) as HR' by (apply HR; left; auto).
      destruct (fetch_ok I P st gh [c] [[]] HG HR') as (v & st' & ext & E & Hd & HF & HG'); [simpl; lia|].
      simpl in E. rewrite E. simpl in HF, HG', Hd. inversion HF as [|x0 ? ? ? H1 H2 Hx]; subst. inversion H2; subst.
      destruct v as [vd vv]. simpl in *. subst vd. destruct vv as [|x1 [|]]; try discriminate. injection Hx as ->.
      unfold put_slice, spread. simpl. eexists _, _, ext. split; [reflexivity|]. split.
      + eapply Good_weak; [| |exact HG']; [apply incl_refl|]. intros p [<-|Hp].
        * apply in_app_iff. left. rewrite map_map. simpl. destruct (s_slots s) as [|s0 ss]; [contradiction|]. simpl. auto.
        * apply in_app_iff. now right.
      + rewrite <- Hl, <- combine_repeat. apply Wok_put; [now apply Wok_ext|now rewrite repeat_length|].
        eapply fill_repeat; eauto. apply same_refl.
    - destruct Hv as (-> & [c Hc] & [d Hd] & Hs). rewrite Hc, Hd in *.
      assert (In ([c; d], [[n]]) R) as HR' by (apply HR; left; auto).
      assert (exists v st' ext, (if turn then fetch_turn c d n st else fetch [c; d] [n] st) = (v, st') /\ v_dims v = [n] /\
        fill (gh ++ ext) (v_data v) (lab_edge c d n) /\ Good I (lab_edge c d n ++ P) st' (gh ++ ext)) as (v & st' & ext & E & Hvd & HF & HG').
      { destruct (bool_dec turn true) as [Et|Et].
        - assert ((if turn then fetch_turn c d n st else fetch [c; d] [n] st) = fetch_turn c d n st) as -> by now rewrite Et.
          apply fetch_turn_ok; auto.
        - assert ((if turn then fetch_turn c d n st else fetch [c; d] [n] st) = fetch [c; d] [n] st) as -> by now destruct turn.
          destruct (fetch_ok I P st gh [c; d] [[n]] HG HR') as (v & st' & ext & E & H1 & H2 & H3); [congruence|].
          exists v, st', ext. split; auto. split; auto. split; [now apply fill_eq|exact H3]. }
      rewrite E. assert (length (lab_edge c d n) = prodl [n]) as Hle by (unfold lab_edge; rewrite map_length, seq_length; simpl; lia).
      destruct (put_slice_ok (gh ++ ext) w Pl s [n] v (lab_edge c d n) Hs Hvd HF Hle (Wok_ext _ _ _ _ HW)) as (w' & Ew & HW').
      rewrite Ew. eexists _, _, ext. split; [reflexivity|]. split; auto.
      rewrite map_snd_combine; auto. destruct Hs as (_ & Hs & _). lia.
    - destruct Hv as ([k Hk] & Hf & Hs). rewrite Hk in *.
      assert (In (k, [sh]) R) as HR' by (apply HR; left; auto).
      assert (length k = 4) as Hk4 by (rewrite (corners_length _ _ _ Hk); auto).
      destruct (fetch_ok I P st gh k [sh] HG HR') as (v & st' & ext & E & Hvd & HF & HG'); [intros _; lia|].
      simpl in E. rewrite E. assert (blk k [sh] = map (PFace k) (indices sh)) as Eb.
      { destruct (len4 _ Hk4) as (a & b & c & d & ->). reflexivity. }
      rewrite Eb in *. assert (length (map (PFace k) (indices sh)) = prodl sh) as Hle by (rewrite map_length, indices_length; auto).
      destruct (put_slice_ok (gh ++ ext) w Pl s sh v _ Hs Hvd (fill_eq _ _ _ HF) Hle (Wok_ext _ _ _ _ HW)) as (w' & Ew & HW').
      rewrite Ew. eexists _, _, ext. split; [reflexivity|]. split; auto.
      rewrite map_snd_combine; auto. destruct Hs as (_ & Hs & _). lia.
    - destruct Hv as ([k Hk] & Hf & Hs1 & Hs2). rewrite Hk in *.
      assert (In (k, [sh1; sh2]) R) as HR' by (apply HR; left; auto).
      assert (length k = 4) as Hk4 by (rewrite (corners_length _ _ _ Hk); auto).
      destruct (fetch_ok I P st gh k [sh1; sh2] HG HR') as (v & st' & ext & E & Hvd & HF & HG'); [intros _; lia|].
      simpl in E. rewrite E. set (L1 := map (fun ix => PFace k (0 :: ix)) (indices sh1)) in *.
      set (L2 := map (fun ix => PFace k (1 :: ix)) (indices sh2)) in *.
      assert (blk k [sh1; sh2] = L1 ++ L2) as Eb. { destruct (len4 _ Hk4) as (a & b & c & d & ->). reflexivity. }
      rewrite Eb in *. assert (length L1 = prodl sh1) as Hl1 by (unfold L1; rewrite map_length, indices_length; auto).
      assert (length L2 = prodl sh2) as Hl2 by (unfold L2; rewrite map_length, indices_length; auto).
      pose proof (Forall2_length' _ _ _ HF) as Hlen. rewrite app_length, Hl1, Hl2 in Hlen.
      unfold put_pair. rewrite (proj2 (Nat.eqb_eq _ _) Hlen).
      destruct (fill_cut _ _ _ _ (fill_eq _ _ _ HF)) as [F1 F2]. rewrite Hl1 in F1, F2.
      destruct (put_slice_ok (gh ++ ext) w Pl s1 sh1 {| v_dims := sh1; v_data := firstn (prodl sh1) (v_data v) |} L1 Hs1 eq_refl F1 Hl1 (Wok_ext _ _ _ _ HW)) as (w1 & Ew1 & HW1).
      rewrite Ew1.
      destruct (put_slice_ok (gh ++ ext) w1 _ s2 sh2 {| v_dims := sh2; v_data := skipn (prodl sh1) (v_data v) |} L2 Hs2 eq_refl F2 Hl2 HW1) as (w2 & Ew2 & HW2).
      rewrite Ew2. eexists _, _, ext. split; [reflexivity|]. split.
      + rewrite map_app, !map_snd_combine; auto; [destruct Hs2 as (_ & Hs & _); lia|destruct Hs1 as (_ & Hs & _); lia].
      + destruct HW2 as [A B]. split.
        * intros s0 n0 H. destruct (A s0 n0 H) as (p & p' & H1 & H2). exists p, p'. split; auto. rewrite !in_app_iff in *. tauto.
        * intros s0 p H. apply (B s0 p). rewrite !in_app_iff in *. tauto.
    - destruct (arange_ok I P st gh e sh (s_slots s) HG) as (v & st' & ext & E & Hvd & HF & HG'); auto; [apply Hv|].
      injection E as <- <-. 
      destruct (put_slice_ok (gh ++ ext) w Pl s sh {| v_dims := sh; v_data := seq (cur st) (prodl sh) |} (map (PIn e) (s_slots s)) Hv eq_refl HF) as (w' & Ew & HW').
      { rewrite map_length. apply Hv. }
      { now apply Wok_ext. }
      rewrite Ew. eexists _, _, ext. split; [reflexivity|]. rewrite combine_map_r in HW'. split; auto.
      rewrite map_map. simpl. auto.
  Qed.
  Lemma visits_ok e m xs : forall w st gh I P Pl,
    Good I P st gh -> Wok gh w Pl -> Forall (vok turn m) xs -> incl (flat_map (vreq m) xs) R ->
    NoDup (flat_map vin xs) -> (forall s, In s (flat_map vin xs) -> ~ In (e, s) I) ->
    exists w' st' ext, do_visits m xs (w, st) = Some (w', st') /\
      Good (map (pair e) (flat_map vin xs) ++ I) (map snd (flat_map (vplaces e m) xs) ++ P) st' (gh ++ ext) /\
      Wok (gh ++ ext) w' (flat_map (vplaces e m) xs ++ Pl).
  Proof.
    induction xs as [|x xs IH]; intros w st gh I P Pl HG HW Hv HR Hnd Hnew; cbn [do_visits flat_map] in *.
    - exists w, st, []. simpl. rewrite app_nil_r. auto.
    - inversion Hv as [|? ? Hx Hxs]; subst. apply NoDup_app_elim in Hnd as (Hn1 & Hn2 & Hn3).
      destruct (visit_ok e m x w st gh I P Pl HG HW Hx) as (w1 & st1 & ext1 & E1 & HG1 & HW1); auto.
      { intros r Hr. apply HR. apply in_app_iff. auto. }
      { intros s Hs. apply Hnew. apply in_app_iff. auto. }
      rewrite E1.
      destruct (IH w1 st1 (gh ++ ext1) _ _ _ HG1 HW1 Hxs) as (w2 & st2 & ext2 & E2 & HG2 & HW2); auto.
      { intros r Hr. apply HR. apply in_app_iff. auto. }
      { intros s Hs Hin. apply in_app_iff in Hin as [Hin|Hin].
        - apply in_map_iff in Hin as (s' & [= <-] & Hs'). now apply (Hn3 s').
        - apply (Hnew s); auto. apply in_app_iff. auto. }
      exists w2, st2, (ext1 ++ ext2). rewrite app_assoc. split; auto. split.
      + eapply Good_weak; [| |exact HG2].
        * intros q Hq. rewrite map_app, !in_app_iff in *. tauto.
        * intros q Hq. rewrite map_app, !in_app_iff in *. tauto.
      + destruct HW2 as [A B]. split.
        * intros s0 n0 H. destruct (A s0 n0 H) as (p & p' & H1 & H2). exists p, p'. split; auto. rewrite !in_app_iff in *. tauto.
        * intros s0 p H. apply (B s0 p). rewrite !in_app_iff in *. tauto.
  Qed.
End Engine.
