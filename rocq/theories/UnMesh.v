(** From the visits to the numbering of a mesh. *)
From Coq Require Import Arith List Bool Lia.
From Verif Require Import NdArray Dict GmModel GmProofs UnModel UnSpec UnProofs.
Import ListNotations.

Lemma slot_look_in w s n : slot_look w s = Some n -> In (s, n) w.
Proof.
  induction w as [|[s' v] w IH]; simpl; [discriminate|]. destruct (sig_eqb s s') eqn:E.
  - apply sig_eqb_spec in E as ->. intros [= ->]. auto.
  - auto.
Qed.
Lemma slot_look_some w s n : In (s, n) w -> exists n', slot_look w s = Some n'.
Proof.
  induction w as [|[s' v] w IH]; simpl; [tauto|]. destruct (sig_eqb s s') eqn:E; [eauto|].
  intros [[= -> ->]|H]; [|auto]. now rewrite (proj2 (sig_eqb_spec s s)) in E.
Qed.
Lemma obind_F2 {A B} (f : A -> option B) l r : obind l f = Some r -> Forall2 (fun a b => f a = Some b) l r.
Proof.
  revert r. induction l as [|a l IH]; simpl; intros r.
  - intros [= <-]. constructor.
  - destruct (f a) eqn:E; [|discriminate]. destruct (obind l f); [|discriminate]. intros [= <-]. constructor; auto.
Qed.
Lemma obind_all {A B} (f : A -> option B) l : (forall a, In a l -> exists b, f a = Some b) -> exists r, obind l f = Some r.
Proof.
  induction l as [|a l IH]; intros H; simpl; [eauto|]. destruct (H a) as [b ->]; [left; auto|].
  destruct IH as [r ->]; [|eauto]. intros c Hc. apply H. now right.
Qed.
Lemma Forall2_nth1 {A B} (Q : A -> B -> Prop) l m i a : Forall2 Q l m -> nth_error l i = Some a -> exists b, nth_error m i = Some b /\ Q a b.
Proof. intros H. revert i. induction H; intros [|i]; simpl; try discriminate; [intros [= <-]; eauto|auto]. Qed.
Lemma Forall2_nth2 {A B} (Q : A -> B -> Prop) l m i b : Forall2 Q l m -> nth_error m i = Some b -> exists a, nth_error l i = Some a /\ Q a b.
Proof. intros H. revert i. induction H; intros [|i]; simpl; try discriminate; [intros [= <-]; eauto|auto]. Qed.

Definition places_of (e : nat) (x : elem) (pr : program) := flat_map (vplaces e (e_map x)) (p_visits pr).
Record elem_ok (K : kind) (e : nat) (x : elem) (pr : program) : Prop := {
  eo_v : Forall (vok (k_turn K) (e_map x)) (p_visits pr);
  eo_in : NoDup (flat_map vin (p_visits pr));
  eo_sound : forall s p, In (s, p) (places_of e x pr) -> p = k_place K e x s;
  eo_cover : forall s, In s (p_out pr) -> exists p, In (s, p) (places_of e x pr);
  eo_onto : forall s p, In (s, p) (places_of e x pr) -> exists s', In s' (p_out pr) /\ k_place K e x s' = k_place K e x s;
  eo_dof : forall s d, k_dof K (e_type x) s = Some d -> exists s', nth_error (p_out pr) d = Some s' /\ k_place K e x s' = k_place K e x s;
  eo_out : forall d s', nth_error (p_out pr) d = Some s' -> exists s, k_dof K (e_type x) s = Some d /\ k_place K e x s = k_place K e x s' }.

Section Mesh.
  Context (K : kind) (R : list (list nat * list (list nat))).
  Notation turn := (k_turn K).
  Context (Rok : forall k shs, In (k, shs) R -> request_ok k shs).
  Context (Rfun : forall k shs shs', In (k, shs) R -> In (k, shs') R -> shs = shs').
  Context (Rturn : turn = true -> forall a b shs shs', In ([a; b], shs) R -> In ([b; a], shs') R -> shs = shs').
  Notation Good := (Good turn R).

  (** the entries of a row *)
  Definition row_ok (gh : list place) (e : nat) (x : elem) (pr : program) (row : list nat) : Prop :=
    Forall2 (fun s n => exists p', nth_error gh n = Some p' /\ same turn p' (k_place K e x s)) (p_out pr) row.
  Lemma row_ext gh ext e x pr row : row_ok gh e x pr row -> row_ok (gh ++ ext) e x pr row.
  Proof.
    apply Forall2_impl. intros s n (p' & H1 & H2). exists p'. split; auto.
    rewrite nth_error_app1; auto. apply nth_error_Some. congruence.
  Qed.
  Lemma element_ok e x pr st gh I P :
    Good I P st gh -> elem_ok K e x pr -> incl (flat_map (vreq (e_map x)) (p_visits pr)) R -> (forall s, ~ In (e, s) I) ->
    exists row st' ext, element (e_map x) pr st = Some (row, st') /\ row_ok (gh ++ ext) e x pr row /\
      Good (map (pair e) (flat_map vin (p_visits pr)) ++ I) (map snd (places_of e x pr) ++ P) st' (gh ++ ext).
  Proof.
    intros HG HE HR Hnew.
    destruct (visits_ok turn R Rok Rfun Rturn e (e_map x) (p_visits pr) [] st gh I P [] HG) as (w & st' & ext & E & HG' & HW);
      try apply HE; auto.
    { split; intros ? ? []. }
    unfold element. rewrite E. rewrite app_nil_r in HW. destruct HW as [W1 W2].
    destruct (obind_all (slot_look w) (p_out pr)) as [row Erow].
    { intros s Hs. destruct (eo_cover _ _ _ _ HE s Hs) as [p Hp]. destruct (W2 s p Hp) as [n Hn]. eapply slot_look_some; eauto. }
    rewrite Erow. exists row, st', ext. split; auto. split; auto.
    apply obind_F2 in Erow. unfold row_ok. revert Erow. apply Forall2_impl. intros s n Hn.
    apply slot_look_in in Hn. destruct (W1 s n Hn) as (p & p' & H1 & H2 & H3). exists p'. split; auto.
    now rewrite <- (eo_sound _ _ _ _ HE s p H1).
  Qed.

  Definition mreq (prog : etype -> option program) (es : list (nat * elem)) : list (list nat * list (list nat)) :=
    flat_map (fun ex => if e_in (snd ex)
                        then match prog (e_type (snd ex)) with
                             | Some pr => flat_map (vreq (e_map (snd ex))) (p_visits pr)
                             | None => []
                             end
                        else []) es.
  (** the rows of the elements *)
  Definition rows_ok (gh : list place) (es : list (nat * elem)) (g : list (nat * list nat)) : Prop :=
    Forall2 (fun ex er => fst er = fst ex /\
               if e_in (snd ex) then exists pr, k_prog K (e_type (snd ex)) = Some pr /\ elem_ok K (fst ex) (snd ex) pr /\ row_ok gh (fst ex) (snd ex) pr (snd er)
               else snd er = []) es g.
  Lemma rows_ext gh ext es g : rows_ok gh es g -> rows_ok (gh ++ ext) es g.
  Proof.
    apply Forall2_impl. intros ex er [H1 H2]. split; auto. destruct (e_in (snd ex)); auto.
    destruct H2 as (pr & H2 & H3 & H4). exists pr. split; auto. split; auto. now apply row_ext.
  Qed.
  Definition all_places (es : list (nat * elem)) : list place :=
    flat_map (fun ex => if e_in (snd ex)
                        then match k_prog K (e_type (snd ex)) with
                             | Some pr => map snd (places_of (fst ex) (snd ex) pr)
                             | None => []
                             end
                        else []) es.
  Lemma mesh_ok es : forall st gh I P,
    Good I P st gh -> NoDup (map fst es) -> (forall e s, In e (map fst es) -> ~ In (e, s) I) ->
    Forall (fun ex => e_in (snd ex) = true -> exists pr, k_prog K (e_type (snd ex)) = Some pr /\ elem_ok K (fst ex) (snd ex) pr) es ->
    incl (mreq (k_prog K) es) R ->
    exists g st' ext, number_mesh (k_prog K) es st = Some (g, st') /\ rows_ok (gh ++ ext) es g /\
      exists I', Good I' (all_places es ++ P) st' (gh ++ ext).
  Proof.
    induction es as [|[e x] es IH]; intros st gh I P HG Hnd Hnew HE HR; cbn [number_mesh] in *.
    - exists [], st, []. rewrite app_nil_r. split; auto. split; [constructor|]. exists I. auto.
    - inversion Hnd as [|? ? Hx Hnd']; subst. inversion HE as [|? ? HE1 HE2]; subst. cbn [fst snd] in *.
      cbn [mreq flat_map fst snd] in HR. fold (mreq (k_prog K) es) in HR.
      assert (incl (mreq (k_prog K) es) R) as HR2 by (intros q Hq; apply HR, in_app_iff; auto).
      destruct (e_in x) eqn:Ein.
      + destruct (HE1 eq_refl) as (pr & Epr & Hok). rewrite Epr in *.
        destruct (element_ok e x pr st gh I P HG Hok) as (row & st1 & ext1 & E1 & Hrow & HG1).
        { intros q Hq. apply HR, in_app_iff. auto. }
        { intros s. apply Hnew. simpl. auto. }
        rewrite E1. destruct (IH st1 (gh ++ ext1) _ _ HG1 Hnd') as (g & st2 & ext2 & E2 & Hrows & I' & HG2); auto.
        { intros e' s He' Hin. apply in_app_iff in Hin as [Hin|Hin].
          - apply in_map_iff in Hin as (s' & [= <- <-] & _). contradiction.
          - apply (Hnew e' s); simpl; auto. }
        rewrite E2. exists ((e, row) :: g), st2, (ext1 ++ ext2). rewrite app_assoc. split; auto. split.
        * constructor; [|exact Hrows]. cbn [fst snd]. rewrite Ein. split; auto. exists pr. split; auto. split; auto. now apply row_ext.
        * exists I'. eapply Good_weak; [apply incl_refl| |exact HG2]. cbn [all_places flat_map fst snd]. rewrite Ein, Epr.
          intros q Hq. unfold all_places in *. rewrite !in_app_iff in *. tauto.
      + destruct (IH st gh I P HG Hnd') as (g & st2 & ext2 & E2 & Hrows & I' & HG2); auto.
        { intros e' s He'. apply (Hnew e' s). simpl. auto. }
        rewrite E2. exists ((e, []) :: g), st2, ext2. split; auto. split.
        * constructor; [|exact Hrows]. cbn [fst snd]. rewrite Ein. auto.
        * exists I'. cbn [all_places flat_map fst snd]. rewrite Ein. exact HG2.
  Qed.
  (** two numbered places that are the same have one number *)
  Lemma same_in_gh I P st gh p q : Good I P st gh -> In p gh -> In q gh -> same turn p q -> p = q.
  Proof.
    intros HG Hp Hq [->|(Ht & a & b & k & k' & Hab & -> & ->)]; auto. exfalso.
    apply (g_in _ _ _ _ _ _ HG) in Hp, Hq. simpl in Hp, Hq. destruct Hp as [v Hv], Hq as [v' Hv'].
    assert (pget (pool st) [a; b] <> None) as Hne by congruence.
    rewrite (g_turn _ _ _ _ _ _ HG Ht a b Hab Hne) in Hv'. discriminate.
  Qed.
End Mesh.

Theorem numbering (K : kind) es :
  NoDup (map fst es) ->
  Forall (fun ex => e_in (snd ex) = true -> exists pr, k_prog K (e_type (snd ex)) = Some pr /\ elem_ok K (fst ex) (snd ex) pr) es ->
  (forall k shs shs', In (k, shs) (mreq (k_prog K) es) -> In (k, shs') (mreq (k_prog K) es) -> shs = shs') ->
  (k_turn K = true -> forall a b shs shs', In ([a; b], shs) (mreq (k_prog K) es) -> In ([b; a], shs') (mreq (k_prog K) es) -> shs = shs') ->
  exists g st, number_mesh (k_prog K) es st0 = Some (g, st) /\ numbers K es g (cur st).
Proof.
  intros Hnd HE Hfun Hturn. set (R := mreq (k_prog K) es) in *.
  assert (forall k shs, In (k, shs) R -> request_ok k shs) as Hok.
  { intros k shs H. unfold R, mreq in H. apply in_flat_map in H as ([e x] & Hex & H). rewrite Forall_forall in HE. specialize (HE _ Hex).
    cbn [fst snd] in *. destruct (e_in x); [|destruct H]. destruct (HE eq_refl) as (pr & Epr & Ho). rewrite Epr in H.
    apply in_flat_map in H as (v & Hv & H). eapply vreq_ok; [|exact H]. pose proof (eo_v _ _ _ _ Ho) as Hf. rewrite Forall_forall in Hf. apply Hf, Hv. }
  destruct (mesh_ok K R Hok Hfun Hturn es st0 [] [] [] (Good0 _ _) Hnd) as (g & st & gh & E & Hrows & I & HG); auto.
  { intros q Hq. exact Hq. }
  cbn [app] in *. rewrite app_nil_r in HG.
  assert (map fst g = map fst es) as Hfst.
  { clear -Hrows. induction Hrows as [|? ? ? ? [H _]]; simpl; auto. f_equal; auto. }
  assert (NoDup (map fst g)) as Hndg by now rewrite Hfst.
  assert (forall e r r', In (e, r) g -> In (e, r') g -> r = r') as Huniq.
  { intros e r r' H1 H2. apply (in_get Nat.eqb Nat.eqb_eq _ _ _ Hndg) in H1, H2. congruence. }
  assert (forall e x, In (e, x) es -> e_in x = true -> exists pr row, k_prog K (e_type x) = Some pr /\ elem_ok K e x pr /\ In (e, row) g /\ row_ok K gh e x pr row) as Hget.
  { intros e x Hin Hx. clear -Hrows Hin Hx. induction Hrows as [|[e0 x0] [e1 r1] es0 g0 [H1 H2] Hr IH]; simpl in *; [tauto|].
    destruct Hin as [[= -> ->]|Hin].
    - rewrite Hx in H2. destruct H2 as (pr & A & B & C). subst e1. exists pr, r1. auto.
    - destruct (IH Hin) as (pr & row & A & B & C & D). exists pr, row. auto. }
  assert (forall e d p, position K es e d p -> exists n p', number_at g e d n /\ nth_error gh n = Some p' /\ same (k_turn K) p' p) as Hpos.
  { intros e d p [e0 x s d0 Hin Hx Hd]. destruct (Hget e0 x Hin Hx) as (pr & row & _ & Ho & Hr & Hrow).
    destruct (eo_dof _ _ _ _ Ho s d0 Hd) as (s' & Hs' & Hp). destruct (Forall2_nth1 _ _ _ _ _ Hrow Hs') as (n & Hn & p' & H1 & H2).
    exists n, p'. split; [exists row; auto|]. split; auto. now rewrite <- Hp. }
  assert (forall e d n n', number_at g e d n -> number_at g e d n' -> n = n') as Hnum.
  { intros e d n n' (r & H1 & H2) (r' & H1' & H2'). rewrite (Huniq e r r' H1 H1') in H2. congruence. }
  exists g, st. split; auto. split; auto.
  - intros e d n (row & Hin & Hn). assert (exists x, In (e, x) es /\ if e_in x then exists pr, k_prog K (e_type x) = Some pr /\ elem_ok K e x pr /\ row_ok K gh e x pr row else row = []) as (x & Hx & Hcase).
    { clear -Hrows Hin. induction Hrows as [|[e0 x0] [e1 r1] es0 g0 [H1 H2] Hr IH]; simpl in *; [tauto|].
      destruct Hin as [[= -> ->]|Hin]; [subst; eauto|]. destruct (IH Hin) as (x & ? & ?). eauto. }
    destruct (e_in x) eqn:Ein; [|subst row; destruct d; discriminate]. destruct Hcase as (pr & _ & Ho & Hrow).
    destruct (Forall2_nth2 _ _ _ _ _ Hrow Hn) as (s & Hs & _). destruct (eo_out _ _ _ _ Ho d s Hs) as (s2 & Hd2 & _).
    exists (k_place K e x s2). constructor; auto.
  - intros e d p Hp. destruct (Hpos _ _ _ Hp) as (n & p' & H1 & H2 & _). exists n. split; auto.
    rewrite <- (g_len _ _ _ _ _ _ HG). apply nth_error_Some. congruence.
  - intros e d p e' d' p' n n' Hp Hp' Hn Hn'.
    destruct (Hpos _ _ _ Hp) as (m & q & H1 & H2 & H3). destruct (Hpos _ _ _ Hp') as (m' & q' & H1' & H2' & H3').
    rewrite <- (Hnum _ _ _ _ Hn H1) in *. rewrite <- (Hnum _ _ _ _ Hn' H1') in *. split.
    + intros <-. assert (q' = q) as -> by congruence. eapply same_trans; [apply same_sym|]; eauto.
    + intros Hs. assert (q = q') as <-.
      { eapply same_in_gh; eauto using nth_error_In. eapply same_trans; [exact H3|]. eapply same_trans; [exact Hs|]. now apply same_sym. }
      eapply (proj1 (NoDup_nth_error gh)); [apply (g_nd _ _ _ _ _ _ HG)|apply nth_error_Some; congruence|congruence].
  - intros n Hn. rewrite <- (g_len _ _ _ _ _ _ HG) in Hn. apply nth_error_Some in Hn. destruct (nth_error gh n) as [p|] eqn:Ep; [|contradiction].
    pose proof (g_from _ _ _ _ _ _ HG p (nth_error_In _ _ Ep)) as Hfrom. unfold all_places in Hfrom.
    apply in_flat_map in Hfrom as ([e x] & Hex & Hp). cbn [fst snd] in Hp. destruct (e_in x) eqn:Ein; [|destruct Hp].
    destruct (Hget e x Hex Ein) as (pr & row & Epr & Ho & Hr & Hrow). rewrite Epr in Hp.
    apply in_map_iff in Hp as ([s p0] & E0 & Hp). cbn [snd] in E0. subst p0. pose proof (eo_sound _ _ _ _ Ho s p Hp) as ->.
    destruct (eo_onto _ _ _ _ Ho s _ Hp) as (s' & Hs' & Es'). apply In_nth_error in Hs' as [d Hd].
    destruct (eo_out _ _ _ _ Ho d s' Hd) as (s2 & Hd2 & Es2).
    exists e, d, (k_place K e x s2). split; [constructor; auto|].
    destruct (Forall2_nth1 _ _ _ _ _ Hrow Hd) as (n' & Hn' & p' & H1 & H2).
    assert (n' = n) as ->; [|exists row; auto].
    assert (p' = k_place K e x s) as ->.
    { eapply same_in_gh; eauto using nth_error_In. now rewrite <- Es'. }
    eapply (proj1 (NoDup_nth_error gh)); [apply (g_nd _ _ _ _ _ _ HG)|apply nth_error_Some; congruence|congruence].
Qed.
