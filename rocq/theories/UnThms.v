(** The numberings of unstructured meshes. *)
From Coq Require Import Arith List Bool Lia Permutation.
From Verif Require Import NdArray Dict GmModel GmProofs UnModel UnSpec UnProofs UnMesh UnSlices UnPrograms UnPrograms3.
Import ListNotations.

(** ** the requests of an element in terms of its edges and faces *)
Inductive shaped (fe : nat -> nat) (ff : nat * nat -> list (list nat)) (edges : list (nat * nat * nat)) (faces : list (list nat * (nat * nat)))
  : list nat -> list (list nat) -> Prop :=
| sh_node v : shaped fe ff edges faces [v] [[]]
| sh_edge a b n : In (a, b, n) edges -> shaped fe ff edges faces [a; b] [[fe n]]
| sh_face f n : length f = 4 -> In (f, n) faces -> shaped fe ff edges faces f (ff n).
Definition requests_shaped (K : kind) fe ff edges faces (es : list (nat * elem)) : Prop :=
  forall e x pr, In (e, x) es -> e_in x = true -> k_prog K (e_type x) = Some pr ->
    forall k shs, In (k, shs) (flat_map (vreq (e_map x)) (p_visits pr)) -> shaped fe ff (edges x) (faces x) k shs.
Lemma in_mreq prog es k shs : In (k, shs) (mreq prog es) ->
  exists e x pr, In (e, x) es /\ e_in x = true /\ prog (e_type x) = Some pr /\ In (k, shs) (flat_map (vreq (e_map x)) (p_visits pr)).
Proof.
  intros H. unfold mreq in H. apply in_flat_map in H as ([e x] & Hex & H). cbn [fst snd] in H.
  destruct (e_in x) eqn:Ein; [|destruct H]. destruct (prog (e_type x)) as [pr|] eqn:Ep; [|destruct H]. exists e, x, pr. auto.
Qed.
Theorem numbering_conforming K fe ff edges faces es :
  NoDup (map fst es) ->
  Forall (fun ex => e_in (snd ex) = true -> exists pr, k_prog K (e_type (snd ex)) = Some pr /\ elem_ok K (fst ex) (snd ex) pr) es ->
  requests_shaped K fe ff edges faces es ->
  conforming_edges (k_turn K) edges es -> conforming_faces faces es ->
  exists g st, number_mesh (k_prog K) es st0 = Some (g, st) /\ numbers K es g (cur st).
Proof.
  intros Hnd HE HR Hce Hcf. apply numbering; auto.
  - intros k shs shs' H H'. apply in_mreq in H as (e & x & pr & Hin & Hx & Ep & H). apply in_mreq in H' as (e' & x' & pr' & Hin' & Hx' & Ep' & H').
    apply (HR e x pr) in H; auto. apply (HR e' x' pr') in H'; auto.
    destruct H as [v|a b n Hed|f n Hl Hf]; inversion H'; subst; auto; try discriminate.
    + do 3 f_equal. eapply (Hce e x e' x'); eauto.
    + f_equal. eapply (Hcf e x e' x'); eauto.
  - intros Ht a b shs shs' H H'. apply in_mreq in H as (e & x & pr & Hin & Hx & Ep & H). apply in_mreq in H' as (e' & x' & pr' & Hin' & Hx' & Ep' & H').
    apply (HR e x pr) in H; auto. apply (HR e' x' pr') in H'; auto.
    inversion H; subst; try discriminate. inversion H'; subst; try discriminate.
    do 3 f_equal. eapply (Hce e x e' x'); eauto.
Qed.

Lemma vreq_node m a s k shs : In (k, shs) (vreq m (VNode a s)) -> exists v, k = [v] /\ shs = [[]].
Proof. simpl. destruct (nth_error m a); [|intros []]. intros [[= <- <-]|[]]. eauto. Qed.
Lemma vreq_edge m t a b n s k shs : a < length m -> b < length m -> In (k, shs) (vreq m (VEdge t a b n s)) -> k = [nth a m 0; nth b m 0] /\ shs = [[n]].
Proof. intros Ha Hb. cbn [vreq]. rewrite (nth_ok _ _ Ha), (nth_ok _ _ Hb). intros [[= <- <-]|[]]. auto. Qed.
Lemma vreq_face m f sh s k shs : Forall (fun i => i < length m) f -> In (k, shs) (vreq m (VFace f sh s)) -> k = map (fun i => nth i m 0) f /\ shs = [sh].
Proof. intros Hf. cbn [vreq]. rewrite (corners_ok _ _ Hf). intros [[= <- <-]|[]]. auto. Qed.
Lemma vreq_pair m f sh1 sh2 s1 s2 k shs : Forall (fun i => i < length m) f -> In (k, shs) (vreq m (VPair f sh1 sh2 s1 s2)) ->
  k = map (fun i => nth i m 0) f /\ shs = [sh1; sh2].
Proof. intros Hf. cbn [vreq]. rewrite (corners_ok _ _ Hf). intros [[= <- <-]|[]]. auto. Qed.
Lemma in_flat_cons {A B} (f : A -> list B) a l b (Q : Prop) : (In b (f a) -> Q) -> (In b (flat_map f l) -> Q) -> In b (flat_map f (a :: l)) -> Q.
Proof. cbn [flat_map]. rewrite in_app_iff. tauto. Qed.
Ltac in_list := cbn; repeat first [left; reflexivity | right].
Ltac req_tac edge face :=
  repeat (apply in_flat_cons;
    [ let H := fresh "H" in intros H;
      lazymatch type of H with
      | In _ (vreq _ (VNode _ _)) => apply vreq_node in H as (? & -> & ->); apply sh_node
      | In _ (vreq _ (VEdge _ _ _ _ _)) => apply vreq_edge in H as [-> ->]; [|lia|lia]; apply (sh_edge edge); in_list
      | In _ (vreq _ (VFace _ _ _)) => apply vreq_face in H as [-> ->]; [|flist; lia]; face ()
      | In _ (vreq _ (VPair _ _ _ _ _)) => apply vreq_pair in H as [-> ->]; [|flist; lia]; face ()
      | _ => destruct H
      end
    | ]);
  intros [].

Section Plane.
  Context (px py : nat) (Hx : 1 <= px) (Hy : 1 <= py).
  Notation no_faces := (fun _ : elem => @nil (list nat * (nat * nat))).
  Lemma no_faces_ok es : conforming_faces no_faces es.
  Proof. intros e x e' x' f n n' _ _ _ _ []. Qed.
  Theorem number_k0 es : proper (K0 px py) es -> conforming_edges true (edges2 px py) es ->
    exists g st, number_mesh (prog_k0 px py) es st0 = Some (g, st) /\ numbers (K0 px py) es g (cur st).
  Proof.
    intros [Hnd Hp] Hc. apply (numbering_conforming (K0 px py) (fun n => n - 1) (fun _ => []) (edges2 px py) no_faces); auto using no_faces_ok.
    - eapply Forall_impl; [|exact Hp]. cbv beta. intros [e [t m b]] H Hin. cbn [fst snd e_type e_map] in *. specialize (H Hin) as [Ht Hm].
      cbn [k_types K0 k_prog] in *. unfold flat_type in Ht.
      destruct t; cbn in Ht; try discriminate; cbn [num_corners is_tri is_quad] in Hm; cbn [prog_k0]; try rewrite Ht; eexists; split; try reflexivity;
        first [apply quad0_ok | apply quad9_0_ok | apply tri0_ok]; auto.
    - intros e [t m b] pr Hin Hb Hpr k shs. rewrite Forall_forall in Hp. destruct (Hp _ Hin Hb) as [Ht Hm].
      cbn [fst snd e_type e_map k_prog k_types K0] in *. unfold flat_type in Ht. 
      destruct t; cbn in Ht; try discriminate; cbn [num_corners is_tri is_quad] in Hm; cbn [prog_k0] in Hpr; try rewrite Ht in Hpr;
        injection Hpr as <-; cbn [p_visits quad0 quad9_0 tri0]; req_tac (fun n => n - 1) ltac:(fun _ => idtac).
  Qed.
  Theorem number_k1o es : proper (K1o px py) es -> conforming_edges true (edges2 px py) es ->
    exists g st, number_mesh (prog_k1o px py) es st0 = Some (g, st) /\ numbers (K1o px py) es g (cur st).
  Proof.
    intros [Hnd Hp] Hc. apply (numbering_conforming (K1o px py) (fun n => n) (fun _ => []) (edges2 px py) no_faces); auto using no_faces_ok.
    - eapply Forall_impl; [|exact Hp]. cbv beta. intros [e [t m b]] H Hin. cbn [fst snd e_type e_map] in *. specialize (H Hin) as [Ht Hm].
      cbn [k_types K1o k_prog] in *.
      destruct t; cbn in Ht; try discriminate; cbn [num_corners is_tri is_quad] in Hm; cbn [prog_k1o]; eexists; split; try reflexivity;
        first [apply quad1o_ok | apply quad9_1o_ok | apply tri1o_ok]; auto.
    - intros e [t m b] pr Hin Hb Hpr k shs. rewrite Forall_forall in Hp. destruct (Hp _ Hin Hb) as [Ht Hm].
      cbn [fst snd e_type e_map k_prog k_types K1o] in *.
      destruct t; cbn in Ht; try discriminate; cbn [num_corners is_tri is_quad] in Hm; cbn [prog_k1o] in Hpr;
        injection Hpr as <-; cbn [p_visits quad1o quad9_1o tri1o]; req_tac (fun n : nat => n) ltac:(fun _ => idtac).
  Qed.
  Theorem number_k1i es : proper (K1i px py) es -> conforming_edges true (edges2 px py) es ->
    exists g st, number_mesh (prog_k1i px py) es st0 = Some (g, st) /\ numbers (K1i px py) es g (cur st).
  Proof.
    intros [Hnd Hp] Hc. apply (numbering_conforming (K1i px py) (fun n => n) (fun _ => []) (edges2 px py) no_faces); auto using no_faces_ok.
    - eapply Forall_impl; [|exact Hp]. cbv beta. intros [e [t m b]] H Hin. cbn [fst snd e_type e_map] in *. specialize (H Hin) as [Ht Hm].
      cbn [k_types K1i k_prog] in *.
      destruct t; cbn in Ht; try discriminate; cbn [num_corners is_tri is_quad] in Hm; cbn [prog_k1i]; eexists; split; try reflexivity;
        first [apply quad1i_ok | apply quad9_1i_ok | apply tri1i_ok]; auto.
    - intros e [t m b] pr Hin Hb Hpr k shs. rewrite Forall_forall in Hp. destruct (Hp _ Hin Hb) as [Ht Hm].
      cbn [fst snd e_type e_map k_prog k_types K1i] in *.
      destruct t; cbn in Ht; try discriminate; cbn [num_corners is_tri is_quad] in Hm; cbn [prog_k1i] in Hpr;
        injection Hpr as <-; cbn [p_visits quad1i quad9_1i tri1i]; req_tac (fun n : nat => n) ltac:(fun _ => idtac).
  Qed.
  Theorem number_k2 es : proper (K2 px py) es ->
    exists g st, number_mesh (prog_k2 px py) es st0 = Some (g, st) /\ numbers (K2 px py) es g (cur st).
  Proof.
    intros [Hnd Hp]. apply (numbering_conforming (K2 px py) (fun n => n) (fun _ => []) (fun _ => []) no_faces); auto using no_faces_ok.
    - eapply Forall_impl; [|exact Hp]. cbv beta. intros [e [t m b]] H Hin. cbn [fst snd e_type e_map] in *. specialize (H Hin) as [Ht Hm].
      cbn [k_types K2 k_prog] in *.
      destruct t; cbn in Ht; try discriminate; cbn [prog_k2]; eexists; split; try reflexivity; apply quad2_ok; auto.
    - intros e [t m b] pr Hin Hb Hpr k shs. cbn [k_prog K2 e_type e_map] in *.
      destruct t; cbn [prog_k2] in Hpr; try discriminate; injection Hpr as <-; cbn [p_visits quad2 flat_map vreq app]; intros [].
    - intros e x e' x' a b n a' b' n' _ _ _ _ [].
  Qed.
  Lemma equal_degrees es : px = py -> conforming_edges true (edges2 px py) es.
  Proof.
    clear Hx Hy. intros <- e x e' x' a b n a' b' n' _ _ _ _ H H' _.
    assert (forall x a b n, In (a, b, n) (edges2 px px x) -> n = px) as Hn.
    { clear. intros x a b n. unfold edges2. destruct (is_tri (e_type x)); simpl; intuition congruence. }
    now rewrite (Hn _ _ _ _ H), (Hn _ _ _ _ H').
  Qed.
End Plane.
Section Space.
  Context (px py pz : nat) (Hx : 1 <= px) (Hy : 1 <= py) (Hz : 1 <= pz).
  Lemma hexes K es (p : program) : proper K es -> (forall t, k_types K t = is_hex t) -> (forall t, k_prog K t = if is_hex t then Some p else None) ->
    (forall e m t b, 8 <= length m -> elem_ok K e {| e_type := t; e_map := m; e_in := b |} p) ->
    Forall (fun ex => e_in (snd ex) = true -> exists pr, k_prog K (e_type (snd ex)) = Some pr /\ elem_ok K (fst ex) (snd ex) pr) es.
  Proof.
    intros [_ Hp] Ht Hk Hok. eapply Forall_impl; [|exact Hp]. cbv beta. intros [e [t m b]] H Hin. cbn [fst snd e_type e_map] in *.
    specialize (H Hin) as [H1 H2]. rewrite Ht in H1. rewrite Hk, H1. eexists. split; [reflexivity|]. apply Hok. destruct t; try discriminate; exact H2.
  Qed.
  Lemma hex_map K es e x : proper K es -> (forall t, k_types K t = is_hex t) -> In (e, x) es -> e_in x = true -> is_hex (e_type x) = true /\ 8 <= length (e_map x).
  Proof.
    intros [_ Hp] Ht Hin Hb. rewrite Forall_forall in Hp. destruct (Hp _ Hin Hb) as [H1 H2]. cbn [snd] in *. rewrite Ht in H1. split; auto.
    destruct (e_type x); try discriminate; exact H2.
  Qed.
  Theorem number_h0 es : proper (H0 px py pz) es -> conforming_edges false (edges3 px py pz) es -> conforming_faces (faces3 px py pz) es ->
    exists g st, number_mesh (prog_hex px py pz 0) es st0 = Some (g, st) /\ numbers (H0 px py pz) es g (cur st).
  Proof.
    intros Hp Hc Hf. apply (numbering_conforming (H0 px py pz) (fun n => n - 1) (fun n => [[fst n - 1; snd n - 1]]) (edges3 px py pz) (faces3 px py pz)); auto.
    - apply Hp.
    - apply hexes with (p := hex0 px py pz); auto. intros. now apply hex0_ok.
    - intros e x pr Hin Hb Hpr k shs. destruct (hex_map _ _ _ _ Hp (fun _ => eq_refl) Hin Hb) as [Ht Hm]. cbn [k_prog H0] in Hpr. unfold prog_hex in Hpr. rewrite Ht in Hpr.
      injection Hpr as <-. cbn [p_visits hex0]. destruct x as [t m b]. cbn [e_map] in *.
      req_tac (fun n => n - 1) ltac:(fun _ =>
        first [ apply (sh_face _ (fun n => [[fst n - 1; snd n - 1]]) _ _ _ (py, pz)); [reflexivity|in_list]
              | apply (sh_face _ (fun n => [[fst n - 1; snd n - 1]]) _ _ _ (px, pz)); [reflexivity|in_list]
              | apply (sh_face _ (fun n => [[fst n - 1; snd n - 1]]) _ _ _ (px, py)); [reflexivity|in_list] ]).
  Qed.
  Theorem number_h1 es : proper (H1 px py pz) es -> conforming_edges false (edges3 px py pz) es -> conforming_faces (faces3 px py pz) es ->
    exists g st, number_mesh (prog_hex px py pz 1) es st0 = Some (g, st) /\ numbers (H1 px py pz) es g (cur st).
  Proof.
    intros Hp Hc Hf. set (ff := fun n : nat * nat => [[fst n; snd n - 1]; [fst n - 1; snd n]]).
    apply (numbering_conforming (H1 px py pz) (fun n => n) ff (edges3 px py pz) (faces3 px py pz)); auto.
    - apply Hp.
    - apply hexes with (p := hex1 px py pz); auto. intros. now apply hex1_ok.
    - intros e x pr Hin Hb Hpr k shs. destruct (hex_map _ _ _ _ Hp (fun _ => eq_refl) Hin Hb) as [Ht Hm]. cbn [k_prog H1] in Hpr. unfold prog_hex in Hpr. rewrite Ht in Hpr.
      injection Hpr as <-. cbn [p_visits hex1]. destruct x as [t m b]. cbn [e_map] in *.
      req_tac (fun n : nat => n) ltac:(fun _ =>
        first [ apply (sh_face _ ff _ _ _ (py, pz)); [reflexivity|in_list]
              | apply (sh_face _ ff _ _ _ (px, pz)); [reflexivity|in_list]
              | apply (sh_face _ ff _ _ _ (px, py)); [reflexivity|in_list] ]).
  Qed.
  Theorem number_h2 es : proper (H2 px py pz) es -> conforming_faces (faces3 px py pz) es ->
    exists g st, number_mesh (prog_hex px py pz 2) es st0 = Some (g, st) /\ numbers (H2 px py pz) es g (cur st).
  Proof.
    intros Hp Hf. set (ff := fun n : nat * nat => [[fst n; snd n]]).
    apply (numbering_conforming (H2 px py pz) (fun n => n) ff (fun _ => []) (faces3 px py pz)); auto.
    - apply Hp.
    - apply hexes with (p := hex2 px py pz); auto. intros. now apply hex2_ok.
    - intros e x pr Hin Hb Hpr k shs. destruct (hex_map _ _ _ _ Hp (fun _ => eq_refl) Hin Hb) as [Ht Hm]. cbn [k_prog H2] in Hpr. unfold prog_hex in Hpr. rewrite Ht in Hpr.
      injection Hpr as <-. cbn [p_visits hex2]. destruct x as [t m b]. cbn [e_map] in *.
      req_tac (fun n : nat => n) ltac:(fun _ =>
        first [ apply (sh_face _ ff _ _ _ (py, pz)); [reflexivity|in_list]
              | apply (sh_face _ ff _ _ _ (px, pz)); [reflexivity|in_list]
              | apply (sh_face _ ff _ _ _ (px, py)); [reflexivity|in_list] ]).
    - intros e x e' x' a b n a' b' n' _ _ _ _ [].
  Qed.
  Theorem number_h3 es : proper (H3 px py pz) es ->
    exists g st, number_mesh (prog_hex px py pz 3) es st0 = Some (g, st) /\ numbers (H3 px py pz) es g (cur st).
  Proof.
    intros Hp. apply (numbering_conforming (H3 px py pz) (fun n => n) (fun _ => []) (fun _ => []) (fun _ => [])); auto.
    - apply Hp.
    - apply hexes with (p := hex3 px py pz); auto. intros. now apply hex3_ok.
    - intros e x pr Hin Hb Hpr k shs. destruct (hex_map _ _ _ _ Hp (fun _ => eq_refl) Hin Hb) as [Ht Hm]. cbn [k_prog H3] in Hpr. unfold prog_hex in Hpr. rewrite Ht in Hpr.
      injection Hpr as <-. cbn [p_visits hex3 flat_map vreq app]. intros [].
    - intros e x e' x' a b n a' b' n' _ _ _ _ [].
    - intros e x e' x' f n n' _ _ _ _ [].
  Qed.
  Lemma equal_degrees3 es : px = py -> py = pz -> conforming_edges false (edges3 px py pz) es /\ conforming_faces (faces3 px py pz) es.
  Proof.
    clear Hx Hy Hz. intros <- <-. split.
    - intros e x e' x' a b n a' b' n' _ _ _ _ H H' _.
      assert (forall x a b n, In (a, b, n) (edges3 px px px x) -> n = px) as Hn by (clear; intros x a b n; simpl; intuition congruence).
      now rewrite (Hn _ _ _ _ H), (Hn _ _ _ _ H').
    - intros e x e' x' f n n' _ _ _ _ H H'.
      assert (forall x f n, In (f, n) (faces3 px px px x) -> n = (px, px)) as Hn by (clear; intros x f n; simpl; intuition congruence).
      now rewrite (Hn _ _ _ H), (Hn _ _ _ H').
  Qed.
End Space.

(** ** the order of the elements does not matter *)
Lemma numbers_le K es es' g g' M M' : (forall e x, In (e, x) es <-> In (e, x) es') ->
  numbers K es g M -> numbers K es' g' M' -> M <= M'.
Proof.
  intros Hes N N'.
  assert (forall e d p, position K es e d p <-> position K es' e d p) as Hpos.
  { intros e d p. split; intros [? ? ? ? H1 H2 H3]; constructor; auto; now apply Hes. }
  assert (forall m, m <= M -> exists l, length l = m /\ NoDup l /\ (forall v, In v l -> v < M') /\
    (forall v, In v l -> exists n e d, n < m /\ number_at g e d n /\ number_at g' e d v)) as H.
  { induction m as [|m IH]; intros Hm.
    - exists []. repeat split; try constructor; intros ? [].
    - destruct IH as (l & Hl & Hnd & Hlt & Hrel); [lia|].
      destruct (nb_onto _ _ _ _ N m) as (e & d & p & Hp & Hn); [lia|]. pose proof (proj1 (Hpos _ _ _) Hp) as Hp'.
      destruct (nb_total _ _ _ _ N' _ _ _ Hp') as (v & Hv & Hv').
      exists (v :: l). repeat split.
      + simpl. lia.
      + constructor; auto. intros Hin. destruct (Hrel _ Hin) as (n & e1 & d1 & Hn1 & Hg & Hg').
        destruct (nb_rows _ _ _ _ N _ _ _ Hg) as [p1 Hp1]. pose proof (proj1 (Hpos _ _ _) Hp1) as Hp1'.
        pose proof (proj1 (nb_same _ _ _ _ N' _ _ _ _ _ _ _ _ Hp1' Hp' Hg' Hv) eq_refl) as Hs.
        pose proof (proj2 (nb_same _ _ _ _ N _ _ _ _ _ _ _ _ Hp1 Hp Hg Hn) Hs). lia.
      + intros w [<-|Hw]; auto.
      + intros w [<-|Hw]; [exists m, e, d; auto|]. destruct (Hrel _ Hw) as (n & e1 & d1 & Hn1 & Hg & Hg'). exists n, e1, d1. auto. }
  destruct (H M (le_n _)) as (l & Hl & Hnd & Hlt & _). rewrite <- Hl, <- (seq_length M' 0). apply NoDup_incl_length; auto.
  intros v Hv. apply in_seq. specialize (Hlt _ Hv). lia.
Qed.
Theorem any_order K es es' g g' M M' : Permutation es es' -> numbers K es g M -> numbers K es' g' M' ->
  M = M' /\
  forall e d n v e' d' n' v', number_at g e d n -> number_at g e' d' n' -> number_at g' e d v -> number_at g' e' d' v' -> (n = n' <-> v = v').
Proof.
  intros HP N N'. split.
  - assert (forall e x, In (e, x) es <-> In (e, x) es') as H by (intros; split; apply Permutation_in; auto using Permutation_sym).
    assert (forall e x, In (e, x) es' <-> In (e, x) es) as H' by (intros; split; apply Permutation_in; auto using Permutation_sym).
    pose proof (numbers_le _ _ _ _ _ _ _ H N N'). pose proof (numbers_le _ _ _ _ _ _ _ H' N' N). lia.
  - intros e d n v e' d' n' v' H1 H2 H3 H4.
    destruct (nb_rows _ _ _ _ N _ _ _ H1) as [p Hp]. destruct (nb_rows _ _ _ _ N _ _ _ H2) as [p' Hp'].
    rewrite (nb_same _ _ _ _ N _ _ _ _ _ _ _ _ Hp Hp' H1 H2).
    assert (forall e d p, position K es e d p -> position K es' e d p) as Hpos.
    { intros ? ? ? [? ? ? ? A B C]. constructor; auto. eapply Permutation_in; eauto. }
    now rewrite (nb_same _ _ _ _ N' _ _ _ _ _ _ _ _ (Hpos _ _ _ Hp) (Hpos _ _ _ Hp') H3 H4).
Qed.

(** ** the rows of the ranks *)
Theorem ranks_rows prog es ranks g st : number_mesh prog es st0 = Some (g, st) -> NoDup (map fst g) ->
  (forall rank e, In rank ranks -> In e rank -> In e (map fst g)) ->
  exists dg, gathering prog es ranks = Some dg /\
    Forall2 (fun rank rows => map fst rows = rank /\ forall e row, In (e, row) rows <-> In e rank /\ In (e, row) g) ranks dg.
Proof.
  intros Hg Hnd Hr. unfold gathering. rewrite Hg. unfold for_ranks.
  induction ranks as [|rank ranks IH]; [exists []; split; auto|].
  destruct IH as (dg & E & HF); [intros; eapply Hr; eauto; now right|].
  assert (exists rows, obind rank (fun e => option_map (pair e) (nget g e)) = Some rows /\ map fst rows = rank /\
            forall e row, In (e, row) rows <-> In e rank /\ In (e, row) g) as (rows & E1 & H1).
  { specialize (Hr rank). assert (forall e, In e rank -> In e (map fst g)) as He by (intros; apply Hr; simpl; auto). clear -He Hnd.
    induction rank as [|e rank IH]; [exists []; split; [reflexivity|split; [reflexivity|simpl; tauto]]|].
    destruct IH as (rows & E & Hm & H); [intros; apply He; now right|].
    assert (exists row, In (e, row) g) as [row Hin].
    { specialize (He e (or_introl eq_refl)). apply in_map_iff in He as ([e' r] & <- & Hin). eauto. }
    pose proof (in_get Nat.eqb Nat.eqb_eq _ _ _ Hnd Hin) as Hget. exists ((e, row) :: rows). cbn [obind]. rewrite Hget, E. cbn [option_map].
    split; auto. split; [simpl; congruence|]. intros e' row'. simpl. rewrite H. split.
    - intros [[= <- <-]|[]]; auto.
    - intros [[<-|Hin'] Hg']; [left|right; auto]. pose proof (in_get Nat.eqb Nat.eqb_eq _ _ _ Hnd Hg'). congruence. }
  cbn [obind]. rewrite E1, E. exists (rows :: dg). auto.
Qed.
