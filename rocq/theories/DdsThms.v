(** Proofs about stream functions. *)
From Coq Require Import List ZArith QArith Qabs Qcanon Bool Lia Permutation.
From Verif Require Import DdsModel DdsSpec.
Import ListNotations.
Local Open Scope Qc_scope.

Lemma half_two : / qc_of 2 = half. Proof. apply Qc_is_canon. reflexivity. Qed.
Lemma inc_flux r a b c d : inc r a b c d = flux r a b c d.
Proof. unfold inc, flux, Qcdiv. rewrite half_two. ring. Qed.
Lemma inc_back r a b c d : inc r c d a b = - inc r a b c d.
Proof. unfold inc. ring. Qed.

(* ---- one region *)
Lemma along1_shift r s t j : along1 r (s + t) j = along1 r s j + t.
Proof. induction j as [|j IH]; cbn [along1]; [reflexivity|]. rewrite IH. ring. Qed.
Lemma along0_shift r j s t i : along0 r j (s + t) i = along0 r j s i + t.
Proof. induction i as [|i IH]; cbn [along0]; [reflexivity|]. rewrite IH. ring. Qed.
Lemma mm_shift r s t i j : sf_mm r (s + t) i j = sf_mm r s i j + t.
Proof. unfold sf_mm. rewrite along1_shift. apply along0_shift. Qed.

Lemma along1_back r s j : (j <= l1 r)%nat -> along1 r (back1 r s (l1 r)) j = back1 r s (l1 r - j).
Proof.
  induction j as [|j IH]; intro H; cbn [along1].
  - rewrite Nat.sub_0_r. reflexivity.
  - rewrite IH by lia. replace (l1 r - j)%nat with (S (l1 r - S j)) by lia. cbn [back1].
    replace (l1 r - (l1 r - S j))%nat with (S j) by lia. replace (l1 r - S (l1 r - S j))%nat with j by lia.
    rewrite (inc_back r 0 j 0 (S j)). ring.
Qed.
Lemma along0_back r j s i : (i <= l0 r)%nat -> along0 r j (back0 r j s (l0 r)) i = back0 r j s (l0 r - i).
Proof.
  induction i as [|i IH]; intro H; cbn [along0].
  - rewrite Nat.sub_0_r. reflexivity.
  - rewrite IH by lia. replace (l0 r - i)%nat with (S (l0 r - S i)) by lia. cbn [back0].
    replace (l0 r - (l0 r - S i))%nat with (S i) by lia. replace (l0 r - S (l0 r - S i))%nat with i by lia.
    rewrite (inc_back r i j (S i) j). ring.
Qed.

Definition origin (r : region) (c : corner) (s : Qc) : Qc :=
  match c with
  | MM => s
  | PM => back0 r 0 s (l0 r)
  | MP => back1 r s (l1 r)
  | PP => back1 r (back0 r (l1 r) s (l0 r)) (l1 r)
  end.
Lemma region_mm r c s i j : in_region r i j -> region_sf r c s i j = sf_mm r (origin r c s) i j.
Proof.
  intros [Hi Hj]. destruct c; cbn [region_sf origin]; try reflexivity.
  unfold sf_pm, sf_mm. destruct (Nat.eqb_spec j 0) as [->|]; [|reflexivity]. cbn [along1]. rewrite along0_back by exact Hi. reflexivity.
Qed.
Lemma corner_in r c : in_region r (fst (corner_ij r c)) (snd (corner_ij r c)).
Proof. destruct c; cbn; split; lia. Qed.
Lemma region_corner r c s : region_sf r c s (fst (corner_ij r c)) (snd (corner_ij r c)) = s.
Proof.
  rewrite region_mm by apply corner_in. unfold sf_mm. destruct c; cbn [corner_ij fst snd origin].
  - reflexivity.
  - cbn [along1]. rewrite along0_back by lia. rewrite Nat.sub_diag. reflexivity.
  - cbn [along0]. rewrite along1_back by lia. rewrite Nat.sub_diag. reflexivity.
  - rewrite along1_back by lia. rewrite Nat.sub_diag. cbn [back1]. rewrite along0_back by lia. rewrite Nat.sub_diag. reflexivity.
Qed.
Lemma region_integrates r c s : integrates r (region_sf r c s).
Proof.
  split.
  - intros i j Hi Hj. rewrite !region_mm by (split; lia). unfold sf_mm. cbn [along0]. rewrite <- inc_flux. ring.
  - intros j Hj. rewrite !region_mm by (split; lia). unfold sf_mm. cbn [along0 along1]. rewrite <- inc_flux. ring.
Qed.
Lemma integrates_mm r f i j : integrates r f -> in_region r i j -> f i j = sf_mm r (f 0%nat 0%nat) i j.
Proof.
  intros [A B] [Hi Hj]. unfold sf_mm.
  assert (L : forall j, (j <= l1 r)%nat -> f 0%nat j = along1 r (f 0%nat 0%nat) j).
  { induction j0 as [|j0 IH]; intro H; cbn [along1]; [reflexivity|]. rewrite <- IH by lia. rewrite inc_flux, <- B by lia. ring. }
  induction i as [|i IH]; cbn [along0]; [apply L; exact Hj|]. rewrite <- IH by lia. rewrite inc_flux, <- A by lia. ring.
Qed.
Lemma integrates_differ r f g : integrates r f -> integrates r g -> forall i j i' j', in_region r i j -> in_region r i' j' ->
  f i j - g i j = f i' j' - g i' j'.
Proof.
  intros F G i j i' j' H H'.
  rewrite (integrates_mm r f i j F H), (integrates_mm r g i j G H), (integrates_mm r f i' j' F H'), (integrates_mm r g i' j' G H').
  assert (E : forall s i j, sf_mm r s i j = sf_mm r 0 i j + s) by (intros; rewrite <- mm_shift; f_equal; ring).
  rewrite (E (f _ _) i j), (E (g _ _) i j), (E (f _ _) i' j'), (E (g _ _) i' j'). ring.
Qed.
Lemma integrates_unique r f g i0 j0 : integrates r f -> integrates r g -> in_region r i0 j0 -> f i0 j0 = g i0 j0 ->
  forall i j, in_region r i j -> f i j = g i j.
Proof.
  intros F G H0 E i j H. pose proof (integrates_differ r f g F G i j i0 j0 H H0) as D. rewrite E in D.
  replace (f i j) with (f i j - g i j + g i j) by ring. rewrite D. ring.
Qed.

Lemma potential_integrates psi r : potential psi r -> integrates r (fun i j => psi (X r i j) (Y r i j)).
Proof. intros [A B]. split; [exact A|]. intros j H. apply (B 0%nat j); lia. Qed.
Lemma region_potential psi r c s i j : potential psi r -> in_region r i j ->
  region_sf r c s i j = psi (X r i j) (Y r i j) + (s - psi (fst (corner_point r c)) (snd (corner_point r c))).
Proof.
  intros P H. pose proof (integrates_differ r _ _ (region_integrates r c s) (potential_integrates psi r P) i j _ _ H (corner_in r c)) as D.
  cbv beta in D. rewrite region_corner in D. unfold corner_point. destruct (corner_ij r c) as [a b]. cbn [fst snd] in *.
  replace (region_sf r c s i j) with (region_sf r c s i j - psi (X r i j) (Y r i j) + psi (X r i j) (Y r i j)) by ring. rewrite D. ring.
Qed.
Lemma two_eq : qc_of 2 = 1 + 1. Proof. apply Qc_is_canon. reflexivity. Qed.
Lemma two_half : (1 + 1) * half = 1. Proof. apply Qc_is_canon. reflexivity. Qed.
Lemma flow_potential c0 c1 c2 c3 c4 c5 r : linear_flow c0 c1 c2 c3 c4 c5 r -> potential (quadratic c0 c1 c2 c3 c4 c5) r.
Proof.
  intro L.
  assert (E : forall a b c d, quadratic c0 c1 c2 c3 c4 c5 (X r c d) (Y r c d) - quadratic c0 c1 c2 c3 c4 c5 (X r a b) (Y r a b) = flux r a b c d).
  { intros a b c d. unfold flux. destruct (L a b) as [-> ->], (L c d) as [-> ->]. unfold quadratic. rewrite two_eq.
    generalize (X r a b) (Y r a b) (X r c d) (Y r c d). intros x y x' y'. field. intro H. discriminate H. }
  split; intros; apply E.
Qed.

(* ---- dictionaries *)
Lemma done_iff d n : done d n = true <-> In n (map fst d).
Proof.
  unfold done. rewrite existsb_exists, in_map_iff. split; intros (x & A & B).
  - apply Z.eqb_eq in B. eauto.
  - exists x. split; [exact B|]. apply Z.eqb_eq. exact A.
Qed.
Lemma get_in p k s : get p k = Some s -> In (k, s) p.
Proof.
  unfold get. destruct (find _ p) as [x|] eqn:E; [|discriminate]. intro H. injection H as <-. apply find_some in E. destruct E as [I E].
  destruct (pkey_eq_dec (fst x) k) as [<-|]; [|discriminate]. destruct x; exact I.
Qed.
Lemma get_none p k : get p k = None <-> ~ In k (map fst p).
Proof.
  unfold get. destruct (find _ p) as [x|] eqn:E; split; intro H; try discriminate; try reflexivity.
  - exfalso. apply H. apply find_some in E. destruct E as [I E]. destruct (pkey_eq_dec (fst x) k) as [<-|]; [|discriminate]. apply in_map. exact I.
  - intro I. apply in_map_iff in I. destruct I as (x & <- & I). pose proof (find_none _ _ E x I) as N. cbv beta in N.
    destruct (pkey_eq_dec (fst x) (fst x)); congruence.
Qed.
Lemma start_some p r c s : start_of p r = Some (c, s) -> get p (corner_key r c) = Some s.
Proof.
  unfold start_of. destruct (get p (corner_key r MM)) eqn:E1; [intro H; injection H as <- <-; exact E1|].
  destruct (get p (corner_key r PM)) eqn:E2; [intro H; injection H as <- <-; exact E2|].
  destruct (get p (corner_key r MP)) eqn:E3; [intro H; injection H as <- <-; exact E3|].
  destruct (get p (corner_key r PP)) eqn:E4; [intro H; injection H as <- <-; exact E4|discriminate].
Qed.
Lemma start_none p r : start_of p r = None -> forall c, ~ In (corner_key r c) (map fst p).
Proof.
  unfold start_of. destruct (get p (corner_key r MM)) eqn:E1; [discriminate|].
  destruct (get p (corner_key r PM)) eqn:E2; [discriminate|].
  destruct (get p (corner_key r MP)) eqn:E3; [discriminate|].
  destruct (get p (corner_key r PP)) eqn:E4; [discriminate|]. intros _ c. apply get_none. destruct c; assumption.
Qed.
Lemma corner_values_in r f k s : In (k, s) (corner_values r f) <->
  exists c, k = corner_key r c /\ s = f (fst (corner_ij r c)) (snd (corner_ij r c)).
Proof.
  unfold corner_values. rewrite in_map_iff. split.
  - intros (c & E & _). exists c. apply pair_equal_spec in E. destruct E as [<- <-]. split; [reflexivity|]. destruct (corner_ij r c); reflexivity.
  - intros (c & -> & ->). exists c. split; [|destruct c; cbn; auto]. f_equal. destruct (corner_ij r c); reflexivity.
Qed.

(* ---- a pass over the regions *)
Lemma names_inj rs r r' : NoDup (map name rs) -> In r rs -> In r' rs -> name r = name r' -> r = r'.
Proof.
  induction rs as [|a l IH]; intros ND; [contradiction|]. cbn in ND. apply NoDup_cons_iff in ND. destruct ND as [N ND'].
  intros [<- | I] [<- | I'] E; [reflexivity| | |exact (IH ND' I I' E)]; exfalso; apply N; [rewrite E|rewrite <- E]; apply in_map; assumption.
Qed.
Section Pass.
  Context (rs : list region) (K : pkey -> Prop) (ND : NoDup (map name rs)).

  Record inv (st : state) : Prop := {
    i_names : NoDup (map fst (sf_dict st));
    i_done : forall n, In n (map fst (sf_dict st)) -> exists r, In r rs /\ name r = n /\ reached rs K r;
    i_pool : forall k, In k (map fst (corners st)) -> K k \/ exists r c, reached rs K r /\ k = corner_key r c;
    i_start : forall k, K k -> In k (map fst (corners st));
    i_corners : forall r c, In r rs -> In (name r) (map fst (sf_dict st)) -> In (corner_key r c) (map fst (corners st));
    i_empty : empty_pool st = false }.

  Lemma reached_in r : reached rs K r -> In r rs. Proof. intro H. destruct H; assumption. Qed.
  Lemma in_values r f c : In (corner_key r c) (map fst (corner_values r f)).
  Proof. change (corner_key r c) with (fst (corner_key r c, f (fst (corner_ij r c)) (snd (corner_ij r c)))). apply in_map. apply corner_values_in. eauto. Qed.

  Lemma visit_inv st r : In r rs -> inv st -> inv (visit st r).
  Proof.
    intros I V. unfold visit. destruct (done (sf_dict st) (name r)) eqn:D; [exact V|]. rewrite (i_empty _ V).
    destruct (start_of (corners st) r) as [[c s]|] eqn:E.
    - assert (NI : ~ In (name r) (map fst (sf_dict st))) by (rewrite <- done_iff, D; discriminate).
      assert (R : reached rs K r).
      { apply start_some, get_in in E. apply (in_map fst) in E. cbn in E. destruct (i_pool _ V _ E) as [H | (r' & c' & H & H')].
        - exact (reach_start rs K r c I H).
        - exact (reach_next rs K r' c' r c H I (eq_sym H')). }
      constructor; cbn [sf_dict corners empty_pool]; rewrite ?map_app; cbn [map fst].
      + apply Permutation_NoDup with (name r :: map fst (sf_dict st)); [apply Permutation_cons_append|]. constructor; [exact NI|apply V].
      + intros n H. apply in_app_iff in H. destruct H as [H | [<- | []]]; [exact (i_done _ V n H)|]. eauto.
      + intros k H. apply in_app_iff in H. destruct H as [H|H]; [|exact (i_pool _ V k H)].
        right. apply in_map_iff in H. destruct H as ((k' & s') & <- & H). apply corner_values_in in H. destruct H as (c' & -> & _). exists r, c'. auto.
      + intros k H. apply in_app_iff. right. exact (i_start _ V _ H).
      + intros r' c' I' H. apply in_app_iff. apply in_app_iff in H. destruct H as [H | [H | []]]; [right; apply (i_corners _ V); assumption|].
        left. apply (names_inj rs) in H; auto. subst r'. apply in_values.
      + reflexivity.
    - destruct V as [A B C D' E' F]. constructor; auto.
  Qed.
  Lemma visit_done st r n : In n (map fst (sf_dict st)) -> In n (map fst (sf_dict (visit st r))).
  Proof.
    intro H. unfold visit. destruct (done _ _); [exact H|]. destruct (if empty_pool st then _ else _) as [[c s]|]; [|exact H].
    cbn [sf_dict]. rewrite map_app. apply in_app_iff. auto.
  Qed.
  Lemma visit_names st r n : In n (map fst (sf_dict (visit st r))) -> In n (map fst (sf_dict st)) \/ n = name r.
  Proof.
    unfold visit. destruct (done _ _); [auto|]. destruct (if empty_pool st then _ else _) as [[c s]|]; [|auto].
    cbn [sf_dict]. rewrite map_app, in_app_iff. cbn. intuition.
  Qed.
  Lemma visit_keys st r k : In k (map fst (corners st)) -> In k (map fst (corners (visit st r))).
  Proof.
    intro H. unfold visit. destruct (done _ _); [exact H|]. destruct (if empty_pool st then _ else _) as [[c s]|]; [|exact H].
    cbn [corners]. rewrite map_app. apply in_app_iff. auto.
  Qed.
  Lemma visit_full st r : is_full (visit st r) = true <-> is_full st = true /\ In (name r) (map fst (sf_dict (visit st r))).
  Proof.
    unfold visit. destruct (done (sf_dict st) (name r)) eqn:D; [apply done_iff in D; tauto|].
    destruct (if empty_pool st then _ else _) as [[c s]|]; cbn [is_full sf_dict].
    - rewrite map_app, in_app_iff. cbn. tauto.
    - split; [discriminate|]. intros [_ H]. apply done_iff in H. congruence.
  Qed.
  Lemma visit_grows st r : (length (sf_dict st) <= length (sf_dict (visit st r)))%nat.
  Proof.
    unfold visit. destruct (done _ _); [lia|]. destruct (if empty_pool st then _ else _) as [[c s]|]; cbn [sf_dict]; [rewrite app_length; cbn; lia|lia].
  Qed.

  Lemma pass_inv l : forall st, incl l rs -> inv st -> inv (fold_left visit l st).
  Proof.
    induction l as [|r l IH]; intros st L V; [exact V|]. cbn [fold_left]. apply IH; [intros x H; apply L; right; exact H|].
    apply visit_inv; [apply L; left; reflexivity|exact V].
  Qed.
  Lemma pass_done l : forall st n, In n (map fst (sf_dict st)) -> In n (map fst (sf_dict (fold_left visit l st))).
  Proof. induction l as [|r l IH]; intros st n H; [exact H|]. apply IH. apply visit_done. exact H. Qed.
  Lemma pass_names l : forall st n, In n (map fst (sf_dict (fold_left visit l st))) -> In n (map fst (sf_dict st)) \/ In n (map name l).
  Proof.
    induction l as [|r l IH]; intros st n H; [auto|]. cbn [fold_left] in H. apply IH in H. destruct H as [H|H]; [|right; right; exact H].
    apply visit_names in H. destruct H as [H | ->]; [auto|]. right. left. reflexivity.
  Qed.
  Lemma pass_grows l : forall st, (length (sf_dict st) <= length (sf_dict (fold_left visit l st)))%nat.
  Proof. induction l as [|r l IH]; intros st; cbn [fold_left]; [lia|]. pose proof (visit_grows st r). pose proof (IH (visit st r)). lia. Qed.
  Lemma pass_full l : forall st, NoDup (map name l) -> is_full (fold_left visit l st) = true <->
    is_full st = true /\ forall r, In r l -> In (name r) (map fst (sf_dict (fold_left visit l st))).
  Proof.
    induction l as [|r l IH]; intros st N; cbn [fold_left].
    - split; [intro H; split; [exact H|intros r []]|tauto].
    - cbn in N. apply NoDup_cons_iff in N. destruct N as [N1 N2]. rewrite IH by exact N2. rewrite visit_full. split.
      + intros [[A B] C]. split; [exact A|]. intros x [<- | H]; [|exact (C x H)]. apply pass_done. exact B.
      + intros [A B]. split; [|intros x H; apply B; right; exact H]. split; [exact A|].
        destruct (pass_names l _ _ (B r (or_introl eq_refl))) as [H|H]; [exact H|contradiction].
  Qed.
  Lemma pass_progress l : forall st r c, empty_pool st = false -> In r l -> ~ In (name r) (map fst (sf_dict st)) -> In (corner_key r c) (map fst (corners st)) ->
    (length (sf_dict st) < length (sf_dict (fold_left visit l st)))%nat.
  Proof.
    induction l as [|a l IH]; intros st r c E I N P; [contradiction|]. cbn [fold_left].
    destruct (Nat.eq_dec (length (sf_dict (visit st a))) (length (sf_dict st))) as [H|H].
    - destruct I as [-> | I].
      + exfalso. revert H. unfold visit. destruct (done _ _) eqn:D; [apply done_iff in D; contradiction|]. rewrite E.
        destruct (start_of (corners st) r) as [[c' s]|] eqn:E'; cbn [sf_dict]; [rewrite app_length; cbn; lia|]. intros _. exact (start_none _ _ E' c P).
      + rewrite <- H. apply (IH _ r c); [|exact I| |apply visit_keys; exact P].
        * unfold visit. destruct (done _ _); [exact E|]. destruct (if empty_pool st then _ else _) as [[c' s]|]; [reflexivity|exact E].
        * revert H. unfold visit. destruct (done _ _); [auto|]. destruct (if empty_pool st then _ else _) as [[c' s]|]; [|auto].
          cbn [sf_dict]. rewrite app_length. cbn. lia.
    - pose proof (visit_grows st a). pose proof (pass_grows l (visit st a)). lia.
  Qed.

  Definition all_reached : Prop := forall r, In r rs -> reached rs K r.
  Lemma undone st : inv st -> all_reached -> (exists r, In r rs /\ ~ In (name r) (map fst (sf_dict st))) ->
    exists r c, In r rs /\ ~ In (name r) (map fst (sf_dict st)) /\ In (corner_key r c) (map fst (corners st)).
  Proof.
    intros V AR (r & I & N). pose proof (AR r I) as R. induction R as [r c I' Hk|r c r' c' R IH I' E].
    - exists r, c. repeat split; auto. exact (i_start _ V _ Hk).
    - destruct (in_dec Z.eq_dec (name r) (map fst (sf_dict st))) as [D|D].
      + exists r', c'. repeat split; auto. rewrite <- E. apply (i_corners _ V); [apply reached_in; exact R|exact D].
      + exact (IH (reached_in _ R) D).
  Qed.
  Lemma done_count st : inv st -> (length (sf_dict st) <= length rs)%nat /\
    ((exists r, In r rs /\ ~ In (name r) (map fst (sf_dict st))) -> (length (sf_dict st) < length rs)%nat).
  Proof.
    intro V. assert (L : incl (map fst (sf_dict st)) (map name rs)).
    { intros n H. destruct (i_done _ V n H) as (r & I & <- & _). apply in_map. exact I. }
    pose proof (NoDup_incl_length (i_names _ V) L) as Hl. rewrite !map_length in Hl. split; [exact Hl|]. intros (r & I & N).
    destruct (Nat.eq_dec (length (sf_dict st)) (length rs)) as [E|E]; [|lia]. exfalso. apply N.
    apply (NoDup_length_incl (l' := map name rs) (i_names _ V)); [rewrite !map_length; lia|exact L|apply in_map; exact I].
  Qed.

  Definition fresh (d : sfs) (p : pool) : state := mks d p false true.
  Lemma rounds_some : forall fuel d p x, inv (fresh d p) -> rounds fuel rs d p false = Some x -> exists st, inv st /\ sf_dict st = x /\
    forall r, In r rs -> In (name r) (map fst x).
  Proof.
    induction fuel as [|fuel IH]; intros d p x V H; [discriminate|]. cbn [rounds] in H. fold (fresh d p) in H.
    pose proof (pass_inv rs _ (incl_refl _) V) as V'. set (st := fold_left visit rs (fresh d p)) in *.
    destruct (Nat.ltb _ _); [|discriminate]. destruct (is_full st) eqn:F.
    - injection H as <-. exists st. split; [exact V'|]. split; [reflexivity|]. apply pass_full in F; [apply F|exact ND].
    - apply (IH (sf_dict st) (corners st) x); [|exact H]. destruct V' as [A B C D E F']. constructor; auto.
  Qed.
  Lemma rounds_all : all_reached -> forall fuel d p, inv (fresh d p) -> (exists r, In r rs /\ ~ In (name r) (map fst d)) ->
    (length rs < fuel + length d)%nat -> exists x, rounds fuel rs d p false = Some x.
  Proof.
    intros AR. induction fuel as [|fuel IH]; intros d p V U L.
    - exfalso. destruct (done_count _ V) as [H _]. cbn [sf_dict fresh] in H. lia.
    - cbn [rounds]. fold (fresh d p). destruct (undone _ V AR U) as (r & c & I & N & P).
      pose proof (pass_progress rs (fresh d p) r c eq_refl I N P) as G. pose proof (pass_inv rs _ (incl_refl _) V) as V'.
      set (st := fold_left visit rs (fresh d p)) in *. cbn [sf_dict fresh] in G. apply Nat.ltb_lt in G. rewrite G. apply Nat.ltb_lt in G.
      destruct (is_full st) eqn:F; [eauto|]. apply IH.
      + destruct V' as [A B C D E F']. constructor; auto.
      + destruct (Forall_Exists_dec (fun r => In (name r) (map fst (sf_dict st))) (fun r => in_dec Z.eq_dec _ _) rs) as [A|A].
        * exfalso. rewrite Forall_forall in A. assert (is_full st = true) by (apply pass_full; [exact ND|]; split; [reflexivity|exact A]). congruence.
        * apply Exists_exists in A. exact A.
      + lia.
  Qed.
End Pass.

(* ---- sorting *)
Lemma insert_perm r l : Permutation (insert r l) (r :: l).
Proof. induction l as [|x l IH]; cbn; [reflexivity|]. destruct (_ <=? _)%Z; [reflexivity|]. rewrite IH. apply perm_swap. Qed.
Lemma sort_perm l : Permutation (sort l) l.
Proof. induction l as [|r l IH]; cbn; [reflexivity|]. rewrite insert_perm. rewrite IH. reflexivity. Qed.
Lemma sort_in l r : In r (sort l) <-> In r l.
Proof. split; apply Permutation_in; [|symmetry]; apply sort_perm. Qed.
Lemma sort_first l : forall r t, sort l = r :: t -> first l r.
Proof.
  induction l as [|a l IH]; intros r t; [discriminate|]. cbn [sort fold_right]. fold (sort l).
  destruct (sort l) as [|x u] eqn:E; cbn [insert].
  - intro H. injection H as <- <-. assert (l = []) as -> by (apply Permutation_nil; rewrite <- E; apply sort_perm). split; [left; reflexivity|].
    intros r' [<- | []]. lia.
  - destruct (IH x u eq_refl) as [I M]. destruct (Z.leb_spec (name a) (name x)) as [H|H]; intro H'; injection H' as <- <-.
    + split; [left; reflexivity|]. intros r' [<- | I']; [lia|]. specialize (M r' I'). lia.
    + split; [right; exact I|]. intros r' [<- | I']; [lia|]. exact (M r' I').
Qed.
Lemma reached_perm rs rs' K r : (forall x, In x rs <-> In x rs') -> reached rs K r -> reached rs' K r.
Proof. intros P R. induction R as [r c I H|r c r' c' R IH I E]; [exact (reach_start _ _ r c (proj1 (P r) I) H)|exact (reach_next _ _ r c r' c' IH (proj1 (P r') I) E)]. Qed.

(* ---- values *)
Section Values.
  Context (rs : list region) (psi : Qc -> Qc -> Qc) (C : Qc) (F : faithful rs) (P : forall r, In r rs -> potential psi r).
  Record vinv (st : state) : Prop := {
    v_pool : forall k s, In (k, s) (corners st) -> forall r c, In r rs -> corner_key r c = k -> s = psi (fst (corner_point r c)) (snd (corner_point r c)) + C;
    v_dict : forall n f, In (n, f) (sf_dict st) -> exists r, In r rs /\ name r = n /\ forall i j, in_region r i j -> f i j = psi (X r i j) (Y r i j) + C }.
  Lemma v_add st r c s e f : In r rs -> vinv st -> s = psi (fst (corner_point r c)) (snd (corner_point r c)) + C ->
    vinv (mks (sf_dict st ++ [(name r, region_sf r c s)]) (corner_values r (region_sf r c s) ++ corners st) e f).
  Proof.
    intros I V Hs.
    assert (Hv : forall i j, in_region r i j -> region_sf r c s i j = psi (X r i j) (Y r i j) + C).
    { intros i j H. rewrite (region_potential psi r c s i j (P r I) H), Hs. ring. }
    split; cbn [corners sf_dict].
    - intros k t H r' c' I' E. apply in_app_iff in H. destruct H as [H|H]; [|exact (v_pool _ V k t H r' c' I' E)].
      apply corner_values_in in H. destruct H as (c2 & -> & ->). rewrite Hv by apply corner_in. apply F in E; auto. rewrite E.
      unfold corner_point. destruct (corner_ij r c2); reflexivity.
    - intros n g H. apply in_app_iff in H. destruct H as [H | [H | []]]; [exact (v_dict _ V n g H)|].
      apply pair_equal_spec in H. destruct H as [<- <-]. exists r. auto.
  Qed.
  Lemma v_visit st r : In r rs -> empty_pool st = false -> vinv st -> vinv (visit st r) /\ empty_pool (visit st r) = false.
  Proof.
    intros I E V. unfold visit. destruct (done _ _); [auto|]. rewrite E.
    destruct (start_of (corners st) r) as [[c s]|] eqn:S; [|destruct V; split; [constructor|]; auto].
    split; [|reflexivity]. apply v_add; auto. apply start_some, get_in in S. exact (v_pool _ V _ _ S r c I eq_refl).
  Qed.
  Lemma v_pass l : forall st, incl l rs -> empty_pool st = false -> vinv st -> vinv (fold_left visit l st).
  Proof.
    induction l as [|r l IH]; intros st L E V; [exact V|]. cbn [fold_left]. destruct (v_visit st r (L r (or_introl eq_refl)) E V) as [V' E'].
    apply IH; auto. intros x H. apply L. right. exact H.
  Qed.
  Lemma v_rounds l : incl l rs -> forall fuel d p x, vinv (fresh d p) -> rounds fuel l d p false = Some x ->
    forall n f, In (n, f) x -> exists r, In r rs /\ name r = n /\ forall i j, in_region r i j -> f i j = psi (X r i j) (Y r i j) + C.
  Proof.
    intros L fuel. induction fuel as [|fuel IH]; intros d p x V H; [discriminate|]. cbn [rounds] in H. fold (fresh d p) in H.
    pose proof (v_pass l (fresh d p) L eq_refl V) as V'. set (st := fold_left visit l (fresh d p)) in *.
    destruct (Nat.ltb _ _); [|discriminate]. destruct (is_full st).
    - injection H as <-. apply (v_dict _ V').
    - apply (IH (sf_dict st) (corners st) x); [|exact H]. destruct V'. constructor; auto.
  Qed.
End Values.

(* ---- integration in every region, whatever the velocity *)
Definition linv (rs : list region) (d : sfs) : Prop := forall n f, In (n, f) d -> exists r, In r rs /\ name r = n /\ integrates r f.
Lemma l_pass rs l : forall st, incl l rs -> linv rs (sf_dict st) -> linv rs (sf_dict (fold_left visit l st)).
Proof.
  induction l as [|r l IH]; intros st L V; [exact V|]. cbn [fold_left]. apply IH; [intros x H; apply L; right; exact H|].
  unfold visit. destruct (done _ _); [exact V|]. destruct (if empty_pool st then _ else _) as [[c s]|]; [|exact V]. cbn [sf_dict].
  intros n f H. apply in_app_iff in H. destruct H as [H | [H | []]]; [exact (V n f H)|]. apply pair_equal_spec in H. destruct H as [<- <-].
  exists r. split; [apply L; left; reflexivity|]. split; [reflexivity|apply region_integrates].
Qed.
Lemma l_rounds rs l : incl l rs -> forall fuel d p e x, linv rs d -> rounds fuel l d p e = Some x -> linv rs x.
Proof.
  intros L fuel. induction fuel as [|fuel IH]; intros d p e x V H; [discriminate|]. cbn [rounds] in H.
  pose proof (l_pass rs l (mks d p e true) L V) as V'. set (st := fold_left visit l _) in *.
  destruct (Nat.ltb _ _); [|discriminate]. destruct (is_full st); [injection H as <-; exact V'|exact (IH _ _ _ _ V' H)].
Qed.

(* ---- the whole *)
(** without a starting point the first pass is that from the corners of the first region *)
Definition st1 (r : region) : state := mks [(name r, region_sf r MM 0)] (corner_values r (region_sf r MM 0)) false true.
Lemma first_visit r : visit (mks [] [] true true) r = st1 r.
Proof. unfold visit, st1. cbn [sf_dict done existsb empty_pool corners is_full]. rewrite app_nil_r. reflexivity. Qed.
Lemma again r : visit (st1 r) r = st1 r.
Proof. unfold visit. cbn [st1 sf_dict done existsb fst]. rewrite Z.eqb_refl. reflexivity. Qed.
Lemma rounds_first fuel r t : rounds (S fuel) (r :: t) [] [] true =
  let st := fold_left visit (r :: t) (st1 r) in
  if is_full st then Some (sf_dict st) else rounds fuel (r :: t) (sf_dict st) (corners st) false.
Proof.
  cbn [rounds]. replace (fold_left visit (r :: t) (mks [] [] true true)) with (fold_left visit (r :: t) (st1 r)).
  - assert (G : (1 <= length (sf_dict (fold_left visit (r :: t) (st1 r))))%nat) by exact (pass_grows (r :: t) (st1 r)).
    cbv zeta. destruct (Nat.ltb_spec (length (@nil (Z * arr))) (length (sf_dict (fold_left visit (r :: t) (st1 r))))) as [H|H]; [reflexivity|].
    exfalso. apply (Nat.le_trans _ _ _ G) in H. inversion H.
  - cbn [fold_left]. f_equal. transitivity (st1 r); [apply again|symmetry; apply first_visit].
Qed.
Definition keys_of (r : region) : pkey -> Prop := fun k => exists c, k = corner_key r c.
Lemma st1_inv rs r : NoDup (map name rs) -> In r rs -> inv rs (keys_of r) (st1 r).
Proof.
  intros ND I.
  assert (R : reached rs (keys_of r) r) by (apply (reach_start _ _ r MM I); exists MM; reflexivity).
  constructor; cbn [st1 sf_dict corners empty_pool]; cbn [map fst].
  - repeat constructor. intros [].
  - intros n [<- | []]. eauto.
  - intros k H. apply in_map_iff in H. destruct H as ((k' & s) & <- & H). apply corner_values_in in H. destruct H as (c & -> & _). left. exists c. reflexivity.
  - intros k (c & ->). apply in_values.
  - intros r' c I' [E | []]. apply (names_inj rs) in E; auto. subst r'. apply in_values.
  - reflexivity.
Qed.
Lemma start_inv rs k s : inv rs (eq k) (fresh [] [(k, s)]).
Proof.
  constructor; cbn [fresh sf_dict corners empty_pool]; cbn [map fst].
  - constructor.
  - intros n [].
  - intros k' [<- | []]. left. reflexivity.
  - intros k' <-. left. reflexivity.
  - intros r c _ [].
  - reflexivity.
Qed.

(** where the integration starts *)
Definition starts (rs : list region) (start : option (Qc * Qc * Qc)) : pkey -> Prop :=
  match start with
  | Some (x, y, _) => eq (key x y)
  | None => fun k => exists r c, first rs r /\ k = corner_key r c
  end.
Lemma first_unique rs r r' : NoDup (map name rs) -> first rs r -> first rs r' -> r = r'.
Proof. intros ND [I M] [I' M']. apply (names_inj rs); auto. specialize (M r' I'). specialize (M' r I). lia. Qed.
Lemma reached_key rs (K K' : pkey -> Prop) r : (forall k, K k -> K' k) -> reached rs K r -> reached rs K' r.
Proof. intros H R. induction R as [r c I Hk|r c r' c' R IH I E]; [exact (reach_start _ _ r c I (H _ Hk))|exact (reach_next _ _ r c r' c' IH I E)]. Qed.

Lemma names_sorted rs : NoDup (map name rs) -> NoDup (map name (sort rs)).
Proof. apply Permutation_NoDup. apply Permutation_map. symmetry. apply sort_perm. Qed.

Definition whole (rs : list region) (start : option (Qc * Qc * Qc)) : option sfs :=
  match start with
  | None => rounds (S (length rs)) (sort rs) [] [] true
  | Some (x, y, s) => rounds (S (length rs)) (sort rs) [] [(key x y, s)] false
  end.
Lemma stream_whole rs start shift d : streamfunction rs start shift = Some d <->
  exists x, whole rs start = Some x /\ d = map (fun e => (fst e, fun i j => snd e i j + shift)) x.
Proof.
  unfold streamfunction. fold (whole rs start). destruct (whole rs start) as [x|].
  - split; [intro H; injection H as <-; eauto|]. intros (y & H & ->). injection H as <-. reflexivity.
  - split; [discriminate|]. intros (y & H & _). discriminate.
Qed.
Lemma whole_some rs start x : NoDup (map name rs) -> whole rs start = Some x ->
  rs <> [] /\ (forall r, In r rs -> reached rs (starts rs start) r) /\ Permutation (map fst x) (map name rs).
Proof.
  intros ND H. pose proof (names_sorted rs ND) as ND'.
  assert (Fin : forall K st, inv (sort rs) K st -> (forall r, In r (sort rs) -> In (name r) (map fst (sf_dict st))) ->
    (forall r, In r rs -> reached rs K r) /\ Permutation (map fst (sf_dict st)) (map name rs)).
  { intros K st V A. split.
    - intros r I. apply sort_in in I. destruct (i_done _ _ _ V _ (A r I)) as (r' & I' & E & R). apply (names_inj (sort rs)) in E; auto. subst r'.
      exact (reached_perm _ _ _ _ (sort_in rs) R).
    - apply NoDup_Permutation; [apply V|exact ND|]. intro n. split; intro N.
      + destruct (i_done _ _ _ V _ N) as (r & I & <- & _). apply in_map. apply sort_in. exact I.
      + apply in_map_iff in N. destruct N as (r & <- & I). apply A. apply sort_in. exact I. }
  assert (NE : rs <> []).
  { intros ->. destruct start as [[[a b] s]|]; cbn in H; discriminate. }
  split; [exact NE|]. destruct start as [[[a b] s]|]; cbn [whole] in H.
  - destruct (rounds_some (sort rs) (eq (key a b)) ND' _ _ _ _ (start_inv _ _ _) H) as (st & V & <- & A). exact (Fin _ _ V A).
  - destruct (sort rs) as [|r t] eqn:E; [exfalso; apply NE; apply Permutation_nil; rewrite <- E; apply sort_perm|].
    assert (FR : first rs r) by (apply (sort_first rs r t E)).
    rewrite rounds_first in H. cbv zeta in H. rewrite <- E in *.
    pose proof (pass_inv (sort rs) (keys_of r) ND' (sort rs) _ (incl_refl _) (st1_inv (sort rs) r ND' (proj2 (sort_in rs r) (proj1 FR)))) as V.
    set (st := fold_left visit (sort rs) (st1 r)) in *.
    assert (G : exists st, inv (sort rs) (keys_of r) st /\ sf_dict st = x /\ forall r, In r (sort rs) -> In (name r) (map fst x)).
    { destruct (is_full st) eqn:Fl.
      - injection H as <-. exists st. split; [exact V|]. split; [reflexivity|]. exact (proj2 (proj1 (pass_full (keys_of r) (sort rs) (st1 r) ND') Fl)).
      - apply (rounds_some (sort rs) (keys_of r) ND' _ _ _ _) in H; [exact H|]. destruct V as [A B C D E' F']. constructor; auto. }
    destruct G as (st' & V' & <- & A). destruct (Fin _ _ V' A) as [R Q]. split; [|exact Q]. intros r' I. apply reached_key with (keys_of r); [|exact (R r' I)].
    intros k (c & ->). exists r, c. auto.
Qed.
Lemma whole_all rs start : NoDup (map name rs) -> rs <> [] -> (forall r, In r rs -> reached rs (starts rs start) r) -> exists x, whole rs start = Some x.
Proof.
  intros ND NE R. pose proof (names_sorted rs ND) as ND'.
  assert (L : length (sort rs) = length rs) by (apply Permutation_length; apply sort_perm).
  destruct start as [[[a b] s]|]; cbn [whole].
  - apply (rounds_all (sort rs) (eq (key a b)) ND').
    + intros r I. apply (reached_perm rs); [intro; symmetry; apply sort_in|]. apply R. apply sort_in. exact I.
    + apply start_inv.
    + destruct rs as [|r l]; [congruence|]. exists r. split; [apply sort_in; left; reflexivity|intros []].
    + cbn [length]. lia.
  - destruct (sort rs) as [|r t] eqn:E; [exfalso; apply NE; apply Permutation_nil; rewrite <- E; apply sort_perm|].
    assert (FR : first rs r) by (apply (sort_first rs r t E)).
    rewrite rounds_first. cbv zeta. rewrite <- E in *.
    pose proof (pass_inv (sort rs) (keys_of r) ND' (sort rs) _ (incl_refl _) (st1_inv (sort rs) r ND' (proj2 (sort_in rs r) (proj1 FR)))) as V.
    assert (G : (1 <= length (sf_dict (fold_left visit (sort rs) (st1 r))))%nat) by exact (pass_grows (sort rs) (st1 r)). set (st := fold_left visit (sort rs) (st1 r)) in *.
    destruct (is_full st) eqn:Fl; [eauto|]. apply (rounds_all (sort rs) (keys_of r) ND').
    + intros r' I. apply (reached_perm rs); [intro; symmetry; apply sort_in|]. apply reached_key with (starts rs None); [|apply R; apply sort_in; exact I].
      intros k (r2 & c & F2 & ->). exists c. rewrite (first_unique rs r r2 ND FR F2). reflexivity.
    + destruct V as [A B C D E' F']. constructor; auto.
    + destruct (Forall_Exists_dec (fun r => In (name r) (map fst (sf_dict st))) (fun r => in_dec Z.eq_dec _ _) (sort rs)) as [A|A].
      * exfalso. rewrite Forall_forall in A. assert (is_full st = true) by (exact (proj2 (pass_full (keys_of r) (sort rs) (st1 r) ND') (conj eq_refl A))). congruence.
      * apply Exists_exists in A. exact A.
    + rewrite L. lia.
Qed.

Lemma stream_defined rs start shift : NoDup (map name rs) ->
  ((exists d, streamfunction rs start shift = Some d) <-> rs <> [] /\ forall r, In r rs -> reached rs (starts rs start) r).
Proof.
  intro ND. split.
  - intros (d & H). apply stream_whole in H. destruct H as (x & H & _). destruct (whole_some rs start x ND H) as (A & B & _). auto.
  - intros [A B]. destruct (whole_all rs start ND A B) as (x & H). eexists. apply stream_whole. eauto.
Qed.
Lemma stream_regions rs start shift d : NoDup (map name rs) -> streamfunction rs start shift = Some d -> Permutation (map fst d) (map name rs).
Proof.
  intros ND H. apply stream_whole in H. destruct H as (x & H & ->). destruct (whole_some rs start x ND H) as (_ & _ & Q).
  rewrite map_map. exact Q.
Qed.
Lemma stream_integrates rs start shift d : streamfunction rs start shift = Some d ->
  forall n f, In (n, f) d -> exists r, In r rs /\ name r = n /\ integrates r f.
Proof.
  intros H n f I. apply stream_whole in H. destruct H as (x & H & ->). apply in_map_iff in I. destruct I as ((n' & g) & E & I).
  cbn [fst snd] in E. apply pair_equal_spec in E. destruct E as [-> <-].
  assert (V : linv rs x).
  { assert (L : incl (sort rs) rs) by (intros r Hr; apply sort_in; exact Hr).
    assert (N : linv rs []) by (intros ? ? []).
    destruct start as [[[a b] s]|]; cbn [whole] in H; exact (l_rounds rs (sort rs) L _ _ _ _ _ N H). }
  destruct (V n g I) as (r & Hr & Hn & [A B]). exists r. split; [exact Hr|]. split; [exact Hn|]. split.
  - intros i j Hi Hj. rewrite <- A by assumption. ring.
  - intros j Hj. rewrite <- B by assumption. ring.
Qed.
Lemma stream_given rs psi x y s shift d : faithful rs -> (forall r c, In r rs -> corner_key r c = key x y -> corner_point r c = (x, y)) ->
  (forall r, In r rs -> potential psi r) -> streamfunction rs (Some (x, y, s)) shift = Some d ->
  forall n f, In (n, f) d -> exists r, In r rs /\ name r = n /\ forall i j, in_region r i j -> f i j = psi (X r i j) (Y r i j) + (s - psi x y) + shift.
Proof.
  intros F Fs P H n f I. apply stream_whole in H. destruct H as (z & H & ->). apply in_map_iff in I. destruct I as ((n' & g) & E & I).
  cbn [fst snd] in E. apply pair_equal_spec in E. destruct E as [-> <-]. cbn [whole] in H.
  assert (V0 : vinv rs psi (s - psi x y) (fresh [] [(key x y, s)])).
  { split; cbn [fresh corners sf_dict]; [|intros ? ? []]. intros k t [E | []] r c Hr Hk. apply pair_equal_spec in E. destruct E as [<- <-].
    rewrite (Fs r c Hr Hk). cbn [fst snd]. ring. }
  destruct (v_rounds rs psi (s - psi x y) F P (sort rs) (fun r Hr => proj1 (sort_in rs r) Hr) _ _ _ _ V0 H n g I) as (r & Hr & Hn & Hv).
  exists r. split; [exact Hr|]. split; [exact Hn|]. intros i j Hij. rewrite (Hv i j Hij). reflexivity.
Qed.
Lemma stream_default rs psi r0 shift d : NoDup (map name rs) -> faithful rs -> (forall r, In r rs -> potential psi r) -> first rs r0 ->
  streamfunction rs None shift = Some d ->
  forall n f, In (n, f) d -> exists r, In r rs /\ name r = n /\ forall i j, in_region r i j ->
    f i j = psi (X r i j) (Y r i j) - psi (X r0 0%nat 0%nat) (Y r0 0%nat 0%nat) + shift.
Proof.
  intros ND F P F0 H n f I. apply stream_whole in H. destruct H as (z & H & ->). apply in_map_iff in I. destruct I as ((n' & g) & E & I).
  cbn [fst snd] in E. apply pair_equal_spec in E. destruct E as [-> <-]. cbn [whole] in H.
  destruct (sort rs) as [|r t] eqn:E; [destruct (length rs); cbn in H; discriminate|].
  assert (FR : first rs r) by (apply (sort_first rs r t E)). assert (r = r0) as -> by exact (first_unique rs r r0 ND FR F0).
  rewrite rounds_first in H. cbv zeta in H. rewrite <- E in *.
  assert (L : incl (sort rs) rs) by (intros r Hr; apply sort_in; exact Hr).
  set (C := - psi (X r0 0%nat 0%nat) (Y r0 0%nat 0%nat)).
  assert (V1 : vinv rs psi C (st1 r0)).
  { change (st1 r0) with (mks (sf_dict (mks [] [] true true) ++ [(name r0, region_sf r0 MM 0)]) (corner_values r0 (region_sf r0 MM 0)) false true).
    rewrite <- (app_nil_r (corner_values r0 (region_sf r0 MM 0))). apply (v_add rs psi C F P (mks [] [] true true) r0 MM 0 false true (proj1 FR)).
    - split; intros ? ? [].
    - cbn [corner_point corner_ij fst snd]. unfold C. ring. }
  pose proof (v_pass rs psi C F P (sort rs) (st1 r0) L eq_refl V1) as V. set (st := fold_left visit (sort rs) (st1 r0)) in *.
  assert (G : exists r, In r rs /\ name r = n /\ forall i j, in_region r i j -> g i j = psi (X r i j) (Y r i j) + C).
  { destruct (is_full st).
    - injection H as <-. exact (v_dict _ _ _ _ V n g I).
    - assert (V2 : vinv rs psi C (fresh (sf_dict st) (corners st))) by (destruct V; constructor; auto).
      exact (v_rounds rs psi C F P (sort rs) L _ _ _ _ V2 H n g I). }
  destruct G as (r & Hr & Hn & Hv). exists r. split; [exact Hr|]. split; [exact Hn|]. intros i j Hij. rewrite (Hv i j Hij). unfold C. ring.
Qed.

(** ** the keys of corners *)
Lemma fmt7_digits x s q : fmt7 x = (s, q) ->
  (s = true <-> (this x < 0)%Q) /\
  (- (1 # 2) <= Qabs x * 10000000 - inject_Z q)%Q /\ (Qabs x * 10000000 - inject_Z q <= 1 # 2)%Q /\
  ((Qabs x * 10000000 - inject_Z q == 1 # 2 \/ Qabs x * 10000000 - inject_Z q == - (1 # 2))%Q -> Z.even q = true).
Proof.
  unfold fmt7. intros H. injection H as Hs Hq. destruct x as [[n d] Hc]. cbn [this Qnum Qden] in *.
  split; [unfold Qlt; simpl; rewrite <- Hs, Z.ltb_lt; lia|].
  assert (Qabs (n # d) * 10000000 - inject_Z q == (Z.abs n * ten7 - q * Zpos d) # d)%Q as E.
  { unfold Qeq, Qminus, Qplus, Qmult, Qopp, Qabs, inject_Z, ten7. simpl. lia. }
  rewrite !E. pose proof (Z.div_mod (Z.abs n * ten7) (Zpos d) ltac:(lia)) as D. pose proof (Z.mod_pos_bound (Z.abs n * ten7) (Zpos d) ltac:(lia)) as B.
  set (z := (Z.abs n * ten7)%Z) in *. set (u := (z / Zpos d)%Z) in *. set (r := (z mod Zpos d)%Z) in *.
  unfold Qle, Qeq. cbn [Qnum Qden Qopp].
  change (match r with Z0 => 0%Z | Zpos y => Zpos (xO y) | Zneg y => Zneg (xO y) end) with (2 * r)%Z in Hq.
  destruct (Z.ltb_spec (2 * r) (Zpos d)); [rewrite <- Hq; split; [lia|split; [lia|intros [C|C]; exfalso; lia]]|].
  destruct (Z.ltb_spec (Zpos d) (2 * r)); [rewrite <- Hq; split; [lia|split; [lia|intros [C|C]; exfalso; lia]]|].
  destruct (Z.even u) eqn:Ev; rewrite <- Hq; (split; [lia|split; [lia|intros _; auto]]). rewrite Z.even_add, Ev. reflexivity.
Qed.
