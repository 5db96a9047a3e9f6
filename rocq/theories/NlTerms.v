(** What evaluating a term and its contribution to a block give. *)
From Coq Require Import List Arith Bool ZArith Reals Lia Lra.
From Verif Require Import NlModel NlSpec NlSums.
Import ListNotations.
Local Open Scope R_scope.

Lemma filter_left_over {X} (h : cf -> option X) cs : left_over cs (map h cs) = filter (fun c => is_none (h c)) cs.
Proof. induction cs as [|c cs IH]; simpl; [reflexivity|]. destruct (h c); simpl; rewrite IH; reflexivity. Qed.
Lemma fill_map (h : cf -> option (list R)) (rho : cf -> nat) cs :
  fill (map h cs) (map rho (filter (fun c => is_none (h c)) cs))
  = map (fun c => match h c with Some v => fun i => nth i v 0 | None => delta (rho c) end) cs.
Proof. induction cs as [|c cs IH]; simpl; [reflexivity|]. destruct (h c); simpl; rewrite IH; reflexivity. Qed.
Lemma open_dims_map (h : cf -> option (list R)) (dims : cf -> nat) cs :
  open_dims (map h cs) (map dims cs) = map dims (filter (fun c => is_none (h c)) cs).
Proof. induction cs as [|c cs IH]; simpl; [reflexivity|]. destruct (h c); simpl; rewrite IH; reflexivity. Qed.
Lemma sized_map (h : cf -> option (list R)) (dims : cf -> nat) cs :
  (forall c v, In c cs -> h c = Some v -> length v = dims c) -> sized (map h cs) (map dims cs).
Proof.
  induction cs as [|c cs IH]; simpl; intros H; [exact I|]. destruct (h c) eqn:E; [split; [apply H with (c := c); auto|]|];
    apply IH; intros d v Hd; apply H; auto.
Qed.
Lemma below_map (rho dims : cf -> nat) l : (forall c, In c l -> (rho c < dims c)%nat) -> Forall2 lt (map rho l) (map dims l).
Proof. induction l as [|c l IH]; simpl; intros H; constructor; auto. Qed.

Lemma objects_nodup cs : NoDup cs -> objects_differ cs = true.
Proof.
  induction cs as [|[f|f t] cs IH]; simpl; intros H; [reflexivity| |]; inversion H as [|? ? Hn Hc]; subst.
  - rewrite (proj2 (cf_in_false (Gen f) cs) Hn). simpl. auto.
  - auto.
Qed.

Lemma made_corr cs n : made cs n -> corr n = cs.
Proof. induction 1; [reflexivity|]. exact IHmade. Qed.
Lemma made_direct cs n : made cs n -> direct n = true.
Proof. induction 1; [reflexivity|]. exact IHmade. Qed.

Lemma call_value cs n e p :
  made cs n -> length p = length cs -> sized p (shape (array n e)) -> forallb is_none p = false -> (length p < 14)%nat ->
  exists a, call n e p = Some a /\ shape a = open_dims p (shape (array n e)) /\
    forall r, Forall2 lt r (shape a) -> at_ a r = factor n * mform (shape (array n e)) (at_ (array n e)) (fill p r).
Proof.
  intros Hm Hp Hs Hn Hlt. induction Hm as [d|c n Hm IH]; simpl in *.
  - rewrite Hp, Nat.eqb_refl. destruct (contract_value (d e) p Hs Hn Hlt) as (a & Ha & Hsh & Hv).
    exists a. split; [exact Ha|]. split; [exact Hsh|]. intros r Hr. rewrite Hv by exact Hr. lra.
  - rewrite (made_corr _ _ Hm), Hp, Nat.eqb_refl. destruct (IH Hs) as (a & Ha & Hsh & Hv).
    rewrite Ha. simpl. eexists. split; [reflexivity|]. split; [exact Hsh|]. intros r Hr. simpl in *. rewrite Hv by exact Hr. ring.
Qed.

Lemma forallb_none_map {X} (h : cf -> option X) cs c : In c cs -> is_some (h c) = true -> forallb is_none (map h cs) = false.
Proof.
  intros Hc Hs. destruct (forallb is_none (map h cs)) eqn:E; [|reflexivity].
  rewrite forallb_forall in E. specialize (E (h c) (in_map h cs c Hc)). unfold is_some in Hs. rewrite E in Hs. discriminate.
Qed.

Lemma eliminate_value s n (H : cf -> option cochain) g u :
  made (corr n) n -> NoDup (corr n) -> (length (corr n) < 14)%nat ->
  (forall e, In e (els s) -> shape (array n e) = map (fun c => nloc s (base c) e) (corr n)) ->
  In g (corr n) -> is_some (H g) = true -> In u (corr n) -> H u = None ->
  (forall e c v, In e (els s) -> In c (corr n) -> H c = Some v -> length (v e) = nloc s (base c) e) ->
  exists d, eliminate (els s) n (map H (corr n)) = Some (Arr d (filter (fun c => is_none (H c)) (corr n)) false) /\
    forall e, In e (els s) ->
      shape (d e) = map (fun c => nloc s (base c) e) (filter (fun c => is_none (H c)) (corr n)) /\
      forall rho, (forall c, In c (corr n) -> H c = None -> (rho c < nloc s (base c) e)%nat) ->
        at_ (d e) (map rho (filter (fun c => is_none (H c)) (corr n)))
        = factor n * mform (shape (array n e)) (at_ (array n e))
            (map (fun c => match H c with Some v => fun i => nth i (v e) 0 | None => delta (rho c) end) (corr n)).
Proof.
  intros Hm Hnd Hlt Hsh Hg Hg' Hu Hu' Hlen. unfold eliminate.
  set (cs := corr n) in *.
  rewrite (forallb_none_map H cs g Hg Hg'). rewrite map_length, Nat.eqb_refl. cbn [negb].
  set (h := fun e c => option_map (fun v : cochain => v e) (H c)).
  assert (Hat : forall e, at_element (map H cs) e = map (h e) cs) by (intros e; unfold at_element, h; rewrite map_map; reflexivity).
  assert (Hnone : forall e c, is_none (h e c) = is_none (H c)) by (intros e c; unfold h; destruct (H c); reflexivity).
  assert (Hfil : forall e, filter (fun c => is_none (h e c)) cs = filter (fun c => is_none (H c)) cs)
    by (intros e; apply filter_ext; intros c; apply Hnone).
  assert (Hcall : forall e, In e (els s) -> exists a, call n e (at_element (map H cs) e) = Some a /\
      shape a = map (fun c => nloc s (base c) e) (filter (fun c => is_none (H c)) cs) /\
      forall r, Forall2 lt r (shape a) -> at_ a r = factor n * mform (shape (array n e)) (at_ (array n e)) (fill (map (h e) cs) r)).
  { intros e He. rewrite Hat.
    destruct (call_value cs n e (map (h e) cs)) as (a & Ha & Hsa & Hv).
    - exact Hm.
    - apply map_length.
    - rewrite Hsh by exact He. apply sized_map. intros c v Hc Hv. unfold h in Hv.
      destruct (H c) as [w|] eqn:E; [|discriminate]. injection Hv as <-. apply Hlen; assumption.
    - apply (forallb_none_map (h e) cs g Hg). unfold is_some. rewrite Hnone. exact Hg'.
    - rewrite map_length. exact Hlt.
    - exists a. split; [exact Ha|]. split; [|exact Hv]. rewrite Hsa, Hsh by exact He. rewrite open_dims_map, Hfil. reflexivity. }
  assert (Hall : forallb (fun e => is_some (call n e (at_element (map H cs) e))) (els s) = true).
  { apply forallb_forall. intros e He. destruct (Hcall e He) as (a & Ha & _). rewrite Ha. reflexivity. }
  rewrite Hall. cbn [negb]. rewrite filter_left_over. unfold new_op.
  assert (Hin : In u (filter (fun c => is_none (H c)) cs)) by (apply filter_In; rewrite Hu'; auto).
  destruct (filter (fun c => is_none (H c)) cs) as [|c0 l0] eqn:Ef; [contradiction|]. rewrite <- Ef in *.
  rewrite objects_nodup by (apply NoDup_filter; exact Hnd).
  eexists. split; [reflexivity|]. intros e He. destruct (Hcall e He) as (a & Ha & Hsa & Hv).
  cbv beta. rewrite Ha. cbn [or_empty]. split; [exact Hsa|]. intros rho Hrho. rewrite Hv.
  - f_equal. f_equal. rewrite <- (Hfil e), fill_map. apply map_ext. intros c. unfold h. destruct (H c); reflexivity.
  - rewrite Hsa. apply below_map. intros c Hc. apply filter_In in Hc as [Hc Hc']. apply Hrho; [exact Hc|].
    destruct (H c); [discriminate|reflexivity].
Qed.

(** ** what is provided when a term is evaluated *)

Definition last_for (c : cf) (pairs : list (cf * cochain)) (acc : option cochain) : option cochain :=
  fold_left (fun acc fc => if cf_eqb (fst fc) c then Some (snd fc) else acc) pairs acc.
Lemma set_nth_map {X} (g : cf -> option X) f v cs : NoDup cs ->
  match cf_index f cs with Some k => set_nth (map g cs) k (Some v) | None => map g cs end
  = map (fun c => if cf_eqb f c then Some v else g c) cs.
Proof.
  induction cs as [|c cs IH]; simpl; intros Hn; [reflexivity|]. inversion Hn as [|? ? Hc Hn']; subst.
  destruct (cf_eqb f c) eqn:E.
  - f_equal. apply map_ext_in. intros d Hd. apply cf_eqb_eq in E. subst.
    rewrite (proj2 (cf_eqb_neq c d)); [reflexivity|]. intros ->. contradiction.
  - specialize (IH Hn'). destruct (cf_index f cs) as [k|]; simpl; rewrite <- IH; reflexivity.
Qed.
Lemma provide_map cs pairs : NoDup cs -> provide cs pairs = map (fun c => last_for c pairs None) cs.
Proof.
  intros Hn. unfold provide.
  assert (G : forall g, fold_left (fun p fc => match cf_index (fst fc) cs with Some k => set_nth p k (Some (snd fc)) | None => p end)
                pairs (map g cs) = map (fun c => last_for c pairs (g c)) cs).
  { induction pairs as [|[f v] pairs IH]; intros g; [reflexivity|]. cbn [fold_left last_for fst snd].
    rewrite (set_nth_map g f v cs Hn). rewrite IH. reflexivity. }
  replace (repeat None (length cs)) with (map (fun _ : cf => @None cochain) cs).
  - apply G.
  - clear. induction cs as [|c cs IH]; simpl; [reflexivity|]. rewrite IH. reflexivity.
Qed.
Lemma last_for_combine (F : cf -> cochain) us c : forall acc,
  last_for c (combine us (map F us)) acc = if cf_in c us then Some (F c) else acc.
Proof.
  induction us as [|d us IH]; intros acc; [reflexivity|]. cbn [map combine last_for fold_left fst snd].
  fold (last_for c (combine us (map F us)) (if cf_eqb d c then Some (F d) else acc)). rewrite IH.
  unfold cf_in. cbn [existsb]. fold (cf_in c us). rewrite (cf_eqb_sym d c). destruct (cf_eqb c d) eqn:E; [|reflexivity].
  apply cf_eqb_eq in E. subst. destruct (cf_in d us); reflexivity.
Qed.

(** ** what is known when a block is made *)

Lemma itm_cochains (F : cf -> cochain) us c : itm us (map F us) c = if cf_in c us then Some (F c) else None.
Proof.
  unfold itm. induction us as [|d us IH]; [reflexivity|]. cbn [cf_index map]. unfold cf_in. cbn [existsb]. fold (cf_in c us).
  destruct (cf_eqb c d) eqn:E; [apply cf_eqb_eq in E; subst; reflexivity|].
  rewrite orb_false_l. rewrite <- IH. destruct (cf_index c us); reflexivity.
Qed.
Lemma pick_skip p l l' : (forall kv, In kv l -> fst kv <> p) -> pick p (l ++ l') = pick p l'.
Proof.
  intros H. unfold pick. rewrite fold_left_app. f_equal.
  assert (G : forall acc, fold_left (fun acc kv => if (fst kv =? p)%nat then snd kv else acc) l acc = acc).
  { induction l as [|kv l IH]; intros acc; [reflexivity|]. cbn [fold_left].
    rewrite (proj2 (Nat.eqb_neq (fst kv) p)) by (apply H; left; reflexivity). apply IH. intros x Hx. apply H. right. exact Hx. }
  apply G.
Qed.
Lemma pick_stop p l l' : (forall kv, In kv l' -> fst kv <> p) -> pick p (l ++ l') = pick p l.
Proof.
  intros H. unfold pick. rewrite fold_left_app.
  generalize (fold_left (fun acc kv => if (fst kv =? p)%nat then snd kv else acc) l None).
  induction l' as [|kv l' IH]; intros acc; [reflexivity|]. cbn [fold_left].
  rewrite (proj2 (Nat.eqb_neq (fst kv) p)) by (apply H; left; reflexivity). apply IH. intros x Hx. apply H. right. exact Hx.
Qed.
Lemma known_ge us x test unk cs : forall k kv, In kv (known_from us x test unk k cs) -> (k <= fst kv)%nat.
Proof.
  induction cs as [|c cs IH]; intros k kv H; [contradiction|]. cbn [known_from] in H. apply in_app_or in H as [H|H].
  - destruct (cf_eqb c unk || cf_eqb c test); [contradiction|]. destruct H as [<-|[]]. simpl. lia.
  - apply IH in H. lia.
Qed.
Definition open (test unk c : cf) : bool := cf_eqb c unk || cf_eqb c test.
Lemma picks us x test unk cs : forall k,
  map (fun p => pick p (known_from us x test unk k cs)) (seq k (length cs))
  = map (fun c => if open test unk c then None else itm us x c) cs.
Proof.
  induction cs as [|c cs IH]; intros k; [reflexivity|]. cbn [length seq map known_from]. f_equal.
  - rewrite pick_stop by (intros kv Hkv; apply known_ge in Hkv; lia). unfold open.
    destruct (cf_eqb c unk || cf_eqb c test); [reflexivity|]. unfold pick. cbn. rewrite Nat.eqb_refl. reflexivity.
  - rewrite <- (IH (S k)). apply map_ext_in. intros p Hp. apply in_seq in Hp. apply pick_skip. intros kv Hkv.
    destruct (cf_eqb c unk || cf_eqb c test); [contradiction|]. destruct Hkv as [<-|[]]. simpl. lia.
Qed.
Lemma known_count us x test unk cs : forall k,
  (forall c, In c cs -> open test unk c = false -> is_some (itm us x c) = true) ->
  (count_none (map (fun c => if open test unk c then None else itm us x c) cs)
   + length (known_from us x test unk k cs) = length cs)%nat.
Proof.
  induction cs as [|c cs IH]; intros k H; [reflexivity|]. cbn [map known_from length]. rewrite app_length.
  specialize (IH (S k) (fun d Hd => H d (or_intror Hd))). unfold count_none in *. cbn [filter].
  specialize (H c (or_introl eq_refl)). unfold open in *.
  destruct (cf_eqb c unk || cf_eqb c test); cbn [is_none length] in *.
  - lia.
  - specialize (H eq_refl). unfold is_some in H. destruct (itm us x c); [|discriminate]. cbn [is_none length]. lia.
Qed.

Lemma open_two cs test unk : NoDup cs -> In test cs -> In unk cs -> test <> unk ->
  filter (open test unk) cs = [test; unk] \/ filter (open test unk) cs = [unk; test].
Proof.
  intros Hn Ht Hu Hne.
  assert (H0 : forall l, ~ In test l -> ~ In unk l -> filter (open test unk) l = []).
  { induction l as [|c l IH]; intros H1 H2; [reflexivity|]. cbn [filter]. unfold open at 1.
    rewrite (proj2 (cf_eqb_neq c unk)), (proj2 (cf_eqb_neq c test)) by (intros ->; simpl in *; tauto).
    apply IH; simpl in *; tauto. }
  assert (H1 : forall l y z, (y = test /\ z = unk) \/ (y = unk /\ z = test) -> NoDup l -> In z l -> ~ In y l ->
               filter (open test unk) l = [z]).
  { intros l y z Hyz. induction l as [|c l IH]; intros Hd Hz Hy; [contradiction|]. inversion Hd as [|? ? Hc Hd']; subst.
    cbn [filter]. destruct (cf_dec c z) as [->|Hcz].
    - assert (E : open test unk z = true).
      { unfold open. destruct Hyz as [[-> ->]|[-> ->]]; rewrite cf_eqb_refl, ?orb_true_r; reflexivity. }
      rewrite E. f_equal. apply H0; destruct Hyz as [[-> ->]|[-> ->]]; simpl in *; tauto.
    - destruct Hz as [Hz|Hz]; [congruence|].
      assert (E : open test unk c = false).
      { unfold open. apply orb_false_iff. destruct Hyz as [[-> ->]|[-> ->]]; split; apply cf_eqb_neq; intros ->; simpl in *; tauto. }
      rewrite E. apply IH; [exact Hd'|exact Hz|]. simpl in Hy. tauto. }
  induction cs as [|c cs IH]; [contradiction|]. inversion Hn as [|? ? Hc Hn']; subst. cbn [filter].
  destruct (cf_dec c test) as [->|Hct]; [|destruct (cf_dec c unk) as [->|Hcu]].
  - left. unfold open at 1. rewrite cf_eqb_refl, orb_true_r. f_equal. apply (H1 cs test unk); auto.
    destruct Hu; [congruence|assumption].
  - right. unfold open at 1. rewrite cf_eqb_refl. cbn [orb]. f_equal. apply (H1 cs unk test); auto.
    destruct Ht; [congruence|assumption].
  - assert (E : open test unk c = false)
      by (unfold open; rewrite (proj2 (cf_eqb_neq c unk) Hcu), (proj2 (cf_eqb_neq c test) Hct); reflexivity).
    rewrite E. destruct Ht as [Ht|Ht]; [congruence|]. destruct Hu as [Hu|Hu]; [congruence|]. apply IH; assumption.
Qed.

Lemma cfs_eqb_refl l : cfs_eqb l l = true.
Proof.
  unfold cfs_eqb. rewrite Nat.eqb_refl. cbn [andb]. apply forallb_forall. intros [a c] H.
  induction l as [|d l IH]; [contradiction|]. destruct H as [H|H]; [injection H as <- <-; apply cf_eqb_refl|auto].
Qed.

Lemma filter_all {X} (f : X -> bool) l : (forall a, In a l -> f a = true) -> filter f l = l.
Proof. induction l as [|a l IH]; simpl; intros H; [reflexivity|]. rewrite H by auto. f_equal. apply IH. auto. Qed.
Lemma filter_one (f : cf -> bool) u l : NoDup l -> In u l -> (forall c, In c l -> f c = true <-> c = u) -> filter f l = [u].
Proof.
  intros Hn Hu Hf. induction l as [|c l IH]; [contradiction|]. inversion Hn as [|? ? Hc Hn']; subst. cbn [filter].
  destruct (f c) eqn:E.
  - apply Hf in E; [|left; reflexivity]. subst. f_equal.
    rewrite (filter_ext_in f (fun _ => false)); [clear; induction l; simpl; auto|].
    intros d Hd. destruct (f d) eqn:E; [|reflexivity]. apply Hf in E; [|right; exact Hd]. subst. contradiction.
  - destruct Hu as [->|Hu].
    + rewrite (proj2 (Hf u (or_introl eq_refl)) eq_refl) in E. discriminate.
    + apply IH; [exact Hn'|exact Hu|]. intros d Hd. apply Hf. right. exact Hd.
Qed.
Lemma some_other cs test unk : NoDup cs -> In test cs -> In unk cs -> test <> unk -> (3 <= length cs)%nat ->
  exists g, In g cs /\ open test unk g = false.
Proof.
  intros Hn Ht Hu Hne Hl. destruct (existsb (fun c => negb (open test unk c)) cs) eqn:E.
  - apply existsb_exists in E as (g & Hg & E). exists g. split; [exact Hg|]. destruct (open test unk g); [discriminate|reflexivity].
  - assert (A : filter (open test unk) cs = cs).
    { apply filter_all. intros a Ha. destruct (open test unk a) eqn:F; [reflexivity|].
      assert (existsb (fun c => negb (open test unk c)) cs = true) by (apply existsb_exists; exists a; rewrite F; auto). congruence. }
    destruct (open_two cs test unk Hn Ht Hu Hne) as [B|B]; rewrite A in B; subst; simpl in Hl; lia.
Qed.
Lemma nth_cochain s X c e i : (i < nloc s (base c) e)%nat -> nth i (cochain_of s X c e) 0 = X c e i.
Proof.
  intros H. unfold cochain_of. rewrite nth_indep with (d' := X c e 0%nat) by (rewrite map_length, seq_length; exact H).
  rewrite map_nth, seq_nth by exact H. reflexivity.
Qed.
Lemma cochain_length s X c e : length (cochain_of s X c e) = nloc s (base c) e.
Proof. unfold cochain_of. rewrite map_length, seq_length. reflexivity. Qed.
Lemma gen_not_copy s i c : good s -> (i < n0 s)%nat -> In c (uks s) -> c <> tests s i.
Proof. intros (_ & _ & _ & Hc & Ht & _) Hi Hin. destruct (Hc c Hin) as (f & t & ->). destruct (Ht i Hi) as (g & ->). discriminate. Qed.

Lemma evaluate_value s i n X : good s -> (i < n0 s)%nat -> good_term s i n ->
  exists d, evaluate (els s) n (combine (uks s) (cochains s X)) = Some d /\
    forall e, In e (els s) -> shape (d e) = [nrow s i e] /\
      forall a, (a < nrow s i e)%nat -> at_ (d e) [a] = tested s i e a (fun c => X c e) n.
Proof.
  intros Hs Hi (Hm & Hnd & Ht & Hc & Hl & Hsh). unfold evaluate. rewrite provide_map by exact Hnd.
  unfold cochains.
  rewrite (map_ext _ (fun c => if cf_in c (uks s) then Some (cochain_of s X c) else None))
    by (intros c; apply (last_for_combine (cochain_of s X))).
  assert (Hdec : forall c, In c (corr n) -> cf_in c (uks s) = negb (cf_eqb c (tests s i))).
  { intros c Hin. destruct (cf_eqb c (tests s i)) eqn:E; cbn [negb].
    - apply cf_eqb_eq in E. subst. apply cf_in_false. intros Hu. apply (gen_not_copy s i _ Hs Hi Hu). reflexivity.
    - apply cf_in_In. apply cf_eqb_neq in E. destruct (Hc c Hin); [contradiction|assumption]. }
  assert (Hg : exists g, In g (corr n) /\ g <> tests s i).
  { destruct (corr n) as [|a [|c l]]; simpl in Hl; try lia. destruct (cf_dec a (tests s i)) as [->|Ha].
    - exists c. split; [right; left; reflexivity|]. inversion Hnd as [|? ? Hn' _]; subst. intros ->. apply Hn'. left. reflexivity.
    - exists a. split; [left; reflexivity|exact Ha]. }
  destruct Hg as (g & Hg & Hgt).
  set (H := fun c => if cf_in c (uks s) then Some (cochain_of s X c) else None).
  destruct (eliminate_value s n H g (tests s i) Hm Hnd ltac:(lia) Hsh Hg) as (d & Hd & Hv).
  - unfold H. rewrite Hdec by exact Hg. rewrite (proj2 (cf_eqb_neq _ _) Hgt). reflexivity.
  - exact Ht.
  - unfold H. rewrite Hdec by exact Ht. rewrite cf_eqb_refl. reflexivity.
  - intros e c v _ _ E. unfold H in E. destruct (cf_in c (uks s)); [|discriminate]. injection E as <-. apply cochain_length.
  - rewrite Hd. exists d. split; [reflexivity|]. intros e He. specialize (Hv e He) as [Hse Hve].
    assert (Hf : filter (fun c => is_none (H c)) (corr n) = [tests s i]).
    { apply filter_one; [exact Hnd|exact Ht|]. intros c Hin. unfold H. rewrite Hdec by exact Hin.
      destruct (cf_eqb c (tests s i)) eqn:E; cbn.
      - apply cf_eqb_eq in E. tauto.
      - apply cf_eqb_neq in E. split; [discriminate|contradiction]. }
    rewrite Hf in *. split; [exact Hse|]. intros a Ha. specialize (Hve (fun _ => a)). cbn [map] in Hve. rewrite Hve.
    + unfold tested. f_equal. apply mform_ext. rewrite Hsh by exact He. apply agree_map. intros c k Hin Hk.
      unfold H. rewrite Hdec by exact Hin. destruct (cf_eqb c (tests s i)) eqn:E; cbn [negb]; [reflexivity|].
      apply nth_cochain. exact Hk.
    + intros c Hin Hn. unfold H in Hn. rewrite Hdec in Hn by exact Hin. destruct (cf_eqb c (tests s i)) eqn:E; [|discriminate].
      apply cf_eqb_eq in E. subst. exact Ha.
Qed.

Lemma block_value s i n X unk : good s -> (i < n0 s)%nat -> good_term s i n -> In unk (uks s) -> In unk (corr n) ->
  exists m, derivative_contribution (els s) n (tests s i) unk (known_from (uks s) (cochains s X) (tests s i) unk 0 (corr n))
            = Some (Some m) /\
    forall e, In e (els s) -> exists M, mdata m e = Some M /\ rows M = nrow s i e /\ cols M = nloc s (base unk) e /\
      forall a k, (a < nrow s i e)%nat -> (k < nloc s (base unk) e)%nat ->
        ent M a k = tested s i e a (fun c => if cf_eqb c unk then delta k else X c e) n.
Proof.
  intros Hs Hi (Hm & Hnd & Ht & Hc & Hl & Hsh) Huk Hu.
  pose proof (gen_not_copy s i unk Hs Hi Huk) as Hne. set (test := tests s i) in *.
  unfold derivative_contribution. rewrite (made_direct _ _ Hm), (proj2 (cf_in_In _ _) Ht), (proj2 (cf_in_In _ _) Hu).
  cbn [negb]. cbv zeta. rewrite picks.
  assert (Hit : forall c, In c (corr n) -> open test unk c = false -> itm (uks s) (cochains s X) c = Some (cochain_of s X c)).
  { intros c Hin Ho. unfold cochains. rewrite itm_cochains. rewrite (proj2 (cf_in_In c (uks s))); [reflexivity|].
    destruct (Hc c Hin) as [->|]; [|assumption]. unfold open in Ho. rewrite cf_eqb_refl, orb_true_r in Ho. discriminate. }
  rewrite known_count.
  2:{ intros c Hin Ho. rewrite (Hit c Hin Ho). reflexivity. }
  rewrite Nat.eqb_refl. cbn [negb].
  set (H := fun c => if open test unk c then None else itm (uks s) (cochains s X) c).
  destruct (some_other (corr n) test unk Hnd Ht Hu ltac:(congruence) ltac:(lia)) as (g & Hg & Hgo).
  assert (Hot : open test unk test = true) by (unfold open; rewrite cf_eqb_refl, orb_true_r; reflexivity).
  destruct (eliminate_value s n H g test Hm Hnd ltac:(lia) Hsh Hg) as (d & Hd & Hv).
  - unfold H. rewrite Hgo, (Hit g Hg Hgo). reflexivity.
  - exact Ht.
  - unfold H. rewrite Hot. reflexivity.
  - intros e c v _ Hin E. unfold H in E. destruct (open test unk c) eqn:Eo; [discriminate|].
    rewrite (Hit c Hin Eo) in E. injection E as <-. apply cochain_length.
  - rewrite Hd. cbn [corr].
    assert (Hf : filter (fun c => is_none (H c)) (corr n) = filter (open test unk) (corr n)).
    { apply filter_ext_in. intros c Hin. unfold H. destruct (open test unk c) eqn:Eo; [reflexivity|].
      rewrite (Hit c Hin Eo). reflexivity. }
    rewrite Hf in *.
    assert (Hval : forall e, In e (els s) -> forall a k, (a < nrow s i e)%nat -> (k < nloc s (base unk) e)%nat ->
      at_ (d e) (map (fun c => if cf_eqb c unk then k else a) (filter (open test unk) (corr n)))
      = tested s i e a (fun c => if cf_eqb c unk then delta k else X c e) n).
    { intros e He a k Ha Hk. destruct (Hv e He) as [_ Hve]. rewrite Hve.
      - unfold tested. f_equal. apply mform_ext. rewrite Hsh by exact He. apply agree_map. intros c l Hin Hlt. fold test.
        unfold H, open. destruct (cf_eqb c test) eqn:E1.
        + apply cf_eqb_eq in E1. subst. rewrite orb_true_r, (proj2 (cf_eqb_neq test unk)) by congruence. reflexivity.
        + destruct (cf_eqb c unk) eqn:E2; cbn [orb]; [reflexivity|].
          rewrite (Hit c Hin) by (unfold open; rewrite E1, E2; reflexivity). apply nth_cochain. exact Hlt.
      - intros c Hin Hnone. unfold H in Hnone. destruct (open test unk c) eqn:Eo.
        + unfold open in Eo. destruct (cf_eqb c unk) eqn:E2; [apply cf_eqb_eq in E2; subst; exact Hk|].
          cbn [orb] in Eo. apply cf_eqb_eq in Eo. subst. exact Ha.
        + rewrite (Hit c Hin Eo) in Hnone. discriminate. }
    destruct (open_two (corr n) test unk Hnd Ht Hu ltac:(congruence)) as [E|E]; rewrite E in *.
    + rewrite cfs_eqb_refl. cbn [matrix corr option_map]. eexists. split; [reflexivity|].
      intros e He. destruct (Hv e He) as [Hse _]. cbn [mdata]. cbn [call length Nat.eqb]. unfold contract. cbn [forallb is_none andb].
      unfold dense. cbn [map] in Hse. rewrite Hse. eexists. split; [reflexivity|]. cbn [rows cols ent].
      split; [reflexivity|]. split; [reflexivity|]. intros a k Ha Hk. rewrite <- (Hval e He a k Ha Hk). cbn [map].
      rewrite cf_eqb_refl, (proj2 (cf_eqb_neq test unk)) by congruence. reflexivity.
    + assert (Ec : cfs_eqb [unk; test] [test; unk] = false).
      { unfold cfs_eqb. cbn. rewrite (proj2 (cf_eqb_neq unk test)) by congruence. reflexivity. }
      rewrite Ec, cfs_eqb_refl. cbn [matrix corr option_map]. eexists. split; [reflexivity|].
      intros e He. destruct (Hv e He) as [Hse _]. cbn [mdata]. cbn [call length Nat.eqb]. unfold contract. cbn [forallb is_none andb].
      unfold dense. cbn [map] in Hse. rewrite Hse. eexists. split; [reflexivity|]. cbn [rows cols ent].
      split; [reflexivity|]. split; [reflexivity|]. intros a k Ha Hk. rewrite <- (Hval e He a k Ha Hk). cbn [map].
      rewrite cf_eqb_refl, (proj2 (cf_eqb_neq test unk)) by congruence. reflexivity.
Qed.
