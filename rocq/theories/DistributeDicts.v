(** Proofs about what the ranks get, meshes read from files, and renumbering. *)
From Coq Require Import List Arith QArith Bool Lia Permutation Sorted.
From Verif Require Import Dict DistributeModel DistributeSpec DistributeThms.
Import ListNotations.
Local Open Scope nat_scope.

Lemma Forall2_in_r {A B} (R : A -> B -> Prop) l l' : Forall2 R l l' -> forall b, In b l' -> exists a, In a l /\ R a b.
Proof. induction 1; simpl; [tauto|]. intros b [<-|Hb]; [eauto|]. destruct (IHForall2 b Hb) as (a & ? & ?). eauto. Qed.
Lemma Forall2_in_l {A B} (R : A -> B -> Prop) l l' : Forall2 R l l' -> forall a, In a l -> exists b, In b l' /\ R a b.
Proof. induction 1; simpl; [tauto|]. intros b [<-|Hb]; [eauto|]. destruct (IHForall2 b Hb) as (a & ? & ?). eauto. Qed.

Lemma Forall2_len {A B} (R : A -> B -> Prop) l l' : Forall2 R l l' -> length l = length l'.
Proof. induction 1; simpl; auto. Qed.

Section Parts.
  Context {K : Type} (eqb : K -> K -> bool) (dist : K -> K -> Q).
  Context (D : decides eqb).

  Lemma pick_from {V : Type} (d : dict K V) es : forall acc, NoDup es -> (forall e, In e es -> In e (keys d)) -> (forall e, In e es -> ~ In e (keys acc)) ->
    exists t, fold_left (fun acc e => match acc, get eqb d e with Some t, Some v => Some (put eqb t e v) | _, _ => None end) es (Some acc) = Some t /\
      keys t = keys acc ++ es /\ forall e, get eqb t e = if mem eqb e es then get eqb d e else get eqb acc e.
  Proof.
    induction es as [|x es IH]; intros acc N I F; simpl.
    - exists acc. rewrite app_nil_r. auto.
    - inversion N as [|? ? Nx N']; subst. destruct (proj1 (get_keys eqb D d x) (I x (or_introl eq_refl))) as [v E]. rewrite E.
      destruct (IH (put eqb acc x v) N') as (t & A & B & C).
      + intros e He. apply I. now right.
      + intros e He. rewrite (in_keys_put eqb D). intros [->|C]; [contradiction|]. apply (F e); auto. now right.
      + exists t. split; auto. rewrite (keys_put_out eqb D) in B by (apply F; now left). rewrite <- app_assoc in B. split; auto.
        intros e. rewrite C. unfold mem. simpl. rewrite (get_put eqb D). destruct (eqb e x) eqn:Ex; simpl.
        * apply D in Ex as ->. rewrite E. now destruct (existsb (eqb x) es).
        * reflexivity.
  Qed.
  Lemma pick_ok {V : Type} (d : dict K V) es : NoDup es -> (forall e, In e es -> In e (keys d)) -> exists t, pick eqb d es = Some t /\ restriction eqb d es t.
  Proof.
    intros N I. destruct (pick_from d es [] N I) as (t & A & B & C); [simpl; tauto|]. exists t. split; auto. split; auto.
    intros e He. rewrite C. apply (mem_in eqb D) in He. now rewrite He.
  Qed.

  Lemma distinct_in l e : In e (distinct eqb l) <-> In e l.
  Proof.
    induction l as [|x l IH]; simpl; [tauto|]. destruct (existsb (eqb x) l) eqn:E; simpl; rewrite IH; [|tauto].
    split; auto. intros [<-|H]; auto. now apply (mem_in eqb D).
  Qed.
  Lemma distinct_nodup l : NoDup l -> distinct eqb l = l.
  Proof.
    induction 1 as [|x l N H IH]; simpl; auto. destruct (existsb (eqb x) l) eqn:E; [|congruence]. apply (mem_in eqb D) in E. contradiction.
  Qed.

  Lemma all_some_map {A B : Type} (f : A -> option B) l (R : A -> B -> Prop) : (forall a, In a l -> exists b, f a = Some b /\ R a b) ->
    exists r, all_some (map f l) = Some r /\ Forall2 R l r.
  Proof.
    induction l as [|a l IH]; intros H; simpl; [exists []; auto|]. destruct (H a (or_introl eq_refl)) as (b & -> & Hb).
    destruct IH as (r & -> & F); [intros; apply H; now right|]. exists (b :: r). auto.
  Qed.

  Context {T P M : Type}.
  Implicit Types (ty : dict K T) (pa : dict K P) (mp : dict K M) (ds : list (list K)).

  Definition good_part ty pa mp (d : list K) (q : dict K T * dict K P * dict K M) : Prop :=
    let '(t, p, m) := q in restriction eqb ty d t /\ restriction eqb pa d p /\ restriction eqb mp d m.

  Lemma ranks_perm size mani ks mks ds : 2 <= size -> NoDup ks -> Permutation ks mks -> ranks eqb dist size mani ks mks = Some ds ->
    length ds = size /\ Permutation (concat ds) ks /\ Forall (fun d => d <> []) ds.
  Proof.
    intros H N PP. unfold ranks. destruct (Nat.ltb_spec (length ks) size); [discriminate|].
    destruct (Nat.eqb_spec (length ks) size) as [E|E].
    - intros [= <-]. rewrite map_length. split; auto. split.
      + clear. induction ks; simpl; auto.
      + apply Forall_forall. intros d Hd. apply in_map_iff in Hd as (e & <- & _). discriminate.
    - destruct mani.
      + intros R. apply manifold_spec in R as (A & B & C); [|lia]. subst ks. auto.
      + intros R. apply (naive_spec eqb dist D) in R as (A & B & C); [|eapply Permutation_NoDup; eauto]. split; auto. split; auto. now rewrite B, PP.
  Qed.

  Lemma parts_ok ty pa mp ds : NoDup (keys ty) -> Permutation (keys ty) (keys pa) -> Permutation (keys ty) (keys mp) -> Permutation (concat ds) (keys ty) ->
    exists parts, all_some (map (fun d => match pick eqb ty d, pick eqb pa d, pick eqb mp d with Some t, Some p, Some m => Some (t, p, m) | _, _, _ => None end) ds) = Some parts /\
      Forall2 (good_part ty pa mp) ds parts /\ checked eqb ds parts ty pa mp = true.
  Proof.
    intros N Pp Pm Pd. assert (Nc : NoDup (concat ds)) by (eapply Permutation_NoDup; [symmetry; exact Pd|auto]).
    assert (Nd : forall d, In d ds -> NoDup d).
    { revert Nc. clear. induction ds as [|y l IH]; simpl; [tauto|]. intros Nc d [<-|Hd]; apply NoDup_app_inv' in Nc as (A & B & C); auto. }
    assert (Id : forall d e, In d ds -> In e d -> In e (keys ty)).
    { intros d e Hd He. apply (Permutation_in _ Pd). apply in_concat. eauto. }
    destruct (all_some_map (fun d => match pick eqb ty d, pick eqb pa d, pick eqb mp d with Some t, Some p, Some m => Some (t, p, m) | _, _, _ => None end)
                ds (good_part ty pa mp)) as (parts & A & F).
    { intros d Hd. destruct (pick_ok ty d (Nd d Hd)) as (t & -> & Rt); [intros e He; exact (Id d e Hd He)|].
      destruct (pick_ok pa d (Nd d Hd)) as (p & -> & Rp); [intros e He; apply (Permutation_in _ Pp); eauto|].
      destruct (pick_ok mp d (Nd d Hd)) as (m & -> & Rm); [intros e He; apply (Permutation_in _ Pm); eauto|]. exists (t, p, m). repeat split; auto; try apply Rt; try apply Rp; apply Rm. }
    exists parts. split; auto. split; auto. unfold checked. rewrite (distinct_nodup _ Nc).
    apply andb_true_iff. split.
    - clear A Pd Id. revert Nd. clear Nc. induction F as [|d [[t p] m] l l' G F IH]; intros Nd; [reflexivity|]. cbn [combine forallb].
      rewrite IH by (intros; apply Nd; now right). rewrite andb_true_r. destruct G as ((Kt & _) & (Kp & _) & (Km & _)). rewrite (distinct_nodup d) by (apply Nd; now left).
      assert (Lt : length t = length d) by (rewrite <- Kt; symmetry; apply map_length).
      assert (Lp : length p = length d) by (rewrite <- Kp; symmetry; apply map_length).
      assert (Lm : length m = length d) by (rewrite <- Km; symmetry; apply map_length).
      rewrite Lt, Lp, Lm, Nat.eqb_refl. simpl. apply forallb_forall. intros i Hi.
      rewrite (proj2 (has_spec eqb D t i)), (proj2 (has_spec eqb D p i)), (proj2 (has_spec eqb D m i)); auto; congruence.
    - rewrite (Permutation_length Pd). 
      assert (Lt : length (keys ty) = length ty) by apply map_length.
      assert (Lp : length (keys ty) = length pa) by (rewrite (Permutation_length Pp); apply map_length).
      assert (Lm : length (keys ty) = length mp) by (rewrite (Permutation_length Pm); apply map_length).
      rewrite <- Lp, <- Lm, <- Lt, !Nat.eqb_refl, !andb_true_r. apply forallb_forall. intros i Hi. apply (Permutation_in _ Pd) in Hi.
      rewrite (proj2 (has_spec eqb D ty i) Hi), (proj2 (has_spec eqb D pa i)), (proj2 (has_spec eqb D mp i)); auto.
      + apply (Permutation_in _ Pm Hi).
      + apply (Permutation_in _ Pp Hi).
  Qed.

  Lemma distribute_spec size mani ty pa mp ds parts : 1 <= size -> ty <> [] -> NoDup (keys ty) -> Permutation (keys ty) (keys pa) -> Permutation (keys ty) (keys mp) ->
    distribute eqb dist size mani ty pa mp = Some (ds, parts) ->
    dealt size (keys ty) ds /\ length parts = size /\
    forall r t p m, nth_error parts r = Some (t, p, m) -> 
      Permutation (nth r ds []) (keys t) /\ Permutation (keys t) (keys p) /\ Permutation (keys t) (keys m) /\
      forall e, In e (nth r ds []) -> get eqb t e = get eqb ty e /\ get eqb p e = get eqb pa e /\ get eqb m e = get eqb mp e.
  Proof.
    intros H Ne N Pp Pm. unfold distribute. destruct (Nat.eqb_spec size 1) as [->|H1].
    - intros [= <- <-]. split; [|split; auto].
      + apply dealt_perm; auto.
        * simpl. now rewrite app_nil_r.
        * constructor; auto. destruct ty; [contradiction|discriminate].
      + intros [|[|r]] t p m; simpl; try discriminate. intros [= <- <- <-]. split; [reflexivity|]. auto.
    - destruct (ranks eqb dist size mani (keys ty) (keys mp)) as [ds0|] eqn:R; [|discriminate].
      destruct (ranks_perm size mani (keys ty) (keys mp) ds0) as (A & B & C); auto; [lia|].
      destruct (parts_ok ty pa mp ds0 N Pp Pm B) as (parts0 & E & F & Ck). rewrite E, Ck. intros [= <- <-].
      split; [now apply dealt_perm|]. split; [rewrite <- A; symmetry; eapply Forall2_len; eauto|].
      intros r t p m Hr. assert (G : good_part ty pa mp (nth r ds0 []) (t, p, m)).
      { clear -F Hr. revert r Hr. induction F; intros [|r] Hr; simpl in *; try discriminate; auto. now injection Hr as ->. }
      destruct G as ((Kt & Gt) & (Kp & Gp) & (Km & Gm)). rewrite Kt, Kp, Km. repeat split; auto.
  Qed.
  Lemma distribute_total size (mani : bool) ty pa mp : 1 <= size -> NoDup (keys ty) -> Permutation (keys ty) (keys pa) -> Permutation (keys ty) (keys mp) ->
    size <= length ty ->
    (mani = true -> length ty <= 4 * size \/ (size - 1) * (3 * (size - 1) + 1) < 3 * length ty) ->
    exists r, distribute eqb dist size mani ty pa mp = Some r.
  Proof.
    intros H N Pp Pm L Hm. unfold distribute. destruct (Nat.eqb_spec size 1) as [->|H1]; [eauto|].
    assert (Lk : length (keys ty) = length ty) by apply map_length.
    assert (R : exists ds, ranks eqb dist size mani (keys ty) (keys mp) = Some ds).
    { unfold ranks. rewrite Lk. destruct (Nat.ltb_spec (length ty) size); [lia|]. destruct (length ty =? size); [eauto|]. destruct mani.
      - destruct (le_lt_dec (length ty) (4 * size)) as [S|S].
        + apply manifold_small; lia.
        + destruct (Hm eq_refl) as [C|C]; [lia|]. apply manifold_large; lia.
      - apply (naive_total eqb dist D); [lia| |].
        + eapply Permutation_NoDup; eauto.
        + rewrite <- (Permutation_length Pm). lia. }
    destruct R as [ds R]. rewrite R. destruct (ranks_perm size mani (keys ty) (keys mp) ds) as (A & B & C); auto; [lia|].
    destruct (parts_ok ty pa mp ds N Pp Pm B) as (parts0 & E & F & Ck). rewrite E, Ck. eauto.
  Qed.
  Lemma distribute_few size mani ty pa mp : length ty < size -> size <> 1 -> distribute eqb dist size mani ty pa mp = None.
  Proof.
    intros H H1. unfold distribute. destruct (Nat.eqb_spec size 1); [contradiction|]. unfold ranks, keys. rewrite map_length.
    destruct (Nat.ltb_spec (length ty) size); [reflexivity|lia].
  Qed.
  Lemma distribute_piles_fail size ty pa mp : 9 <= size -> length ty = 4 * size + 1 -> distribute eqb dist size true ty pa mp = None.
  Proof.
    intros H L. unfold distribute. destruct (Nat.eqb_spec size 1); [lia|]. unfold ranks, keys. rewrite map_length.
    destruct (Nat.ltb_spec (length ty) size); [lia|]. destruct (Nat.eqb_spec (length ty) size); [lia|].
    rewrite manifold_fails; auto. rewrite map_length. auto.
  Qed.

  (** * meshes read from files *)
  Lemma vtu_spec size ty mp ds parts : 1 <= size -> NoDup (keys ty) -> Permutation (keys ty) (keys mp) -> vtu_distribute eqb dist size ty mp = Some (ds, parts) ->
    dealt size (keys ty) ds /\ length parts = size /\
    forall r t m, nth_error parts r = Some (t, m) -> keys t = nth r ds [] /\ keys m = nth r ds [] /\
      forall e, In e (nth r ds []) -> get eqb t e = get eqb ty e /\ get eqb m e = get eqb mp e.
  Proof.
    intros H N Pm. unfold vtu_distribute.
    assert (Lk : length (keys ty) = length ty) by apply map_length.
    assert (Lm : length (keys mp) = length ty) by (rewrite <- (Permutation_length Pm); auto).
    set (o := if length ty <? size then None else _). 
    assert (Ho : forall d, o = Some d -> length d = size /\ Permutation (concat d) (keys ty)).
    { intros d. unfold o. destruct (length ty <? size); [discriminate|]. destruct (Nat.eqb_spec size 1) as [->|H1].
      - intros [= <-]. simpl. rewrite app_nil_r. auto.
      - destruct (Nat.eqb_spec size (length ty)) as [E|E].
        + intros [= <-]. rewrite map_length. split; [congruence|]. rewrite Pm. clear. induction (keys mp); simpl; auto.
        + intros V. apply (vtu_balls_spec eqb dist D) in V as [A B]; [|eapply Permutation_NoDup; eauto]. split; auto. now rewrite B, Pm. }
    destruct o as [d|]; [|discriminate]. destruct (Ho d eq_refl) as [A B]. destruct (forallb _ d) eqn:F; [|discriminate]. apply nonempty_forallb in F.
    assert (Nc : NoDup (concat d)) by (eapply Permutation_NoDup; [symmetry; exact B|auto]).
    assert (Nd : forall x, In x d -> NoDup x).
    { revert Nc. clear. induction d as [|y l IH]; simpl; [tauto|]. intros Nc d [<-|Hd]; apply NoDup_app_inv' in Nc as (A & B & C); auto. }
    assert (Id : forall x e, In x d -> In e x -> In e (keys ty)).
    { intros x e Hd He. apply (Permutation_in _ B). apply in_concat. eauto. }
    destruct (all_some_map (fun x => match pick eqb mp x, pick eqb ty x with Some m, Some t => Some (t, m) | _, _ => None end)
                d (fun x q => restriction eqb ty x (fst q) /\ restriction eqb mp x (snd q))) as (q & E & G).
    { intros x Hx. destruct (pick_ok mp x (Nd x Hx)) as (m & -> & Rm); [intros e He; apply (Permutation_in _ Pm); eauto|].
      destruct (pick_ok ty x (Nd x Hx)) as (t & -> & Rt); [intros e He; exact (Id x e Hx He)|]. exists (t, m). auto. }
    rewrite E. intros [= <- <-]. split; [now apply dealt_perm|]. split; [rewrite <- A; symmetry; eapply Forall2_len; eauto|].
    intros r t m Hr. assert (GG : restriction eqb ty (nth r d []) t /\ restriction eqb mp (nth r d []) m).
    { clear -G Hr. revert r Hr. induction G; intros [|r] Hr; simpl in *; try discriminate; auto. now injection Hr as ->. }
    destruct GG as ((Kt & Gt) & (Km & Gm)). auto.
  Qed.

  Lemma balls_app sh n rem ds r : balls eqb dist (sh ++ [n]) rem = (ds, r) -> 
    exists ds' r', balls eqb dist sh rem = (ds', r') /\ ds = ds' ++ [ball dist n r'].
  Proof.
    revert rem ds r. induction sh as [|a sh IH]; intros rem ds r; cbn [balls app].
    - intros [= <- <-]. exists [], rem. auto.
    - destruct (balls eqb dist (sh ++ [n]) (remove_all eqb rem (ball dist a rem))) as [ds1 r1] eqn:E. intros [= <- <-].
      destruct (IH _ _ _ E) as (ds' & r' & -> & ->). eexists _, _. split; reflexivity.
  Qed.
  (** the ranks take at least one element more than their share: nothing is left for the last one *)
  Lemma vtu_last_empty size ty mp sh : 2 <= size -> NoDup (keys ty) -> Permutation (keys ty) (keys mp) -> size <> length ty ->
    shares size (length ty) = Some sh -> nth (size - 1) sh 0 < size -> vtu_distribute eqb dist size ty mp = None.
  Proof.
    intros H N Pm Hs Sh L. unfold vtu_distribute. assert (Lm : length (keys mp) = length ty) by (rewrite <- (Permutation_length Pm); apply map_length).
    destruct (length ty <? size); auto. destruct (Nat.eqb_spec size 1); [lia|]. destruct (Nat.eqb_spec size (length ty)); [contradiction|].
    unfold vtu_balls. rewrite Lm, Sh. pose proof (shares_sum _ _ _ Sh) as [Ls Ss]. rewrite Ss, Nat.eqb_refl.
    destruct (balls eqb dist sh (keys mp)) as [ds r] eqn:B. destruct (_ && _); auto.
    replace (forallb _ ds) with false; auto. symmetry. apply not_true_is_false. intros F. apply nonempty_forallb in F.
    destruct (exists_last (l := sh)) as (sh' & z & ->); [intros ->; simpl in Ls; lia|]. rewrite app_length in Ls. simpl in Ls.
    rewrite app_nth2 in L by lia. replace (size - 1 - length sh') with 0 in L by lia. simpl in L. rewrite list_sum_app' in Ss. simpl in Ss.
    apply balls_app in B as (ds' & r' & B & ->). apply (balls_spec eqb dist D) in B as (A & PP & C); [|eapply Permutation_NoDup; eauto].
    rewrite sum_S in C. assert (r' = []) as -> by (destruct C as [C|C]; [exact C|]; apply length_zero_iff_nil; lia). apply Forall_app in F as [_ F]. inversion F; subst. simpl in *. congruence.
  Qed.
  Lemma split_last x n l : split x n = Some l -> 0 < n -> n * nth (n - 1) l 0 < x + n.
  Proof.
    intros E H. apply split_shape in E as (a & b & p & -> & E1 & E2). destruct b as [|b].
    - rewrite app_nil_r. rewrite nth_indep with (d' := p) by (rewrite repeat_length; lia). rewrite nth_repeat. nia.
    - rewrite app_nth2 by (rewrite repeat_length; lia). rewrite repeat_length. rewrite nth_indep with (d' := p + 1) by (rewrite repeat_length; lia). rewrite nth_repeat. nia.
  Qed.
  Lemma vtu_few size ty mp : 5 <= size -> NoDup (keys ty) -> Permutation (keys ty) (keys mp) -> size < length ty < 4 * size -> vtu_distribute eqb dist size ty mp = None.
  Proof.
    intros H N Pm [L1 L2]. destruct (shares_total size (length ty)) as [sh E]; [lia|].
    apply (vtu_last_empty size ty mp sh); auto; try lia. unfold shares in E. destruct (split (length ty) size) as [rn|] eqn:Es; [|discriminate].
    destruct (Nat.ltb_spec (length ty) (4 * size)); [|lia]. injection E as <-. apply split_last in Es; [|lia]. nia.
  Qed.
End Parts.

Lemma seq_snoc s n : seq s (S n) = seq s n ++ [s + n].
Proof. apply seq_S. Qed.
Section Renumber.
  Context {K : Type} (eqb : K -> K -> bool) (D : decides eqb).
  Lemma neqb_spec : forall a b : nat, (a =? b) = true <-> a = b.
  Proof. intros. apply Nat.eqb_eq. Qed.

  Lemma renumbering_from {T : Type} (ty : dict K T) : forall d c, NoDup (keys ty) -> (forall e, In e (keys ty) -> ~ In e (keys d)) ->
    let r := fst (fold_left (fun a kv => let '(d, c) := a in (put eqb d (fst kv) c, S c)) ty (d, c)) in
    (forall e, ~ In e (keys ty) -> get eqb r e = get eqb d e) /\ forall i e, nth_error (keys ty) i = Some e -> get eqb r e = Some (c + i).
  Proof.
    induction ty as [|[k v] ty IH]; intros d c N F; cbn zeta; simpl.
    - split; auto. intros [|i] e; discriminate.
    - inversion N as [|? ? Nk N']; subst. destruct (IH (put eqb d k c) (S c) N') as [A B].
      + intros e He. rewrite (in_keys_put eqb D). intros [->|C]; [contradiction|]. apply (F e); simpl; auto.
      + split.
        * intros e He. rewrite A by tauto. rewrite (get_put eqb D). destruct (eqb e k) eqn:Ek; auto. apply D in Ek. subst. tauto.
        * intros [|i] e; simpl.
          -- intros [= ->]. rewrite A by auto. rewrite (get_put eqb D), (proj2 (D e e) eq_refl). now rewrite Nat.add_0_r.
          -- intros He. rewrite (B i e He). f_equal. lia.
  Qed.
  Lemma renumbering_spec {T : Type} (ty : dict K T) i e : NoDup (keys ty) -> nth_error (keys ty) i = Some e -> get eqb (renumbering eqb ty) e = Some i.
  Proof. intros N H. destruct (renumbering_from ty [] 0 N) as [_ B]; [simpl; tauto|]. exact (B i e H). Qed.

  Lemma new_global_from {T V : Type} (d : dict K V) (ty : dict K T) : forall g c, (forall e, In e (keys ty) -> In e (keys d)) -> keys g = seq 0 c ->
    exists g', fold_left (fun a kv => match a, get eqb d (fst kv) with Some (g, c), Some v => Some (put Nat.eqb g c v, S c) | _, _ => None end) ty (Some (g, c)) = Some (g', c + length ty) /\
      keys g' = seq 0 (c + length ty) /\ (forall i, i < c -> get Nat.eqb g' i = get Nat.eqb g i) /\ forall i e, nth_error (keys ty) i = Some e -> get Nat.eqb g' (c + i) = get eqb d e.
  Proof.
    induction ty as [|[k v] ty IH]; intros g c I E; simpl.
    - exists g. rewrite Nat.add_0_r. repeat split; auto. intros [|i] e; discriminate.
    - destruct (proj1 (get_keys eqb D d k) (I k (or_introl eq_refl))) as [w W]. rewrite W.
      destruct (IH (put Nat.eqb g c w) (S c)) as (g' & A & B & C & G).
      + intros e He. apply I. now right.
      + rewrite (keys_put_out Nat.eqb neqb_spec) by (rewrite E, in_seq; lia). rewrite E. symmetry. apply seq_snoc.
      + exists g'. replace (c + S (length ty)) with (S c + length ty) by lia. split; auto. split; auto. split.
        * intros i Hi. rewrite C by lia. rewrite (get_put Nat.eqb neqb_spec). destruct (Nat.eqb_spec i c); [lia|auto].
        * intros [|i] e; simpl.
          -- intros [= <-]. rewrite Nat.add_0_r. rewrite C by lia. rewrite (get_put Nat.eqb neqb_spec), Nat.eqb_refl. auto.
          -- intros He. replace (c + S i) with (S c + i) by lia. auto.
  Qed.
  Lemma new_global_spec {T V : Type} (ty : dict K T) (d : dict K V) : Permutation (keys ty) (keys d) ->
    exists g, new_global eqb ty d = Some g /\ keys g = seq 0 (length ty) /\ by_position eqb (keys ty) d g.
  Proof.
    intros P. destruct (new_global_from d ty [] 0) as (g & A & B & _ & C).
    - intros e. apply Permutation_in. auto.
    - reflexivity.
    - exists g. unfold new_global. rewrite A. split; auto.
  Qed.

  Lemma renumber_some {T : Type} (ty : dict K T) e : NoDup (keys ty) -> In e (keys ty) -> exists i, get eqb (renumbering eqb ty) e = Some i /\ nth_error (keys ty) i = Some e.
  Proof. intros N H. apply In_nth_error in H as [i Hi]. exists i. split; auto. now apply renumbering_spec. Qed.
  Lemma new_ranks_spec {T : Type} (ty : dict K T) ds : NoDup (keys ty) -> Permutation (concat ds) (keys ty) ->
    exists ds', new_ranks eqb (renumbering eqb ty) ds = Some ds' /\
      Forall2 (Forall2 (fun e i => nth_error (keys ty) i = Some e)) ds ds' /\ Permutation (concat ds') (seq 0 (length ty)).
  Proof.
    intros N P. unfold new_ranks.
    destruct (all_some_map (fun d => all_some (map (get eqb (renumbering eqb ty)) d)) ds (Forall2 (fun e i => nth_error (keys ty) i = Some e))) as (ds' & A & F).
    { intros d Hd. apply all_some_map. intros e He. apply renumber_some; auto. apply (Permutation_in _ P). apply in_concat. eauto. }
    exists ds'. split; auto. split; auto.
    assert (FC : Forall2 (fun e i => nth_error (keys ty) i = Some e) (concat ds) (concat ds')).
    { clear -F. induction F; simpl; [constructor|]. now apply Forall2_app. }
    assert (NC : NoDup (concat ds)) by (eapply Permutation_NoDup; [symmetry; exact P|auto]).
    apply NoDup_Permutation.
    - clear -FC NC. induction FC as [|e i l l' H F IH]; [constructor|]. inversion NC; subst. constructor; auto. intros C. 
      destruct (Forall2_in_r _ _ _ F i C) as (e' & He' & E'). congruence.
    - apply seq_NoDup.
    - intros i. rewrite in_seq. split.
      + intros Hi. destruct (Forall2_in_r _ _ _ FC i Hi) as (e & He & E). assert (Hl : i < length (keys ty)) by (apply nth_error_Some; congruence).
        unfold keys in Hl. rewrite map_length in Hl. lia.
      + intros [_ Hi]. destruct (nth_error (keys ty) i) as [e|] eqn:E.
        * assert (He : In e (concat ds)) by (apply (Permutation_in _ (Permutation_sym P)); eapply nth_error_In; eauto).
          destruct (Forall2_in_l _ _ _ FC e He) as (j & Hj & Ej). replace i with j; auto.
          apply (proj1 (NoDup_nth_error (keys ty)) N); [apply nth_error_Some; congruence|congruence].
        * apply nth_error_None in E. unfold keys in E. rewrite map_length in E. lia.
  Qed.

  Lemma new_local_from {T V : Type} (r : dict K nat) (d : dict K V) (ty : dict K T) : forall g,
    (forall e, In e (keys ty) -> In e (keys d) /\ exists i, get eqb r e = Some i) -> NoDup (keys ty) ->
    (forall e e' i, get eqb r e = Some i -> get eqb r e' = Some i -> e = e') ->
    exists g', fold_left (fun a kv => match a, get eqb r (fst kv), get eqb d (fst kv) with Some g, Some i, Some v => Some (put Nat.eqb g i v) | _, _, _ => None end) ty (Some g) = Some g' /\
      (forall e i, get eqb r e = Some i -> In e (keys ty) -> get Nat.eqb g' i = get eqb d e) /\
      (forall i, (forall e, In e (keys ty) -> get eqb r e <> Some i) -> get Nat.eqb g' i = get Nat.eqb g i).
  Proof.
    induction ty as [|[k v] ty IH]; intros g I N J; simpl.
    - exists g. split; auto. split; [intros ? ? ? []|]; auto.
    - inversion N as [|? ? Nk N']; subst. destruct (I k (or_introl eq_refl)) as [Hd [i Hi]]. rewrite Hi. apply (get_keys eqb D) in Hd as [w W]. rewrite W.
      destruct (IH (put Nat.eqb g i w)) as (g' & A & B & C); auto.
      { intros e He. apply I. now right. }
      exists g'. split; auto. split.
      + intros e j Hj [<-|He]; [|eauto]. rewrite Hi in Hj. injection Hj as <-. rewrite C.
        * now rewrite (get_put Nat.eqb neqb_spec), Nat.eqb_refl.
        * intros e He E. assert (e = k) by eauto. subst. contradiction.
      + intros j Hj. rewrite C by (intros e He; apply Hj; now right). rewrite (get_put Nat.eqb neqb_spec).
        destruct (Nat.eqb_spec j i) as [->|]; auto. exfalso. now apply (Hj k (or_introl eq_refl)).
  Qed.
  Lemma new_local_spec {T V : Type} (gty : dict K T) (ty : dict K T) (d : dict K V) : NoDup (keys gty) -> NoDup (keys ty) -> Permutation (keys ty) (keys d) ->
    (forall e, In e (keys ty) -> In e (keys gty)) ->
    exists g, new_local eqb (renumbering eqb gty) ty d = Some g /\
      (forall i e, nth_error (keys gty) i = Some e -> In e (keys ty) -> get Nat.eqb g i = get eqb d e) /\
      (forall i, (forall e, In e (keys ty) -> nth_error (keys gty) i <> Some e) -> get Nat.eqb g i = None).
  Proof.
    intros Ng N P I.
    assert (S : forall e i, get eqb (renumbering eqb gty) e = Some i -> nth_error (keys gty) i = Some e).
    { intros e i H. destruct (renumbering_from gty [] 0 Ng) as [A B]; [simpl; tauto|]. fold (renumbering eqb gty) in A, B.
      destruct (mem eqb e (keys gty)) eqn:E.
      - apply (mem_in eqb D) in E. apply In_nth_error in E as [j Hj]. rewrite (B j e Hj) in H. injection H as <-. auto.
      - rewrite A in H; [discriminate|]. intros C. apply (mem_in eqb D) in C. congruence. }
    destruct (new_local_from (renumbering eqb gty) d ty []) as (g & A & B & C); auto.
    - intros e He. split; [apply (Permutation_in _ P He)|]. destruct (renumber_some gty e Ng (I e He)) as (i & Hi & _). eauto.
    - intros e e' i H H'. apply S in H. apply S in H'. congruence.
    - exists g. split; auto. split.
      + intros i e H He. apply B; auto. now apply renumbering_spec.
      + intros i Hi. rewrite C; auto. intros e He E. apply (Hi e He). auto.
  Qed.
End Renumber.
