(** Sums, einsum and multilinear forms. *)
From Coq Require Import List Arith Bool ZArith Reals Lia Lra.
From Verif Require Import NlModel NlSpec.
Import ListNotations.
Local Open Scope R_scope.

(** ** sums *)

Lemma rsum_ext n f g : (forall i, (i < n)%nat -> f i = g i) -> rsum n f = rsum n g.
Proof. induction n as [|n IH]; simpl; intros H; [reflexivity|]. rewrite IH, H; auto with arith. Qed.
Lemma rsum_zero n f : (forall i, (i < n)%nat -> f i = 0) -> rsum n f = 0.
Proof. induction n as [|n IH]; simpl; intros H; [reflexivity|]. rewrite IH, H; auto with arith. lra. Qed.
Lemma rsum_add n f g : rsum n (fun i => f i + g i) = rsum n f + rsum n g.
Proof. induction n as [|n IH]; simpl; [lra|]. rewrite IH. lra. Qed.
Lemma rsum_mul n c f : rsum n (fun i => c * f i) = c * rsum n f.
Proof. induction n as [|n IH]; simpl; [lra|]. rewrite IH. lra. Qed.
Lemma rsum_mul_r n c f : rsum n (fun i => f i * c) = rsum n f * c.
Proof. induction n as [|n IH]; simpl; [lra|]. rewrite IH. lra. Qed.
Lemma rsum_opp n f : rsum n (fun i => - f i) = - rsum n f.
Proof. induction n as [|n IH]; simpl; [lra|]. rewrite IH. lra. Qed.
Lemma rsum_swap n m f : rsum n (fun i => rsum m (f i)) = rsum m (fun j => rsum n (fun i => f i j)).
Proof.
  induction n as [|n IH]; simpl.
  - symmetry. apply rsum_zero. reflexivity.
  - rewrite IH, <- rsum_add. reflexivity.
Qed.
Lemma rsum_one n f a : (a < n)%nat -> (forall i, (i < n)%nat -> i <> a -> f i = 0) -> rsum n f = f a.
Proof.
  induction n as [|n IH]; simpl; intros Ha H; [lia|].
  destruct (Nat.eq_dec n a) as [->|Hn].
  - rewrite rsum_zero; [lra|]. intros i Hi. apply H; lia.
  - rewrite IH; [|lia|intros; apply H; lia]. rewrite (H n); [lra|lia|exact Hn].
Qed.
Lemma rsum_delta n f a : (a < n)%nat -> rsum n (fun i => delta a i * f i) = f a.
Proof.
  intros H. rewrite (rsum_one n _ a H).
  - unfold delta. rewrite Nat.eqb_refl. lra.
  - intros i _ Hi. unfold delta. rewrite (proj2 (Nat.eqb_neq i a) Hi). lra.
Qed.
Lemma rsum_shift n f : rsum (S n) f = f 0%nat + rsum n (fun i => f (S i)).
Proof. induction n as [|n IH]; [simpl; lra|]. change (rsum (S (S n)) f) with (rsum (S n) f + f (S n)). rewrite IH. simpl. lra. Qed.

Section lists.
  Context {X : Type}.
  Implicit Types (l : list X) (f g : X -> R).
  Lemma lsum_ext l f g : (forall a, In a l -> f a = g a) -> lsum l f = lsum l g.
  Proof. induction l as [|c l IH]; simpl; intros H; [reflexivity|]. rewrite IH, H; auto. Qed.
  Lemma lsum_zero l f : (forall a, In a l -> f a = 0) -> lsum l f = 0.
  Proof. induction l as [|c l IH]; simpl; intros H; [reflexivity|]. rewrite IH, H; auto. lra. Qed.
  Lemma lsum_add l f g : lsum l (fun a => f a + g a) = lsum l f + lsum l g.
  Proof. induction l as [|c l IH]; simpl; [lra|]. rewrite IH. lra. Qed.
  Lemma lsum_mul l c f : lsum l (fun a => c * f a) = c * lsum l f.
  Proof. induction l as [|d l IH]; simpl; [lra|]. rewrite IH. lra. Qed.
  Lemma lsum_mul_r l c f : lsum l (fun a => f a * c) = lsum l f * c.
  Proof. induction l as [|d l IH]; simpl; [lra|]. rewrite IH. lra. Qed.
  Lemma lsum_opp l f : lsum l (fun a => - f a) = - lsum l f.
  Proof. induction l as [|d l IH]; simpl; [lra|]. rewrite IH. lra. Qed.
  Lemma lsum_app l l' f : lsum (l ++ l') f = lsum l f + lsum l' f.
  Proof. induction l as [|d l IH]; simpl; [lra|]. rewrite IH. lra. Qed.
  Lemma lsum_rsum l n (f : X -> nat -> R) : lsum l (fun a => rsum n (f a)) = rsum n (fun i => lsum l (fun a => f a i)).
  Proof.
    induction l as [|d l IH]; simpl; [symmetry; apply rsum_zero; reflexivity|]. rewrite IH, <- rsum_add. reflexivity.
  Qed.
  Lemma lsum_nth l f d : lsum l f = rsum (length l) (fun j => f (nth j l d)).
  Proof. induction l as [|c l IH]; [reflexivity|]. cbn [length]. rewrite rsum_shift. simpl. rewrite IH. reflexivity. Qed.
End lists.
Lemma lsum_swap {X Y} (l : list X) (k : list Y) (f : X -> Y -> R) :
  lsum l (fun a => lsum k (f a)) = lsum k (fun c => lsum l (fun a => f a c)).
Proof.
  induction l as [|d l IH]; simpl; [symmetry; apply lsum_zero; reflexivity|]. rewrite IH, <- lsum_add. reflexivity.
Qed.

(** ** forms *)

Lemma cf_eqb_eq a c : cf_eqb a c = true <-> a = c.
Proof.
  destruct a as [f|f t], c as [g|g u]; simpl; split; intros H; try discriminate; try congruence.
  - apply Nat.eqb_eq in H. congruence.
  - injection H as ->. apply Nat.eqb_refl.
  - apply andb_true_iff in H as [H1 H2]. apply Nat.eqb_eq in H1. apply Z.eqb_eq in H2. congruence.
  - injection H as -> ->. rewrite Nat.eqb_refl, Z.eqb_refl. reflexivity.
Qed.
Lemma cf_eqb_refl a : cf_eqb a a = true.
Proof. apply cf_eqb_eq. reflexivity. Qed.
Lemma cf_eqb_neq a c : cf_eqb a c = false <-> a <> c.
Proof. rewrite <- cf_eqb_eq. destruct (cf_eqb a c); split; congruence. Qed.
Lemma cf_eqb_sym a c : cf_eqb a c = cf_eqb c a.
Proof.
  destruct (cf_eqb a c) eqn:E.
  - apply cf_eqb_eq in E. subst. symmetry. apply cf_eqb_refl.
  - symmetry. apply cf_eqb_neq. apply cf_eqb_neq in E. congruence.
Qed.
Lemma cf_in_In c l : cf_in c l = true <-> In c l.
Proof.
  unfold cf_in. rewrite existsb_exists. split.
  - intros (d & H & E). apply cf_eqb_eq in E. congruence.
  - intros H. exists c. split; [exact H|apply cf_eqb_refl].
Qed.
Lemma cf_in_false c l : cf_in c l = false <-> ~ In c l.
Proof. rewrite <- cf_in_In. destruct (cf_in c l); split; congruence. Qed.
Lemma cf_dec (a c : cf) : {a = c} + {a <> c}.
Proof. destruct (cf_eqb a c) eqn:E; [left; apply cf_eqb_eq; exact E|right; apply cf_eqb_neq; exact E]. Qed.

Lemma lsum_meet (l k : list cf) (f : cf -> R) :
  NoDup l -> NoDup k -> lsum l (fun c => if cf_in c k then f c else 0) = lsum k (fun c => if cf_in c l then f c else 0).
Proof.
  assert (P : forall (k : list cf) c, NoDup k -> (if cf_in c k then f c else 0) = lsum k (fun d => if cf_eqb c d then f c else 0)).
  { clear. induction k as [|d k IH]; intros c Hn; [reflexivity|]. simpl. inversion Hn as [|? ? Hni Hk]; subst.
    rewrite <- IH by exact Hk. destruct (cf_eqb c d) eqn:E; simpl.
    - apply cf_eqb_eq in E. subst. rewrite (proj2 (cf_in_false d k) Hni). lra.
    - fold (cf_in c k). lra. }
  intros Hl Hk.
  rewrite (lsum_ext l _ (fun c => lsum k (fun d => if cf_eqb c d then f c else 0))) by (intros; apply P; exact Hk).
  rewrite (lsum_ext k (fun c => if cf_in c l then f c else 0) (fun c => lsum l (fun d => if cf_eqb c d then f c else 0)))
    by (intros; apply P; exact Hl).
  rewrite lsum_swap. apply lsum_ext. intros d _. apply lsum_ext. intros c _. rewrite cf_eqb_sym.
  destruct (cf_eqb d c) eqn:E; [|reflexivity]. apply cf_eqb_eq in E. congruence.
Qed.

(** ** einsum *)

Lemma some_at_ge {X} (p : list (option X)) k l : In l (some_at k p) -> (k <= l)%nat.
Proof.
  revert k. induction p as [|[x|] p IH]; simpl; intros k H; [contradiction| |].
  - destruct H as [->|H]; [lia|]. apply IH in H. lia.
  - apply IH in H. lia.
Qed.
Lemma none_at_ge {X} (p : list (option X)) k l : In l (none_at k p) -> (k <= l)%nat.
Proof.
  revert k. induction p as [|[x|] p IH]; simpl; intros k H; [contradiction| |].
  - apply IH in H. lia.
  - destruct H as [->|H]; [lia|]. apply IH in H. lia.
Qed.

Lemma sum_over_keep dim k ls : forall env body body', ~ In k ls ->
  (forall env', env' k = env k -> body env' = body' env') -> sum_over dim ls env body = sum_over dim ls env body'.
Proof.
  induction ls as [|l ls IH]; simpl; intros env body body' Hn H; [apply H; reflexivity|].
  apply rsum_ext. intros i _. apply IH; [tauto|]. intros env' He. apply H. rewrite He. unfold upd.
  destruct (k =? l)%nat eqn:E; [|reflexivity]. apply Nat.eqb_eq in E. subst. tauto.
Qed.
Lemma sum_over_mul dim c ls : forall env body, sum_over dim ls env (fun e => c * body e) = c * sum_over dim ls env body.
Proof.
  induction ls as [|l ls IH]; simpl; intros env body; [reflexivity|].
  rewrite <- rsum_mul. apply rsum_ext. intros i _. apply IH.
Qed.

(** the vectors of an array whose letters not given are fixed *)
Fixpoint fill_env (env : nat -> nat) (k : nat) (p : list (option (list R))) : list (nat -> R) :=
  match p with
  | [] => []
  | Some v :: p' => (fun i => nth i v 0) :: fill_env env (S k) p'
  | None :: p' => delta (env k) :: fill_env env (S k) p'
  end.
Lemma fill_env_ext p : forall env env' k, (forall l, (k <= l)%nat -> env l = env' l) -> fill_env env k p = fill_env env' k p.
Proof.
  induction p as [|[v|] p IH]; simpl; intros env env' k H; [reflexivity| |].
  - f_equal. apply IH. intros l Hl. apply H. lia.
  - rewrite H by lia. f_equal. apply IH. intros l Hl. apply H. lia.
Qed.

Lemma sum_over_form p : forall k sh T dim env,
  length p = length sh ->
  (forall m, (m < length sh)%nat -> dim (k + m)%nat = nth m sh 0%nat) ->
  (forall m, nth_error p m = Some None -> (env (k + m) < nth m sh 0)%nat) ->
  sum_over dim (some_at k p) env
    (fun env' => T (map env' (seq k (length p))) * entries env' (some_at k p) (somes p)) = mform sh T (fill_env env k p).
Proof.
  induction p as [|o p IH]; intros k sh T dim env Hl Hd He.
  - destruct sh; [|discriminate]. simpl. lra.
  - destruct sh as [|n sh]; [discriminate|]. injection Hl as Hl.
    assert (Hd' : forall m, (m < length sh)%nat -> dim (S k + m)%nat = nth m sh 0%nat).
    { intros m Hm. replace (S k + m)%nat with (k + S m)%nat by lia. rewrite Hd by (simpl; lia). reflexivity. }
    assert (Hk : ~ In k (some_at (S k) p)) by (intros H; apply some_at_ge in H; lia).
    destruct o as [v|]; cbn [some_at somes fill_env mform length seq map entries sum_over].
    + assert (E : dim k = n) by (specialize (Hd 0%nat); rewrite Nat.add_0_r in Hd; simpl in Hd; apply Hd; lia).
      rewrite E. apply rsum_ext. intros i Hi.
      rewrite (sum_over_keep dim k (some_at (S k) p) (upd env k i) _
        (fun env' => nth i v 0 * (T (i :: map env' (seq (S k) (length p))) * entries env' (some_at (S k) p) (somes p))) Hk).
      * rewrite sum_over_mul. f_equal. rewrite (IH (S k) sh (fun idx => T (i :: idx)) dim (upd env k i) Hl Hd').
        -- f_equal. apply fill_env_ext. intros l Hlk. unfold upd. rewrite (proj2 (Nat.eqb_neq l k)); [reflexivity|lia].
        -- intros m Hm. replace (S k + m)%nat with (k + S m)%nat by lia. unfold upd.
           rewrite (proj2 (Nat.eqb_neq (k + S m) k)) by lia. apply (He (S m)). exact Hm.
      * intros env' Henv. unfold upd in Henv. rewrite Nat.eqb_refl in Henv. rewrite Henv. ring.
    + assert (Hb : (env k < n)%nat).
      { specialize (He 0%nat eq_refl). rewrite Nat.add_0_r in He. exact He. }
      rewrite (rsum_delta n (fun i => mform sh (fun idx => T (i :: idx)) (fill_env env (S k) p)) (env k) Hb).
      rewrite (sum_over_keep dim k (some_at (S k) p) env _
        (fun env' => T (env k :: map env' (seq (S k) (length p))) * entries env' (some_at (S k) p) (somes p)) Hk).
      * apply (IH (S k) sh (fun idx => T (env k :: idx)) dim env Hl Hd').
        intros m Hm. replace (S k + m)%nat with (k + S m)%nat by lia. apply (He (S m)). exact Hm.
      * intros env' Henv. rewrite Henv. reflexivity.
Qed.

Lemma dim_of_seq sh : forall k m, (m < length sh)%nat -> dim_of (seq k (length sh)) sh (k + m) = nth m sh 0%nat.
Proof.
  induction sh as [|n sh IH]; intros k m Hm; [simpl in Hm; lia|].
  cbn [length seq dim_of]. destruct m as [|m].
  - rewrite Nat.add_0_r, Nat.eqb_refl. reflexivity.
  - rewrite (proj2 (Nat.eqb_neq k (k + S m))) by lia. replace (k + S m)%nat with (S k + m)%nat by lia.
    rewrite IH by (simpl in Hm; lia). reflexivity.
Qed.

Lemma mem_In l ls : mem l ls = true <-> In l ls.
Proof.
  unfold mem. rewrite existsb_exists. split; [intros (x & H & E); apply Nat.eqb_eq in E; congruence|].
  intros H. exists l. rewrite Nat.eqb_refl. auto.
Qed.
Lemma mem_false l ls : mem l ls = false <-> ~ In l ls.
Proof. rewrite <- mem_In. destruct (mem l ls); split; congruence. Qed.

Lemma some_letters {X} (p : list (option X)) : forall k,
  filter (fun l => negb (mem l (none_at k p))) (seq k (length p)) = some_at k p.
Proof.
  assert (G : forall (p : list (option X)) k h, (forall l, (k <= l)%nat -> h l = negb (mem l (none_at k p))) ->
            filter h (seq k (length p)) = some_at k p).
  { clear. induction p as [|o p IH]; intros k h H; [reflexivity|].
    cbn [length seq filter]. rewrite (H k) by lia.
    destruct o as [x|]; cbn [none_at some_at] in *.
    - rewrite (proj2 (mem_false k (none_at (S k) p))) by (intros Hi; apply none_at_ge in Hi; lia).
      cbn [negb]. f_equal. apply IH. intros l Hl. apply H. lia.
    - unfold mem at 1. cbn [existsb]. rewrite Nat.eqb_refl. cbn [orb negb]. apply IH. intros l Hl. rewrite H by lia.
      unfold mem. cbn [existsb]. rewrite (proj2 (Nat.eqb_neq l k)) by lia. reflexivity. }
  intros k. apply G. reflexivity.
Qed.

(** fill the axes not given with unit vectors *)
Fixpoint fill (p : list (option (list R))) (r : list nat) : list (nat -> R) :=
  match p with
  | [] => []
  | Some v :: p' => (fun i => nth i v 0) :: fill p' r
  | None :: p' => delta (hd 0%nat r) :: fill p' (tl r)
  end.
(** the lengths of these axes; the others have the lengths of the given *)
Fixpoint open_dims (p : list (option (list R))) (sh : list nat) : list nat :=
  match p, sh with
  | None :: p', n :: sh' => n :: open_dims p' sh'
  | Some _ :: p', _ :: sh' => open_dims p' sh'
  | _, _ => []
  end.
Fixpoint sized (p : list (option (list R))) (sh : list nat) : Prop :=
  match p, sh with
  | [], [] => True
  | Some v :: p', n :: sh' => length v = n /\ sized p' sh'
  | None :: p', _ :: sh' => sized p' sh'
  | _, _ => False
  end.
Lemma sized_length p : forall sh, sized p sh -> length p = length sh.
Proof. induction p as [|[v|] p IH]; destruct sh; simpl; intros H; try contradiction; auto; f_equal; apply IH; tauto. Qed.

Lemma bind_notin ls : forall r l, ~ In l ls -> bind ls r l = 0%nat.
Proof.
  induction ls as [|m ls IH]; intros r l H; [reflexivity|]. destruct r as [|i r]; [reflexivity|].
  simpl. unfold upd. rewrite (proj2 (Nat.eqb_neq l m)) by (intros ->; apply H; left; reflexivity).
  apply IH. intros Hi. apply H. right. exact Hi.
Qed.
Lemma fill_bind p : forall k r env, length r = length (none_at k p) ->
  (forall l, In l (none_at k p) -> env l = bind (none_at k p) r l) -> fill_env env k p = fill p r.
Proof.
  induction p as [|[v|] p IH]; intros k r env Hr He; [reflexivity| |]; cbn [none_at fill_env fill] in *.
  - f_equal. apply IH; assumption.
  - destruct r as [|i r]; [discriminate|]. injection Hr as Hr. cbn [hd tl]. f_equal.
    + rewrite He by (left; reflexivity). cbn [bind]. unfold upd. rewrite Nat.eqb_refl. reflexivity.
    + apply IH; [exact Hr|]. intros l Hl. rewrite He by (right; exact Hl). cbn [bind]. unfold upd.
      rewrite (proj2 (Nat.eqb_neq l k)); [reflexivity|]. apply none_at_ge in Hl. lia.
Qed.
Lemma none_at_length p : forall k sh, length p = length sh -> length (none_at k p) = length (open_dims p sh).
Proof.
  induction p as [|[v|] p IH]; intros k sh H; [reflexivity| |]; (destruct sh as [|n sh]; [discriminate|]); injection H as H;
    cbn [none_at open_dims length]; [|f_equal]; apply IH; exact H.
Qed.

Lemma none_at_at {X} (p : list (option X)) : forall k m, nth_error p m = Some None -> In (k + m)%nat (none_at k p).
Proof.
  induction p as [|o p IH]; intros k m H; [destruct m; discriminate|].
  destruct m as [|m].
  - injection H as ->. cbn [none_at]. rewrite Nat.add_0_r. left. reflexivity.
  - replace (k + S m)%nat with (S k + m)%nat by lia. destruct o; cbn [none_at]; [|right]; apply IH; exact H.
Qed.
Lemma bind_bound p : forall k sh r m, length p = length sh -> Forall2 lt r (open_dims p sh) ->
  nth_error p m = Some None -> (bind (none_at k p) r (k + m) < nth m sh 0)%nat.
Proof.
  induction p as [|o p IH]; intros k sh r m Hl Hr Hm; [destruct m; discriminate|].
  destruct sh as [|n sh]; [discriminate|]. injection Hl as Hl.
  destruct o as [v|]; cbn [none_at open_dims] in *.
  - destruct m as [|m]; [discriminate|]. replace (k + S m)%nat with (S k + m)%nat by lia. cbn [nth]. apply IH; assumption.
  - inversion Hr as [|i n' r' sh' Hi Hr' E1 E2]; subst. cbn [bind]. unfold upd. destruct m as [|m].
    + rewrite Nat.add_0_r, Nat.eqb_refl. exact Hi.
    + rewrite (proj2 (Nat.eqb_neq (k + S m) k)) by lia. replace (k + S m)%nat with (S k + m)%nat by lia.
      cbn [nth]. apply IH; assumption.
Qed.
Lemma fits_sized p : forall k sh dim, sized p sh -> (forall m, (m < length sh)%nat -> dim (k + m)%nat = nth m sh 0%nat) ->
  fits dim (some_at k p) (somes p) = true.
Proof.
  induction p as [|o p IH]; intros k sh dim Hs Hd; [reflexivity|].
  destruct sh as [|n sh]; [destruct o; contradiction|].
  assert (Hd' : forall m, (m < length sh)%nat -> dim (S k + m)%nat = nth m sh 0%nat).
  { intros m Hm. replace (S k + m)%nat with (k + S m)%nat by lia. rewrite Hd by (simpl; lia). reflexivity. }
  destruct o as [v|]; cbn [some_at somes fits sized] in *.
  - destruct Hs as [Hv Hs]. rewrite (IH (S k) sh dim Hs Hd').
    specialize (Hd 0%nat). rewrite Nat.add_0_r in Hd. simpl in Hd. rewrite Hd by lia. subst. rewrite Nat.eqb_refl. reflexivity.
  - apply (IH (S k) sh dim Hs Hd').
Qed.
Lemma open_dims_letters p : forall k sh, length p = length sh ->
  map (dim_of (seq k (length sh)) sh) (none_at k p) = open_dims p sh.
Proof.
  assert (G : forall p k sh dim, length p = length sh -> (forall m, (m < length sh)%nat -> dim (k + m)%nat = nth m sh 0%nat) ->
              map dim (none_at k p) = open_dims p sh).
  { clear. induction p as [|o p IH]; intros k sh dim Hl Hd; [reflexivity|].
    destruct sh as [|n sh]; [discriminate|]. injection Hl as Hl.
    assert (Hd' : forall m, (m < length sh)%nat -> dim (S k + m)%nat = nth m sh 0%nat).
    { intros m Hm. replace (S k + m)%nat with (k + S m)%nat by lia. rewrite Hd by (simpl; lia). reflexivity. }
    destruct o as [v|]; cbn [none_at open_dims map]; [apply IH; assumption|].
    rewrite (IH (S k) sh dim Hl Hd'). f_equal. specialize (Hd 0%nat). rewrite Nat.add_0_r in Hd. apply Hd. simpl. lia. }
  intros k sh H. apply G; [exact H|]. intros m Hm. apply dim_of_seq. exact Hm.
Qed.

(** einsum with any order of the letters of the result *)
Lemma einsum_any T p res :
  sized p (shape T) -> (forall l, In l res <-> In l (none_at 0 p)) ->
  exists a, einsum (seq 0 (length p)) (some_at 0 p) res T (somes p) = Some a /\
    shape a = map (dim_of (seq 0 (length p)) (shape T)) res /\
    forall r, (forall m, nth_error p m = Some None -> (bind res r m < nth m (shape T) 0)%nat) ->
      at_ a r = mform (shape T) (at_ T) (fill_env (bind res r) 0 p).
Proof.
  intros Hs Hres. pose proof (sized_length _ _ Hs) as Hl. unfold einsum. rewrite seq_length, Hl, Nat.eqb_refl.
  rewrite (fits_sized p 0 (shape T)) by (try exact Hs; intros m Hm; apply dim_of_seq; exact Hm).
  cbn [andb]. eexists. split; [reflexivity|]. split; [reflexivity|].
  intros r Hr. cbn [at_].
  assert (E : filter (fun l => negb (mem l res)) (seq 0 (length (shape T))) = some_at 0 p).
  { rewrite <- (some_letters p 0), Hl. apply filter_ext. intros l. f_equal.
    destruct (mem l (none_at 0 p)) eqn:E.
    - apply mem_In. apply Hres. apply mem_In. exact E.
    - apply mem_false. rewrite Hres. apply mem_false. exact E. }
  rewrite E.
  pose proof (sum_over_form p 0 (shape T) (at_ T) (dim_of (seq 0 (length (shape T))) (shape T)) (bind res r) Hl
    (fun m Hm => dim_of_seq (shape T) 0 m Hm) Hr) as F.
  rewrite Hl in F. exact F.
Qed.

Lemma contract_value T p :
  sized p (shape T) -> forallb is_none p = false -> (length p < 14)%nat ->
  exists a, contract T p = Some a /\ shape a = open_dims p (shape T) /\
    forall r, Forall2 lt r (shape a) -> at_ a r = mform (shape T) (at_ T) (fill p r).
Proof.
  intros Hs Hn Hlt. unfold contract. rewrite Hn. rewrite (proj2 (Nat.leb_gt 14 (length p)) Hlt).
  destruct (einsum_any T p (none_at 0 p) Hs ltac:(tauto)) as (a & Ha & Hsh & Hv).
  pose proof (sized_length _ _ Hs) as Hl.
  exists a. split; [exact Ha|]. rewrite Hsh, Hl, (open_dims_letters p 0 (shape T) Hl). split; [reflexivity|].
  intros r Hr. rewrite Hv.
  - f_equal. apply fill_bind; [|reflexivity]. rewrite (none_at_length p 0 (shape T) Hl).
    clear - Hr. induction Hr; simpl; congruence.
  - intros m Hm. apply (bind_bound p 0); assumption.
Qed.

(** ** multilinear forms *)

Fixpoint agree (sh : list nat) (vs ws : list (nat -> R)) : Prop :=
  match sh, vs, ws with
  | n :: sh', v :: vs', w :: ws' => (forall i, (i < n)%nat -> v i = w i) /\ agree sh' vs' ws'
  | [], _, _ => True
  | _, [], [] => True
  | _, _, _ => False
  end.
Lemma mform_ext sh : forall T vs ws, agree sh vs ws -> mform sh T vs = mform sh T ws.
Proof.
  induction sh as [|n sh IH]; intros T vs ws H; [reflexivity|].
  destruct vs as [|v vs], ws as [|w ws]; simpl in *; try contradiction; [reflexivity|].
  destruct H as [Hv H]. apply rsum_ext. intros i Hi. rewrite Hv by exact Hi. rewrite (IH _ vs ws H). reflexivity.
Qed.
Lemma agree_map (cs : list cf) (dims : cf -> nat) (f g : cf -> nat -> R) :
  (forall c i, In c cs -> (i < dims c)%nat -> f c i = g c i) -> agree (map dims cs) (map f cs) (map g cs).
Proof. induction cs as [|c cs IH]; simpl; intros H; [exact I|]. split; [intros; apply H; auto|apply IH; intros; apply H; auto]. Qed.

Section one.
  Variables (dims : cf -> nat) (W : cf -> nat -> R) (u : cf).
  Definition repl (h : nat -> R) (c : cf) : nat -> R := if cf_eqb c u then h else W c.
  Lemma repl_off cs h h' : ~ In u cs -> map (repl h) cs = map (repl h') cs.
  Proof.
    intros H. apply map_ext_in. intros c Hc. unfold repl.
    rewrite (proj2 (cf_eqb_neq c u)); [reflexivity|]. intros ->. contradiction.
  Qed.
  (** one vector is a combination of unit vectors *)
  Lemma mform_units cs : forall T h, NoDup cs -> In u cs ->
    rsum (dims u) (fun k => mform (map dims cs) T (map (repl (delta k)) cs) * h k)
    = mform (map dims cs) T (map (repl h) cs).
  Proof.
    induction cs as [|c cs IH]; intros T h Hn Hu; [contradiction|].
    inversion Hn as [|? ? Hc Hn']; subst. cbn [map mform].
    destruct (cf_dec c u) as [->|Hcu].
    - unfold repl at 1 3. rewrite cf_eqb_refl. apply rsum_ext. intros k Hk.
      rewrite (rsum_delta (dims u) (fun i => mform (map dims cs) (fun idx => T (i :: idx)) (map (repl (delta k)) cs)) k Hk).
      rewrite (repl_off cs (delta k) h Hc). ring.
    - destruct Hu as [Hu|Hu]; [congruence|].
      assert (E : forall h', repl h' c = W c) by (intros h'; unfold repl; rewrite (proj2 (cf_eqb_neq c u) Hcu); reflexivity).
      rewrite (rsum_ext _ _ (fun k => rsum (dims c) (fun i => W c i *
          (mform (map dims cs) (fun idx => T (i :: idx)) (map (repl (delta k)) cs) * h k)))).
      2:{ intros k _. rewrite E, <- rsum_mul_r. apply rsum_ext. intros i _. ring. }
      rewrite rsum_swap. rewrite E. apply rsum_ext. intros i _. rewrite rsum_mul, IH by assumption. reflexivity.
  Qed.
  (** one vector is a sum *)
  Lemma mform_sum cs : forall T h h', NoDup cs -> In u cs ->
    mform (map dims cs) T (map (repl (fun i => h i + h' i)) cs)
    = mform (map dims cs) T (map (repl h) cs) + mform (map dims cs) T (map (repl h') cs).
  Proof.
    induction cs as [|c cs IH]; intros T h h' Hn Hu; [contradiction|].
    inversion Hn as [|? ? Hc Hn']; subst. cbn [map mform].
    destruct (cf_dec c u) as [->|Hcu].
    - unfold repl at 1 3 5. rewrite cf_eqb_refl. rewrite <- rsum_add. apply rsum_ext. intros k Hk.
      rewrite (repl_off cs (fun i => h i + h' i) h Hc), (repl_off cs h' h Hc). ring.
    - destruct Hu as [Hu|Hu]; [congruence|].
      assert (E : forall h', repl h' c = W c) by (intros h1; unfold repl; rewrite (proj2 (cf_eqb_neq c u) Hcu); reflexivity).
      rewrite !E, <- rsum_add. apply rsum_ext. intros i _. rewrite IH by assumption. ring.
  Qed.
  Lemma mform_zero cs : forall T h, In u cs -> NoDup cs -> (forall i, h i = 0) -> mform (map dims cs) T (map (repl h) cs) = 0.
  Proof.
    intros T h Hu Hn H0. rewrite <- mform_units by assumption. apply rsum_zero. intros k _. rewrite H0. ring.
  Qed.
End one.
