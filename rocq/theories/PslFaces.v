(** The check of the faces of a periodic slice. *)
From Coq Require Import Arith ZArith QArith List Bool Lia Permutation.
From Verif Require Import NdArray LocalNumberingModel Dict GmModel UnModel UnSpec UnProofs PslModel PslSpec PslThms PslNumber.
Import ListNotations.
Local Open Scope nat_scope.

(** ** sorting *)
Lemma ins_comm a b l : ins a (ins b l) = ins b (ins a l).
Proof.
  induction l as [|y l IH]; simpl.
  - destruct (Nat.leb_spec a b), (Nat.leb_spec b a); auto; try lia. replace a with b by lia. reflexivity.
  - destruct (Nat.leb_spec b y), (Nat.leb_spec a y); simpl;
    repeat match goal with |- context [?u <=? ?v] => destruct (Nat.leb_spec u v); try lia end; auto; try congruence.
    replace a with b by lia. reflexivity.
Qed.
Lemma sort_perm l l' : Permutation l l' -> sort l = sort l'.
Proof. induction 1; simpl; auto; [congruence|apply ins_comm|congruence]. Qed.
Lemma in_ins v x l : In v (ins x l) <-> v = x \/ In v l.
Proof.
  induction l as [|y l IH]; simpl; [intuition|]. destruct (x <=? y); simpl; [intuition|]. rewrite IH. intuition.
Qed.
Lemma in_sort v l : In v (sort l) <-> In v l.
Proof. induction l as [|x l IH]; simpl; [tauto|]. rewrite in_ins, IH. intuition. Qed.

(** ** the pool *)
Definition all_faces (m : list (nat * brick)) : list (list nat * (nat * nat)) := flat_map faces_of m.
Definition entries (k : list nat) (l : list (list nat * (nat * nat))) : list (nat * nat) :=
  map snd (filter (fun kp => sig_eqb k (fst kp)) l).
Lemma fold_flat {A B C} (f : C -> B -> C) (g : A -> list B) l : forall p,
  fold_left (fun p a => fold_left f (g a) p) l p = fold_left f (flat_map g l) p.
Proof. induction l as [|a l IH]; intros p; simpl; auto. now rewrite fold_left_app, IH. Qed.
Lemma pool_get l : forall p k, get sig_eqb (fold_left (fun p kp => add_face p (fst kp) (snd kp)) l p) k =
  match get sig_eqb p k with
  | Some v => Some (v ++ entries k l)
  | None => match entries k l with [] => None | v => Some v end
  end.
Proof.
  induction l as [|[k0 pos] l IH]; intros p k; cbn [fold_left].
  - unfold entries. simpl. destruct (get sig_eqb p k); auto. now rewrite app_nil_r.
  - rewrite IH. cbn [fst snd]. unfold add_face, entries. cbn [filter fst].
    assert (forall v, get sig_eqb (put sig_eqb p k0 v) k = if sig_eqb k k0 then Some v else get sig_eqb p k) as GP by (intros; apply get_put, sig_eqb_spec).
    destruct (sig_eqb k k0) eqn:E.
    + pose proof E as E'. apply sig_eqb_spec in E' as <-. destruct (get sig_eqb p k) as [v|]; rewrite GP; cbn [map snd]; auto. now rewrite <- app_assoc.
    + destruct (get sig_eqb p k0) as [v|]; rewrite GP; reflexivity.
Qed.
Lemma pool_keys l : forall p, NoDup (keys p) -> NoDup (keys (fold_left (fun p kp => add_face p (fst kp) (snd kp)) l p)).
Proof.
  induction l as [|[k0 pos] l IH]; intros p H; cbn [fold_left]; auto. apply IH. unfold add_face.
  destruct (get sig_eqb p (fst (k0, pos))); apply nodup_put; auto; apply sig_eqb_spec.
Qed.
Lemma pool_in m k v : In (k, v) (face_pool m) <-> v = entries k (all_faces m) /\ v <> [].
Proof.
  unfold face_pool. rewrite fold_flat. fold (all_faces m).
  pose proof (pool_get (all_faces m) [] k) as G. cbn [get] in G.
  split.
  - intros H. apply (in_get sig_eqb sig_eqb_spec) in H; [|apply pool_keys; constructor].
    rewrite H in G. destruct (entries k (all_faces m)); [discriminate|]. injection G as ->. split; auto. discriminate.
  - intros [-> H]. apply (get_in sig_eqb sig_eqb_spec). rewrite G. destruct (entries k (all_faces m)); auto. contradiction.
Qed.
Lemma warns_iff m : warns m = true <-> exists k, 2 < length (entries k (all_faces m)).
Proof.
  unfold warns. rewrite existsb_exists. split.
  - intros ([k v] & H & L). apply pool_in in H as [-> _]. exists k. cbn [snd] in L. apply negb_true_iff, Nat.leb_gt in L. auto.
  - intros [k L]. exists (k, entries k (all_faces m)). split; [apply pool_in; split; auto; intros E; rewrite E in L; simpl in L; lia|].
    cbn [snd]. apply negb_true_iff, Nat.leb_gt. auto.
Qed.

(** ** the faces of a slice *)
Section Axis.
  Context (K : nat) (HK : 1 <= K).
  (** the indices of a face along an axis: normal to the axis or not *)
  Definition inr_ (n : bool) (h r : nat) : Prop := if n then r = h else r = 0 \/ r = 1.
  Lemma axis_set a a' n n' h h' : K <> 2 -> a < K -> a' < K -> h <= 1 -> h' <= 1 ->
    (forall r, inr_ n h r -> exists r', inr_ n' h' r' /\ (a + r) mod K = (a' + r') mod K) ->
    (forall r', inr_ n' h' r' -> exists r, inr_ n h r /\ (a + r) mod K = (a' + r') mod K) ->
    K = 1 \/ (n = n' /\ (n = true -> (a + h) mod K = (a' + h') mod K) /\ (n = false -> a = a')).
  Proof.
    intros N2 Ha Ha' Hh Hh' F B. destruct (Nat.eq_dec K 1) as [|N1]; auto. right.
    assert (forall c, c < K -> (c + 1) mod K = if c + 1 =? K then 0 else c + 1) as R1.
    { intros c Hc. destruct (Nat.eqb_spec (c + 1) K) as [->|N]; [apply Nat.mod_same; lia|apply Nat.mod_small; lia]. }
    assert (forall c, c < K -> (c + 0) mod K = c) as R0 by (intros; rewrite Nat.add_0_r; apply Nat.mod_small; auto).
    destruct n, n'; cbn [inr_] in *.
    - split; auto. split; [|discriminate]. intros _. destruct (F h eq_refl) as (r' & -> & E). auto.
    - exfalso. destruct (B 0 (or_introl eq_refl)) as (r & -> & E0). destruct (B 1 (or_intror eq_refl)) as (r & -> & E1).
      rewrite E1 in E0. rewrite R1, R0 in E0 by auto. destruct (Nat.eqb_spec (a' + 1) K); lia.
    - exfalso. destruct (F 0 (or_introl eq_refl)) as (r & -> & E0). destruct (F 1 (or_intror eq_refl)) as (r & -> & E1).
      rewrite <- E1 in E0. rewrite R1, R0 in E0 by auto. destruct (Nat.eqb_spec (a + 1) K); lia.
    - split; auto. split; [discriminate|]. intros _.
      destruct (F 0 (or_introl eq_refl)) as (r & [->| ->] & E0); [rewrite !R0 in E0; auto|].
      rewrite R0, R1 in E0 by auto.
      destruct (F 1 (or_intror eq_refl)) as (s & [->| ->] & E1); rewrite ?R0, ?R1 in E1 by auto;
      destruct (Nat.eqb_spec (a + 1) K), (Nat.eqb_spec (a' + 1) K); lia.
  Qed.
End Axis.

Section Slice.
  Context (Kx Ky Kz : nat) (Kxp : 1 <= Kx) (Kyp : 1 <= Ky) (Kzp : 1 <= Kz).
  Context (x0 x1 y0 y1 th : Q) (m : list (nat * brick)) (S : is_slice Kx Ky Kz x0 x1 y0 y1 th m).
  Notation lab := (lab Kx Ky Kz).
  Notation num := (num Kx Ky).
  Definition flist (a b c d h : nat) : list nat :=
    match d with
    | 0 => [lab (a + h) (b + 0) (c + 0); lab (a + h) (b + 1) (c + 0); lab (a + h) (b + 0) (c + 1); lab (a + h) (b + 1) (c + 1)]
    | 1 => [lab (a + 0) (b + h) (c + 0); lab (a + 1) (b + h) (c + 0); lab (a + 0) (b + h) (c + 1); lab (a + 1) (b + h) (c + 1)]
    | _ => [lab (a + 0) (b + 0) (c + h); lab (a + 1) (b + 0) (c + h); lab (a + 0) (b + 1) (c + h); lab (a + 1) (b + 1) (c + h)]
    end.
  Lemma faces_good a b c eb : good Kx Ky Kz x0 x1 y0 y1 th a b c eb ->
    faces_of eb = map (fun dh => (sort (flist a b c (fst dh) (snd dh)), (num a b c, 2 * fst dh + snd dh))) [(0, 0); (0, 1); (1, 0); (1, 1); (2, 0); (2, 1)].
  Proof. intros G. unfold faces_of. rewrite (g_map _ _ _ _ _ _ _ _ _ _ _ _ G), (g_num _ _ _ _ _ _ _ _ _ _ _ _ G). reflexivity. Qed.
  Definition in_range (a b c d h : nat) : Prop := a < Kx /\ b < Ky /\ c < Kz /\ d <= 2 /\ h <= 1.
  Lemma in_faces k e f : In (k, (e, f)) (all_faces m) <->
    exists a b c d h, in_range a b c d h /\ e = num a b c /\ f = 2 * d + h /\ k = sort (flist a b c d h).
  Proof.
    unfold all_faces. rewrite in_flat_map. destruct S as (_ & S1 & S2). split.
    - intros (eb & Hin & H). destruct (S2 _ Hin) as (a & b & c & Ha & Hb & Hc & G). rewrite (faces_good _ _ _ _ G) in H.
      apply in_map_iff in H as ([d h] & [= <- <- <-] & H). exists a, b, c, d, h. cbn [fst snd].
      assert (d <= 2 /\ h <= 1) as [? ?] by (simpl in H; repeat destruct H as [H|H]; try contradiction; injection H; lia). unfold in_range. auto 10.
    - intros (a & b & c & d & h & (Ha & Hb & Hc & Hd & Hh) & -> & -> & ->). destruct (S1 a b c Ha Hb Hc) as (eb & Hin & G).
      exists eb. split; auto. rewrite (faces_good _ _ _ _ G). apply in_map_iff. exists (d, h). split; auto.
      destruct d as [|[|[|]]], h as [|[|]]; simpl; auto; try lia; tauto.
  Qed.
  Lemma in_entries k e f : In (e, f) (entries k (all_faces m)) <->
    exists a b c d h, in_range a b c d h /\ e = num a b c /\ f = 2 * d + h /\ k = sort (flist a b c d h).
  Proof.
    unfold entries. rewrite in_map_iff. rewrite <- in_faces. split.
    - intros ([k' p] & E & H). apply filter_In in H as [H F]. apply sig_eqb_spec in F. cbn [fst snd] in *. subst. auto.
    - intros H. exists (k, (e, f)). split; auto. apply filter_In. split; auto. apply sig_eqb_spec. reflexivity.
  Qed.
  Lemma faces_nodup : NoDup (map snd (all_faces m)).
  Proof.
    destruct S as (Nm & _). assert (NoDup (map fst m)) as N by (rewrite Nm; apply seq_NoDup). clear S Nm.
    unfold all_faces. induction m as [|eb l IH]; [constructor|]. simpl in N. inversion N as [|? ? Hx Hn]; subst. cbn [flat_map]. rewrite map_app.
    assert (forall (u v : list (nat * nat)), NoDup u -> NoDup v -> (forall x, In x u -> ~ In x v) -> NoDup (u ++ v)) as App.
    { induction u as [|x u IHu]; intros v Hu Hv D; simpl; auto. inversion Hu; subst. constructor.
      - rewrite in_app_iff. intros [C|C]; auto. eapply D; simpl; eauto.
      - apply IHu; auto. intros y Hy. apply D. simpl. auto. }
    apply App; auto.
    - unfold faces_of. rewrite map_map. cbn [snd]. repeat constructor; simpl; intuition congruence.
    - intros [e f] H C. unfold faces_of in H. rewrite map_map in H. apply in_map_iff in H as (? & [= <- <-] & _).
      apply in_map_iff in C as ([k [e f]] & [= -> ->] & C). apply in_flat_map in C as (eb' & Hin & C). apply in_map_iff in C as (? & [= _ E _] & _).
      apply Hx. apply in_map_iff. exists eb'. auto.
  Qed.
  Lemma entries_nodup k : NoDup (entries k (all_faces m)).
  Proof.
    pose proof faces_nodup as N. unfold entries. revert N. induction (all_faces m) as [|x l IH]; simpl; intros N; [constructor|].
    inversion N as [|? ? Hx Hn]; subst. destruct (sig_eqb k (fst x)); simpl; auto. constructor; auto.
    rewrite in_map_iff. intros (y & E & Hy). apply filter_In in Hy as [Hy _]. apply Hx. rewrite <- E. now apply in_map.
  Qed.
  Definition is_dir (i d : nat) : bool := i =? d.
  Lemma in_flist v a b c d h : d <= 2 -> (In v (flist a b c d h) <->
    exists r s t, inr_ (is_dir 0 d) h r /\ inr_ (is_dir 1 d) h s /\ inr_ (is_dir 2 d) h t /\ v = lab (a + r) (b + s) (c + t)).
  Proof.
    intros Hd. destruct d as [|[|[|]]]; [| | |lia]; cbn [flist is_dir Nat.eqb inr_]; (split;
    [ intros H; simpl in H; repeat destruct H as [H|H]; try contradiction; rewrite <- H; do 3 eexists; repeat split; auto
    | intros (r & s & t & Hr & Hs & Ht & ->); repeat match goal with H : _ \/ _ |- _ => destruct H end; subst; simpl; auto ]).
  Qed.
  Lemma inr_some n h : exists r, inr_ n h r.
  Proof. destruct n; [exists h|exists 0]; simpl; auto. Qed.
  Lemma same_face a b c d h a' b' c' d' h' : Kx <> 2 -> Ky <> 2 -> Kz <> 2 -> distinct_edges Kx Ky Kz ->
    in_range a b c d h -> in_range a' b' c' d' h' -> sort (flist a b c d h) = sort (flist a' b' c' d' h') -> h = h' ->
    a = a' /\ b = b' /\ c = c' /\ d = d'.
  Proof.
    intros Nx Ny Nz (D1 & D2 & D3) (Ha & Hb & Hc & Hd & Hh) (Ha' & Hb' & Hc' & Hd' & Hh') E Eh.
    assert (forall v, In v (flist a b c d h) <-> In v (flist a' b' c' d' h')) as F.
    { intros v. rewrite <- in_sort, E. apply in_sort. }
    destruct (inr_some (is_dir 0 d) h) as [r0 R0], (inr_some (is_dir 1 d) h) as [s0 S0], (inr_some (is_dir 2 d) h) as [t0 T0].
    destruct (inr_some (is_dir 0 d') h') as [r1 R1], (inr_some (is_dir 1 d') h') as [s1 S1], (inr_some (is_dir 2 d') h') as [t1 T1].
    assert (forall r s t, inr_ (is_dir 0 d) h r -> inr_ (is_dir 1 d) h s -> inr_ (is_dir 2 d) h t ->
      exists r' s' t', inr_ (is_dir 0 d') h' r' /\ inr_ (is_dir 1 d') h' s' /\ inr_ (is_dir 2 d') h' t' /\
        (a + r) mod Kx = (a' + r') mod Kx /\ (b + s) mod Ky = (b' + s') mod Ky /\ (c + t) mod Kz = (c' + t') mod Kz) as FW.
    { intros r s t R S' T. destruct (proj1 (in_flist _ a' b' c' d' h' Hd') (proj1 (F _) (proj2 (in_flist (lab (a + r) (b + s) (c + t)) a b c d h Hd)
        (ex_intro _ r (ex_intro _ s (ex_intro _ t (conj R (conj S' (conj T eq_refl))))))))) as (r' & s' & t' & R' & S'' & T' & L).
      apply lab_inj in L as (? & ? & ?); auto. exists r', s', t'. auto 10. }
    assert (forall r s t, inr_ (is_dir 0 d') h' r -> inr_ (is_dir 1 d') h' s -> inr_ (is_dir 2 d') h' t ->
      exists r' s' t', inr_ (is_dir 0 d) h r' /\ inr_ (is_dir 1 d) h s' /\ inr_ (is_dir 2 d) h t' /\
        (a + r') mod Kx = (a' + r) mod Kx /\ (b + s') mod Ky = (b' + s) mod Ky /\ (c + t') mod Kz = (c' + t) mod Kz) as BW.
    { intros r s t R S' T. destruct (proj1 (in_flist _ a b c d h Hd) (proj2 (F _) (proj2 (in_flist (lab (a' + r) (b' + s) (c' + t)) a' b' c' d' h' Hd')
        (ex_intro _ r (ex_intro _ s (ex_intro _ t (conj R (conj S' (conj T eq_refl))))))))) as (r' & s' & t' & R' & S'' & T' & L).
      apply lab_inj in L as (? & ? & ?); auto. exists r', s', t'. auto 10. }
    assert (Kx = 1 \/ (is_dir 0 d = is_dir 0 d' /\ (is_dir 0 d = true -> (a + h) mod Kx = (a' + h') mod Kx) /\ (is_dir 0 d = false -> a = a'))) as X.
    { apply axis_set; auto; intros r R; [destruct (FW r s0 t0 R S0 T0) as (r' & ? & ? & ? & ? & ? & ? & ? & ?)|destruct (BW r s1 t1 R S1 T1) as (r' & ? & ? & ? & ? & ? & ? & ? & ?)]; eauto. }
    assert (Ky = 1 \/ (is_dir 1 d = is_dir 1 d' /\ (is_dir 1 d = true -> (b + h) mod Ky = (b' + h') mod Ky) /\ (is_dir 1 d = false -> b = b'))) as Y.
    { apply axis_set; auto; intros r R; [destruct (FW r0 r t0 R0 R T0) as (? & r' & ? & ? & ? & ? & ? & ? & ?)|destruct (BW r1 r t1 R1 R T1) as (? & r' & ? & ? & ? & ? & ? & ? & ?)]; eauto. }
    assert (Kz = 1 \/ (is_dir 2 d = is_dir 2 d' /\ (is_dir 2 d = true -> (c + h) mod Kz = (c' + h') mod Kz) /\ (is_dir 2 d = false -> c = c'))) as Z.
    { apply axis_set; auto; intros r R; [destruct (FW r0 s0 r R0 S0 R) as (? & ? & r' & ? & ? & ? & ? & ? & ?)|destruct (BW r1 s1 r R1 S1 R) as (? & ? & r' & ? & ? & ? & ? & ? & ?)]; eauto. }
    clear FW BW F E. subst h'.
    assert (forall K u v, 1 <= K -> u < K -> v < K -> (u + h) mod K = (v + h) mod K -> u = v) as Up.
    { intros K u v HK Hu Hv. assert (h = 0 \/ h = 1) as [->| ->] by lia; [rewrite !Nat.add_0_r, !Nat.mod_small; auto|now apply up_inj]. }
    assert (d = d') as <-.
    { destruct d as [|[|[|]]], d' as [|[|[|]]]; try lia; exfalso; cbn [is_dir Nat.eqb] in *; intuition congruence. }
    assert (a = a') by (destruct X as [->|(_ & X1 & X2)]; [lia|destruct (is_dir 0 d); [apply (Up Kx)|]; auto]).
    assert (b = b') by (destruct Y as [->|(_ & X1 & X2)]; [lia|destruct (is_dir 1 d); [apply (Up Ky)|]; auto]).
    assert (c = c') by (destruct Z as [->|(_ & X1 & X2)]; [lia|destruct (is_dir 2 d); [apply (Up Kz)|]; auto]).
    auto.
  Qed.
  (** the neighbour across a face *)
  Definition other (K a h : nat) : nat := if h =? 0 then (if a =? 0 then K - 1 else a - 1) else (if a + 1 =? K then 0 else a + 1).
  Lemma other_ok K a h : 1 <= K -> a < K -> h <= 1 -> other K a h < K /\ (other K a h + (1 - h)) mod K = (a + h) mod K.
  Proof.
    intros HK Ha Hh. unfold other. assert (h = 0 \/ h = 1) as [->| ->] by lia; cbn [Nat.eqb Nat.sub].
    - destruct (Nat.eqb_spec a 0) as [->|N]; (split; [lia|]).
      + replace (K - 1 + 1) with K by lia. rewrite Nat.mod_same, Nat.add_0_l, Nat.mod_0_l; lia.
      + f_equal. lia.
    - destruct (Nat.eqb_spec (a + 1) K) as [E|N]; (split; [lia|]).
      + rewrite E, Nat.add_0_l, Nat.mod_0_l, Nat.mod_same; lia.
      + f_equal. lia.
  Qed.
  Lemma partner k e f : In (e, f) (entries k (all_faces m)) -> exists e' f', In (e', f') (entries k (all_faces m)) /\ f <> f'.
  Proof.
    intros H. apply in_entries in H as (a & b & c & d & h & (Ha & Hb & Hc & Hd & Hh) & -> & -> & ->).
    destruct (other_ok Kx a h Kxp Ha Hh) as [Ox Ex]. destruct (other_ok Ky b h Kyp Hb Hh) as [Oy Ey]. destruct (other_ok Kz c h Kzp Hc Hh) as [Oz Ez].
    assert (exists a' b' c', a' < Kx /\ b' < Ky /\ c' < Kz /\ flist a' b' c' d (1 - h) = flist a b c d h) as (a' & b' & c' & Ha' & Hb' & Hc' & E).
    { destruct d as [|[|[|]]]; [exists (other Kx a h), b, c|exists a, (other Ky b h), c|exists a, b, (other Kz c h)|lia];
      repeat (split; [assumption|]); cbn [flist]; repeat (apply (f_equal2 cons)); auto; apply lab_ext; auto. }
    exists (num a' b' c'), (2 * d + (1 - h)). split; [|lia]. apply in_entries. exists a', b', c', d, (1 - h).
    unfold in_range. repeat (split; auto); try lia. now rewrite E.
  Qed.
  Lemma few_positions k : Kx <> 2 -> Ky <> 2 -> Kz <> 2 -> distinct_edges Kx Ky Kz -> length (entries k (all_faces m)) <= 2.
  Proof.
    intros Nx Ny Nz D. change 2 with (length [0; 1]). apply (rel_le (fun (p : nat * nat) h => snd p mod 2 = h)); [apply entries_nodup| |].
    - intros [e f] _. exists (f mod 2). split; auto. pose proof (Nat.mod_upper_bound f 2 ltac:(lia)). destruct (f mod 2) as [|[|]]; simpl; auto; lia.
    - intros [e f] [e' f'] q H H' E E'. cbn [snd] in *.
      apply in_entries in H as (a & b & c & d & h & R & -> & -> & ->). apply in_entries in H' as (a' & b' & c' & d' & h' & R' & -> & -> & L).
      assert (forall d h, h <= 1 -> (2 * d + h) mod 2 = h) as M2 by (intros; rewrite (Nat.add_comm (2 * _)), (Nat.mul_comm 2), Nat.mod_add by lia; apply Nat.mod_small; lia).
      rewrite M2 in E, E' by (unfold in_range in *; lia).
      destruct (same_face a b c d h a' b' c' d' h' Nx Ny Nz D R R' L) as (-> & -> & -> & ->); [congruence|]. repeat f_equal. congruence.
  Qed.
  Lemma exactly_two k v : Kx <> 2 -> Ky <> 2 -> Kz <> 2 -> distinct_edges Kx Ky Kz -> In (k, v) (face_pool m) -> length v = 2.
  Proof.
    intros Nx Ny Nz D H. apply pool_in in H as [-> H]. pose proof (few_positions k Nx Ny Nz D) as L.
    destruct (entries k (all_faces m)) as [|[e f] l] eqn:E; [contradiction|]. destruct (partner k e f) as (e' & f' & Hp & Hf); [rewrite E; simpl; auto|].
    rewrite E in Hp. destruct Hp as [[= <- <-]|Hp]; [contradiction|]. destruct l; [destruct Hp|]. simpl in *. lia.
  Qed.
  Lemma three k (p1 p2 p3 : nat * nat) : NoDup [p1; p2; p3] -> incl [p1; p2; p3] (entries k (all_faces m)) -> warns m = true.
  Proof. intros N I. apply warns_iff. exists k. pose proof (NoDup_incl_length N I). simpl in *. lia. Qed.
  Lemma two_perm4 {A} (p q r s : A) : Permutation [p; q; r; s] [q; p; s; r] /\ Permutation [p; q; r; s] [r; s; p; q].
  Proof.
    split.
    - transitivity [q; p; r; s]; [apply perm_swap|]. do 2 constructor. apply perm_swap.
    - change [p; q; r; s] with ([p; q] ++ [r; s]). change [r; s; p; q] with ([r; s] ++ [p; q]). apply Permutation_app_comm.
  Qed.
  Ltac dup := unfold PslThms.num; repeat constructor; simpl; intuition; try congruence; match goal with H : (_, _) = (_, _) |- _ => injection H; nia end.
  Ltac ones E E' := unfold flist, PslThms.lab; rewrite ?E, ?E', ?Nat.mod_1_r; reflexivity.
  Ltac wrap Wr := f_equal; cbn [flist]; repeat (apply (f_equal2 cons)); auto; apply lab_ext; auto; rewrite Wr; auto.
  Theorem slice_warns : warns m = true <-> (Kx = 2 \/ Ky = 2 \/ Kz = 2 \/ ~ distinct_edges Kx Ky Kz).
  Proof.
    split.
    - intros H. apply warns_iff in H as [k H].
      destruct (Nat.eq_dec Kx 2); auto. destruct (Nat.eq_dec Ky 2); auto. destruct (Nat.eq_dec Kz 2); auto.
      right; right; right. intros D. pose proof (few_positions k ltac:(auto) ltac:(auto) ltac:(auto) D). lia.
    - intros H.
      assert (forall a b c d h, in_range a b c d h -> forall k, k = sort (flist a b c d h) -> In (num a b c, 2 * d + h) (entries k (all_faces m))) as At.
      { intros a b c d h R k ->. apply in_entries. exists a, b, c, d, h. auto. }
      assert (Kx = 1 /\ Ky = 1 \/ Ky = 1 /\ Kz = 1 \/ Kx = 1 /\ Kz = 1 \/ Kx = 2 \/ Ky = 2 \/ Kz = 2) as C.
      { unfold distinct_edges in H. destruct (Nat.eq_dec Kx 1), (Nat.eq_dec Ky 1), (Nat.eq_dec Kz 1); try tauto. }
      assert (forall K, 1 <= K -> (K - 1 + 1) mod K = 0) as Wr by (intros K HK; replace (K - 1 + 1) with K by lia; apply Nat.mod_same; lia).
      assert (forall K, 1 <= K -> 0 mod K = 0) as Z0 by (intros K HK; apply Nat.mod_0_l; lia).
      destruct C as [[E E']|[[E E']|[[E E']|[E|[E|E]]]]].
      + apply (three (sort (flist 0 0 0 0 0)) (num 0 0 0, 0) (num 0 0 0, 1) (num 0 0 0, 2)); [repeat constructor; simpl; intuition congruence|].
        intros p [<-|[<-|[<-|[]]]]; [apply (At 0 0 0 0 0)|apply (At 0 0 0 0 1)|apply (At 0 0 0 1 0)]; unfold in_range; try lia; ones E E'.
      + apply (three (sort (flist 0 0 0 1 0)) (num 0 0 0, 2) (num 0 0 0, 3) (num 0 0 0, 4)); [repeat constructor; simpl; intuition congruence|].
        intros p [<-|[<-|[<-|[]]]]; [apply (At 0 0 0 1 0)|apply (At 0 0 0 1 1)|apply (At 0 0 0 2 0)]; unfold in_range; try lia; ones E E'.
      + apply (three (sort (flist 0 0 0 0 0)) (num 0 0 0, 0) (num 0 0 0, 1) (num 0 0 0, 4)); [repeat constructor; simpl; intuition congruence|].
        intros p [<-|[<-|[<-|[]]]]; [apply (At 0 0 0 0 0)|apply (At 0 0 0 0 1)|apply (At 0 0 0 2 0)]; unfold in_range; try lia; try solve [ones E E'].
        apply sort_perm. unfold flist, PslThms.lab. rewrite E, E', !Nat.mod_1_r. apply perm_skip, perm_swap.
      + apply (three (sort (flist 0 0 0 1 0)) (num 0 0 0, 2) (num 1 0 0, 2) (num 0 (Ky - 1) 0, 3)); [dup|].
        intros p [<-|[<-|[<-|[]]]]; [apply (At 0 0 0 1 0)|apply (At 1 0 0 1 0)|apply (At 0 (Ky - 1) 0 1 1)]; unfold in_range; try lia; auto; [|wrap Wr].
        apply sort_perm. unfold flist, PslThms.lab. rewrite E. apply (proj1 (two_perm4 _ _ _ _)).
      + apply (three (sort (flist 0 0 0 0 0)) (num 0 0 0, 0) (num 0 1 0, 0) (num (Kx - 1) 0 0, 1)); [dup|].
        intros p [<-|[<-|[<-|[]]]]; [apply (At 0 0 0 0 0)|apply (At 0 1 0 0 0)|apply (At (Kx - 1) 0 0 0 1)]; unfold in_range; try lia; auto; [|wrap Wr].
        apply sort_perm. unfold flist, PslThms.lab. rewrite E. apply (proj1 (two_perm4 _ _ _ _)).
      + apply (three (sort (flist 0 0 0 0 0)) (num 0 0 0, 0) (num 0 0 1, 0) (num (Kx - 1) 0 0, 1)); [dup|].
        intros p [<-|[<-|[<-|[]]]]; [apply (At 0 0 0 0 0)|apply (At 0 0 1 0 0)|apply (At (Kx - 1) 0 0 0 1)]; unfold in_range; try lia; auto; [|wrap Wr].
        apply sort_perm. unfold flist, PslThms.lab. rewrite E. apply (proj2 (two_perm4 _ _ _ _)).
  Qed.
End Slice.
