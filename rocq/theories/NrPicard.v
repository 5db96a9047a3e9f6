(** Proofs: the norms of the Picard iteration are those of the differences of successive solutions. *)
From Coq Require Import List ZArith QArith Qcanon Bool Arith Lia.
From Verif Require Import NrModel NrSpec NrProofs NrRun NrMain NrTotal.
Import ListNotations.
Local Open Scope nat_scope.

Definition writes (W : list (nat * Qc)) (v : list Qc) : list Qc := fold_left (fun v w => replace_nth v (fst w) (snd w)) W v.
Lemma replace_nth_len {X} (l : list X) : forall n a, length (replace_nth l n a) = length l.
Proof. induction l as [|b l IH]; intros [|n] a; cbn [replace_nth length]; try easy. now rewrite IH. Qed.
Lemma writes_len W : forall v, length (writes W v) = length v.
Proof. induction W as [|w W IH]; intros v; [easy|]. cbn [writes fold_left]. fold (writes W (replace_nth v (fst w) (snd w))). now rewrite IH, replace_nth_len. Qed.
Lemma writes_other W : forall v n, ~ In n (map fst W) -> nth_error (writes W v) n = nth_error v n.
Proof.
  induction W as [|w W IH]; intros v n H; [easy|]. cbn [writes fold_left]. fold (writes W (replace_nth v (fst w) (snd w))).
  cbn [map In] in H. rewrite IH by tauto. rewrite replace_nth_nth. destruct (n =? fst w) eqn:E; [|easy]. apply Nat.eqb_eq in E. subst n. tauto.
Qed.
Lemma writes_agree W y : (forall n a, In (n, a) W -> nth_error y n = Some a) -> forall v, length v = length y -> forall n, In n (map fst W) -> nth_error (writes W v) n = nth_error y n.
Proof.
  induction W as [|[k a] W IH]; intros H v L n Hin; [easy|]. cbn [writes fold_left fst snd]. fold (writes W (replace_nth v k a)).
  destruct (in_dec Nat.eq_dec n (map fst W)) as [Hi|Hi].
  - apply IH; [intros; apply H; now right|now rewrite replace_nth_len|easy].
  - rewrite writes_other by easy. destruct Hin as [E|Hin]; [|easy]. cbn [fst] in E. subst k. rewrite replace_nth_nth, Nat.eqb_refl.
    rewrite (H n a (or_introl eq_refl)). destruct (nth_error v n) eqn:E; [easy|]. apply nth_error_None in E.
    assert (n < length y) by (apply nth_error_Some; rewrite (H n a (or_introl eq_refl)); easy). lia.
Qed.
Lemma fold_flat {A B S} (f : A -> list B) (g : S -> B -> S) l : forall s, fold_left (fun s a => fold_left g (f a) s) l s = fold_left g (flat_map f l) s.
Proof. induction l as [|a l IH]; intros s; [easy|]. cbn [fold_left flat_map]. now rewrite fold_left_app, IH. Qed.
Lemma fold_ext {S A} (f g : S -> A -> S) (H : forall s a, f s a = g s a) l : forall s, fold_left f l s = fold_left g l s.
Proof. induction l as [|a l IH]; intros s; [easy|]. cbn [fold_left]. now rewrite H, IH. Qed.
Lemma fold_map {S A B} (f : S -> B -> S) (h : A -> B) l : forall s, fold_left (fun s a => f s (h a)) l s = fold_left f (map h l) s.
Proof. induction l as [|a l IH]; intros s; [easy|]. cbn [fold_left map]. now rewrite IH. Qed.
(** all writes of the assembling *)
Definition all_writes (gms : list (list (list nat))) (chain : nat -> nat -> nat) (x : iterate) : list (nat * Qc) :=
  flat_map (fun u => flat_map (fun e => map (fun dy => (chain u (fst dy), snd dy)) (combine (nth e (nth u gms []) []) (nth e (nth u x []) [])))
    (seq 0 (length (nth u gms [])))) (seq 0 (length gms)).
Lemma gathered_writes gms chain N x : gathered gms chain N x = writes (all_writes gms chain x) (repeat 0%Qc N).
Proof.
  unfold gathered, writes, all_writes. rewrite <- fold_flat. apply fold_ext. intros v u. rewrite <- fold_flat. apply fold_ext. intros v' e.
  unfold place. now rewrite <- fold_map.
Qed.
Lemma combine_nth_in {A B} (a : list A) (b : list B) p : In p (combine a b) <-> exists l, nth_error a l = Some (fst p) /\ nth_error b l = Some (snd p).
Proof.
  revert b. induction a as [|x a IH]; intros [|y b]; cbn [combine In]; split; try easy.
  - now intros ([|l] & H & _).
  - now intros ([|l] & H & _).
  - now intros ([|l] & _ & H).
  - intros [<-|H]; [now exists 0|]. apply IH in H. destruct H as [l H]. now exists (S l).
  - intros ([|l] & H1 & H2); cbn [nth_error] in *; [left; destruct p; cbn [fst snd] in *; congruence|right; apply IH; now exists l].
Qed.
Lemma nth_at3 {X} (x : list (list (list X))) u e l v : nth_error (nth e (nth u x []) []) l = Some v -> at3 x u e l = Some v.
Proof.
  unfold at3. intros H. destruct (nth_error x u) as [xu|] eqn:E.
  - rewrite (nth_error_nth x u [] E) in H. destruct (nth_error xu e) as [xe|] eqn:E2.
    + now rewrite (nth_error_nth xu e [] E2) in H.
    + apply nth_error_None in E2. rewrite (nth_overflow xu []) in H by easy. now destruct l.
  - apply nth_error_None in E. rewrite (nth_overflow x []) in H by easy. now destruct e, l.
Qed.
Lemma at3_nth {X} (x : list (list (list X))) u e l v : at3 x u e l = Some v -> nth_error (nth e (nth u x []) []) l = Some v /\ u < length x /\ e < length (nth u x []).
Proof.
  unfold at3. intros H. destruct (nth_error x u) as [xu|] eqn:E; [|discriminate]. destruct (nth_error xu e) as [xe|] eqn:E2; [|discriminate].
  rewrite (nth_error_nth x u [] E), (nth_error_nth xu e [] E2). split; [easy|]. split; apply nth_error_Some; congruence.
Qed.
Lemma gathered_distributed gms chain N y x : covers gms chain N -> length y = N -> distributed gms chain y x -> gathered gms chain N x = y.
Proof.
  intros Hc L [Hf Hd]. rewrite gathered_writes.
  assert (A : forall n a, In (n, a) (all_writes gms chain x) -> nth_error y n = Some a).
  { intros n a H. unfold all_writes in H. apply in_flat_map in H. destruct H as (u & _ & H). apply in_flat_map in H. destruct H as (e & _ & H).
    apply in_map_iff in H. destruct H as ([d v] & E & H). injection E as <- <-. apply combine_nth_in in H. destruct H as (l & H1 & H2). cbn [fst snd] in *.
    apply nth_at3 in H1, H2. specialize (Hd u e l). rewrite H1, H2 in Hd. easy. }
  assert (B : forall n, n < N -> In n (map fst (all_writes gms chain x))).
  { intros n Hn. apply Hc in Hn. destruct Hn as (u & e & l & d & Hg & E).
    destruct (at3 x u e l) as [v|] eqn:Ex; [|apply Hf in Ex; congruence].
    destruct (at3_nth _ _ _ _ _ Hg) as (H1 & Hu & He). destruct (at3_nth _ _ _ _ _ Ex) as (H2 & _ & _).
    apply in_map_iff. exists (n, v). split; [easy|]. unfold all_writes. apply in_flat_map. exists u. split; [apply in_seq; lia|].
    apply in_flat_map. exists e. split; [apply in_seq; lia|]. apply in_map_iff. exists (d, v). cbn [fst snd]. split; [now rewrite E|]. apply combine_nth_in. now exists l. }
  assert (Lr : length (repeat 0%Qc N) = length y) by now rewrite repeat_length.
  assert (E : forall n, nth_error (writes (all_writes gms chain x) (repeat 0%Qc N)) n = nth_error y n).
  { intros n. destruct (Nat.lt_ge_cases n N) as [K|K]; [apply writes_agree; auto|].
    transitivity (@None Qc); [|symmetry]; apply nth_error_None; [rewrite writes_len|]; lia. }
  clear - E. revert E. generalize (writes (all_writes gms chain x) (repeat 0%Qc N)). intros l. revert y. induction l as [|a l IH]; intros [|b y] E; try easy.
  - specialize (E 0). discriminate.
  - specialize (E 0). discriminate.
  - pose proof (E 0) as E0. injection E0 as ->. f_equal. apply IH. intros n. apply (E (S n)).
Qed.
Lemma vsub_minus x : forall y d, vsub x y = Some d -> d = minus x y /\ length x = length y.
Proof.
  unfold vsub, minus. induction x as [|a x IH]; intros [|b y] d H; cbn [ozip] in H; try discriminate; [now injection H as <-|].
  destruct (ozip _ x y) as [t|] eqn:E; [|discriminate]. injection H as <-. destruct (IH y t E) as [-> L]. cbn [combine map fst snd length]. now rewrite L.
Qed.
Lemma gathered_len gms chain N x : length (gathered gms chain N x) = N.
Proof. rewrite gathered_writes, writes_len. apply repeat_length. Qed.
Lemma changes_diffs gms chain N (Hc : covers gms chain N) ys : forall x g ds, gathered gms chain N x = g -> changes gms chain N x ys = Some ds -> ds = diffs g ys.
Proof.
  induction ys as [|y ys IH]; intros x g ds Hg H; cbn [changes] in H; [now injection H as <-|]. rewrite Hg in H.
  destruct (vsub g y) as [d|] eqn:Ev; [|discriminate]. destruct (scatter gms chain y) as [x1|] eqn:Es; [|discriminate].
  destruct (changes gms chain N x1 ys) as [r|] eqn:E; [|discriminate]. injection H as <-. apply vsub_minus in Ev. destruct Ev as [-> L].
  cbn [diffs]. f_equal. apply (IH x1 y r); [|easy]. apply gathered_distributed; [easy| |now apply scatter_at].
  rewrite <- L, <- Hg. apply gathered_len.
Qed.
Section PicardMain.
Variables (gms : list (list (list nat))) (chain : nat -> nat -> nat) (N : nat) (nrm : list Qc -> fl)
  (lin : iterate -> list what -> option (list Qc)) (rep : nat -> nat -> option nat) (atol : Q) (m : maxit).
Lemma picard_value uniq h mm x0 g0 mm' x i B : solve gms chain N nrm lin rep atol m uniq Picard h mm x0 = (mm', Some (Global x, i, B)) ->
  covers gms chain N -> length g0 = N -> distributed gms chain g0 x0 ->
  exists ys y xf, ys = y ++ [x] /\ picard_path gms chain lin (map fst (m_cus mm ++ flat_map (unhold Picard) h)) x0 ys xf /\
    m_store mm' = Some xf /\ B = map nrm (diffs g0 ys).
Proof.
  intros H Hc L Hd. apply solve_picard in H. destruct H as (x' & k & B' & j & i' & H & E & _). injection E as <- <- <-.
  apply picard_done in H; [|easy]. destruct H as (_ & _ & ys & y & xf & ds & Hs & _ & Ey & Hp & Hch & HB & _).
  exists ys, y, xf. split; [easy|]. split; [easy|]. split; [easy|]. cbn [app] in HB. rewrite HB. f_equal.
  apply (changes_diffs gms chain N Hc ys x0 g0); [|easy]. now apply gathered_distributed.
Qed.
End PicardMain.
Lemma picard_constraint gms chain N nrm lin rep atol m uniq h mm x0 mm' r u d p : solve gms chain N nrm lin rep atol m uniq Picard h mm x0 = (mm', Some r) ->
  In (AddFix u d p) (map fst (m_cus mm)) -> uniq = true /\ exists e, rep u d = Some e /\ at3 x0 u e d = Some 0%Qc.
Proof.
  intros H Hin. apply solve_picard in H. destruct H as (x' & k & B' & j & i' & H & _).
  set (cs := m_cus mm ++ flat_map (unhold Picard) h) in *.
  assert (Hc : In (AddFix u d p) (map fst cs)) by (unfold cs; rewrite map_app; apply in_or_app; now left). clearbody cs.
  destruct (enough m) as [|fuel]; cbn [picard_loop] in H; [discriminate|].
  destruct (take picard_kind 1 cs) as [cs1 ok] eqn:Et. pose proof (take_fst _ _ _ _ _ Et) as Ef.
  destruct ok; cbn [negb] in H; [|discriminate]. destruct uniq; cbn [negb] in H; [|discriminate]. split; [easy|].
  destruct (forallb (fun c => guess_ok rep x0 (fst c)) cs1) eqn:E; cbn [negb] in H; [|discriminate].
  rewrite <- Ef in Hc. apply in_map_iff in Hc. destruct Hc as ([w f] & Ew & Hc). rewrite forallb_forall in E. specialize (E _ Hc). cbn [fst] in *. subst w.
  cbn [guess_ok] in E. destruct (rep u d) as [e|]; [|discriminate]. exists e. split; [easy|]. unfold at3.
  destruct (nth_error x0 u) as [xu|]; [|discriminate]. destruct (nth_error xu e) as [xe|]; [|discriminate].
  destruct (nth_error xe d) as [v|]; [|discriminate]. f_equal. now apply Qc_eq_bool_correct in E.
Qed.
