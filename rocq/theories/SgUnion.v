From Coq Require Import Reals Bool Lra List.
From Verif Require Import SgModel SgSpec SgThms SgThms2.
Import ListNotations.
Local Open Scope R_scope.

(** stretches c-d of the x axis, one after the other, each beginning where the last ended or at least 1e-4 later *)
Fixpoint chain (lo : R) (l : list (R * R)) : Prop :=
  match l with
  | [] => True
  | (c, d) :: r => (c = lo \/ lo + / 10 ^ 4 <= c) /\ c + / 10 ^ 4 <= d /\ d <= 50 /\ chain d r
  end.
(** the pieces between successive cuts, each at least 1e-4 long *)
Fixpoint pieces (lo : R) (cuts : list R) : list (R * R) :=
  match cuts with [] => [] | c :: r => (lo, c) :: pieces c r end.
Fixpoint spaced (lo : R) (cuts : list R) : Prop :=
  match cuts with [] => True | c :: r => lo + / 10 ^ 4 <= c /\ c <= 50 /\ spaced c r end.
Definition segs (l : list (R * R)) : list seg := map (fun cd => xs (fst cd) (snd cd)) l.
Definition total (l : list (R * R)) : R := fold_right (fun cd t => snd cd - fst cd + t) 0 l.
Definition inb (a b : R) (cd : R * R) : bool := leb a (fst cd) && leb (snd cd) b.
(** each stretch is inside a-b or sticks out by 1e-4 *)
Definition clear_cut (a b : R) (cd : R * R) : Prop :=
  (a <= fst cd /\ snd cd <= b) \/ fst cd + / 10 ^ 4 <= a \/ b + / 10 ^ 4 <= snd cd.

Lemma chain_in l : forall lo c d, chain lo l -> In (c, d) l -> (c = lo \/ lo + / 10 ^ 4 <= c) /\ c + / 10 ^ 4 <= d /\ d <= 50.
Proof.
  assert (P : 0 < / 10 ^ 4) by (apply Rinv_0_lt_compat; lra).
  induction l as [|[c0 d0] r IH]; intros lo c d H Hin; [destruct Hin|]; destruct Hin as [Hin|Hin]; destruct H as (H1 & H2 & H3 & H4).
  - injection Hin as <- <-; auto.
  - destruct (IH d0 c d H4 Hin) as (A & B & C); repeat split; auto; right; destruct H1, A; lra.
Qed.
Lemma chain_separate l : forall lo, -50 <= lo -> chain lo l -> separate (segs l) = true.
Proof.
  assert (P : 0 < / 10 ^ 4) by (apply Rinv_0_lt_compat; lra).
  induction l as [|[c d] r IH]; intros lo Hlo H; [reflexivity|].
  cbn in H; destruct H as (H1 & H2 & H3 & H4).
  assert (Hc : -50 <= c) by (destruct H1; lra).
  cbn [segs map separate fst snd]; apply andb_true_iff; split; [|apply (IH d); auto; lra].
  apply forallb_forall; intros g Hg; apply in_map_iff in Hg as ([c' d'] & <- & Hin); cbn [fst snd].
  destruct (chain_in r d c' d' H4 Hin) as ([->|A] & B & C).
  - rewrite touch_right by lra; reflexivity.
  - rewrite (proj1 (apart c d c' d' ltac:(lra) ltac:(lra) ltac:(lra) ltac:(lra) A)); reflexivity.
Qed.
Lemma filter_all {A} (f : A -> bool) l : (forall x, f x = true) -> filter f l = l.
Proof. intros H; induction l as [|x r IH]; cbn; [auto|rewrite H, IH; auto]. Qed.
Lemma segs_parallel a b l : filter (fun g => parallel (xs a b) g) (segs l) = segs l.
Proof. induction l as [|[c d] r IH]; cbn [segs map filter fst snd]; [auto|]. rewrite xs_parallel; f_equal; exact IH. Qed.
Lemma contained a b c d : -50 <= a -> b <= 50 -> a + / 10 ^ 4 <= b -> -50 <= c -> d <= 50 -> c + / 10 ^ 4 <= d ->
  clear_cut a b (c, d) -> contain (xs a b) (xs c d) = inb a b (c, d).
Proof.
  assert (P : 0 < / 10 ^ 4) by (apply Rinv_0_lt_compat; lra).
  intros Ha Hb Hab Hc Hd Hcd; unfold clear_cut, inb; cbn [fst snd]; intros [[A B]|H].
  - rewrite (leb_t a c A), (leb_t d b B); unfold contain; destruct (seg_eq _ _); auto.
    rewrite xs_A, xs_B, !xs_in by lra; reflexivity.
  - rewrite sticking_out by (auto; lra). symmetry; apply andb_false_iff.
    destruct H; [left|right]; apply leb_f; lra.
Qed.
Lemma union_total a b lo l : -50 <= a -> b <= 50 -> a + / 10 ^ 4 <= b -> -50 <= lo -> chain lo l ->
  List.Forall (clear_cut a b) l ->
  union (xs a b) (segs l) = Some (ltb (Rabs (b - a - total (filter (inb a b) l))) (/ 10 ^ 8)).
Proof.
  assert (P : 0 < / 10 ^ 4) by (apply Rinv_0_lt_compat; lra).
  intros Ha Hb Hab Hlo Hch Hcl; unfold union; rewrite segs_parallel, (chain_separate l lo) by auto.
  rewrite xs_A, xs_B, xs_dist, (Rabs_pos_eq (b - a)) by lra.
  do 3 f_equal. f_equal. f_equal.
  revert lo Hlo Hch; induction l as [|[c d] r IH]; intros lo Hlo Hch; [reflexivity|].
  cbn in Hch; destruct Hch as (H1 & H2 & H3 & H4).
  inversion Hcl as [|? ? X Y]; subst.
  assert (Hc : -50 <= c) by (destruct H1; lra).
  cbn [segs map filter fst snd]; rewrite contained by (auto; lra).
  specialize (IH Y d ltac:(lra) H4).
  destruct (inb a b (c, d)); cbn [map fold_right total fst snd].
  - rewrite xs_A, xs_B, xs_dist, Rabs_pos_eq by lra. f_equal; exact IH.
  - exact IH.
Qed.
Lemma pieces_chain cuts : forall lo, spaced lo cuts -> chain lo (pieces lo cuts).
Proof. induction cuts as [|c r IH]; intros lo H; cbn; auto. destruct H as (A & B & C); auto 6. Qed.
Lemma pieces_total cuts : forall lo, total (pieces lo cuts) = last cuts lo - lo.
Proof.
  induction cuts as [|c r IH]; intros lo; cbn [pieces total fold_right fst snd]; [cbn; ring|].
  fold (total (pieces c r)); rewrite IH. destruct r as [|c' r']; [cbn; ring|].
  change (last (c :: c' :: r') lo) with (last (c' :: r') lo).
  replace (last (c' :: r') lo) with (last (c' :: r') c); [ring|].
  clear; revert c'; induction r' as [|x r IH]; intros c'; [reflexivity|]. exact (IH x).
Qed.
Lemma spaced_last cuts : forall lo, spaced lo cuts -> lo <= last cuts lo.
Proof.
  assert (P : 0 < / 10 ^ 4) by (apply Rinv_0_lt_compat; lra).
  induction cuts as [|c r IH]; intros lo H; [cbn; lra|]. destruct H as (A & B & C).
  specialize (IH c C). replace (last (c :: r) lo) with (last r c); [lra|].
  destruct r as [|c' r']; [reflexivity|].
  change (last (c :: c' :: r') lo) with (last (c' :: r') lo).
  clear; revert c'; induction r' as [|x r IH]; intros c'; [reflexivity|]. exact (IH x).
Qed.
Lemma pieces_in cuts : forall lo c d, spaced lo cuts -> In (c, d) (pieces lo cuts) -> lo <= c /\ d <= last cuts lo.
Proof.
  assert (P : 0 < / 10 ^ 4) by (apply Rinv_0_lt_compat; lra).
  induction cuts as [|x r IH]; intros lo c d H Hin; [destruct Hin|]; destruct Hin as [Hin|Hin]; destruct H as (A & B & C).
  - injection Hin as <- <-. split; [lra|].
    pose proof (spaced_last r x C). replace (last (x :: r) lo) with (last r x); [auto|].
    destruct r as [|c' r']; [reflexivity|].
    change (last (x :: c' :: r') lo) with (last (c' :: r') lo).
    clear; revert c'; induction r' as [|y r IH]; intros c'; [reflexivity|]. exact (IH y).
  - destruct (IH x c d C Hin); split; [lra|].
    replace (last (x :: r) lo) with (last r x); [auto|].
    destruct r as [|c' r']; [reflexivity|].
    change (last (x :: c' :: r') lo) with (last (c' :: r') lo).
    clear; revert c'; induction r' as [|y r IH']; intros c'; [reflexivity|]. exact (IH' y).
Qed.
Lemma filter_id {A} (f : A -> bool) l : (forall x, In x l -> f x = true) -> filter f l = l.
Proof.
  induction l as [|x r IH]; intros H; cbn; auto.
  rewrite (H x) by (left; auto); f_equal; apply IH; intros; apply H; right; auto.
Qed.
Lemma union_pieces a c cuts : -50 <= a -> spaced a (c :: cuts) ->
  union (xs a (last (c :: cuts) a)) (segs (pieces a (c :: cuts))) = Some true.
Proof.
  intros Ha H. pose proof (spaced_last cuts c) as HL.
  assert (L : last (c :: cuts) a = last cuts c).
  { destruct cuts as [|c' r']; [reflexivity|].
    change (last (c :: c' :: r') a) with (last (c' :: r') a).
    clear; revert c'; induction r' as [|y r IH']; intros c'; [reflexivity|]. exact (IH' y). }
  assert (HB : last (c :: cuts) a <= 50).
  { clear -H. assert (G : forall l lo, lo <= 50 -> spaced lo l -> last l lo <= 50).
    { induction l as [|x r IH]; intros lo Hlo Hs; [exact Hlo|]. destruct Hs as (A & B & C).
      destruct r as [|y r']; [exact B|]. specialize (IH x B C).
      replace (last (x :: y :: r') lo) with (last (y :: r') x); [exact IH|].
      change (last (x :: y :: r') lo) with (last (y :: r') lo).
      clear; revert y; induction r' as [|z r IH']; intros y; [reflexivity|]. exact (IH' z). }
    apply G; auto. destruct H as (A & B & C). assert (0 < / 10 ^ 4) by (apply Rinv_0_lt_compat; lra). lra. }
  assert (In_ : forall x, In x (pieces a (c :: cuts)) -> a <= fst x /\ snd x <= last (c :: cuts) a).
  { intros [x y] Hx; exact (pieces_in (c :: cuts) a x y H Hx). }
  rewrite (union_total a (last (c :: cuts) a) a) ; auto.
  - rewrite filter_id, pieces_total.
    + f_equal; apply ltb_t. rewrite Rminus_diag_eq, Rabs_R0 by ring; apply Rinv_0_lt_compat; lra.
    + intros x Hx; destruct (In_ x Hx); unfold inb; rewrite !leb_t by auto; auto.
  - destruct H as (A & B & C); rewrite L; specialize (HL C); lra.
  - apply pieces_chain; exact H.
  - apply Forall_forall; intros x Hx; left; auto.
Qed.
(** one stretch missing: not equal *)
Lemma union_missing a b lo l : -50 <= a -> b <= 50 -> a + / 10 ^ 4 <= b -> -50 <= lo -> chain lo l ->
  List.Forall (clear_cut a b) l -> total (filter (inb a b) l) <= b - a - / 10 ^ 8 -> union (xs a b) (segs l) = Some false.
Proof.
  intros Ha Hb Hab Hlo Hch Hcl H; rewrite (union_total a b lo) by auto.
  f_equal; apply ltb_f. eapply Rle_trans; [|apply Rle_abs]. lra.
Qed.
(** the separation is checked for all parallel segments, even those far away *)
Lemma union_far : union (xs 0 1) [xs 0 1; mkSeg (mkPt 0 5) (mkPt 1 5); mkSeg (mkPt 0 5) (mkPt 1 5)] = None.
Proof.
  assert (P9 : 0 < / 10 ^ 9) by (apply Rinv_0_lt_compat; lra).
  set (g := mkSeg (mkPt 0 5) (mkPt 1 5)).
  assert (Q : parallel (xs 0 1) g = true).
  { unfold parallel; apply isclose_zero; [lra|]. unfold det, xs, g; cbn [sA sB ptx pty].
    replace (_ - _) with 0 by ring; rewrite Rabs_R0; lra. }
  assert (G : parallel g g = true).
  { unfold parallel; apply isclose_zero; [lra|]. unfold det, g; cbn [sA sB ptx pty].
    replace (_ - _) with 0 by ring; rewrite Rabs_R0; lra. }
  assert (I : par_inter g g = Some (ISeg g)).
  { unfold par_inter; rewrite G, end_A, end_B; reflexivity. }
  unfold union; cbn [filter]; rewrite xs_parallel, Q; cbn [separate forallb].
  rewrite I; cbn [andb]; rewrite andb_false_r; reflexivity.
Qed.
Lemma gap_example : chain 0 [(0, 1); (2, 3); (5, 7)] /\ List.Forall (clear_cut 0 3) [(0, 1); (2, 3); (5, 7)] /\
  total (filter (inb 0 3) [(0, 1); (2, 3); (5, 7)]) <= 3 - 0 - / 10 ^ 8.
Proof.
  split; [|split].
  - cbn [chain]; repeat split; lra.
  - repeat constructor; unfold clear_cut; cbn [fst snd]; lra.
  - cbn [filter]; unfold inb; cbn [fst snd].
    rewrite (leb_t 0 0), (leb_t 1 3), (leb_t 0 2), (leb_t 3 3), (leb_t 0 5), (leb_f 7 3) by lra; cbn [andb total fold_right fst snd]; lra.
Qed.
