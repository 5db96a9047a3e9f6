(** Node sets with the same text are close. *)
From Coq Require Import List ZArith QArith Qcanon Qabs Bool String Ascii Lia Lqa.
From Verif Require Import Dict MetricKeyModel MetricKeyThms MemoModel MemoProofs MiscModel MiscSpec MiscText NdCacheModel PolyCacheModel PolyCacheThms.
Import ListNotations.
Local Open Scope string_scope.

(** the text [s] stands for [v] hundred-thousandths *)
Definition reads (s : string) (v : Z) : Prop :=
  exists (neg : bool) a b t, (0 <= a)%Z /\ (0 <= b)%Z /\ s = ((if neg then "-" else "") ++ str_z a ++ String "." t) /\ int_of t = Some b /\
    no_char "." t /\ no_char "|" t /\ v = ((if neg then -1 else 1) * (a * 100000 + b))%Z.
Lemma head_no (neg : bool) a c : num_char c = false -> c <> "-"%char -> no_char c ((if neg then "-" else "") ++ str_z a).
Proof. intros H N. apply no_app. split; [|apply str_no; exact H]. destruct neg; [|apply no_nil]. apply no_cons. split; [congruence|apply no_nil]. Qed.
Lemma reads_fun s v w : reads s v -> reads s w -> v = w.
Proof.
  intros (n1 & a1 & b1 & t1 & A1 & B1 & E1 & I1 & D1 & _ & ->) (n2 & a2 & b2 & t2 & A2 & B2 & E2 & I2 & D2 & _ & ->).
  rewrite E1 in E2. rewrite <- !append_assoc in E2.
  assert (S := f_equal (split ".") E2). rewrite !split_app in S by (apply head_no; [reflexivity|discriminate]).
  rewrite !split_no in S by assumption. injection S as S1 S2. subst t2. rewrite I1 in I2. injection I2 as ->.
  destruct n1, n2; cbn [append] in S1.
  - injection S1 as S1. apply str_z_inj in S1. subst. reflexivity.
  - assert (Q := f_equal int_of S1). rewrite (int_of_str a2) in Q. pose proof (proj2 (zeros_nat 0 a1 A1)) as Z0. cbn [zeros append] in Z0. rewrite Z0 in Q. injection Q as Q.
    assert (a1 = 0%Z) by lia. assert (a2 = 0%Z) by lia. subst. vm_compute in S1. discriminate.
  - assert (Q := f_equal int_of S1). rewrite (int_of_str a1) in Q. pose proof (proj2 (zeros_nat 0 a2 A2)) as Z0. cbn [zeros append] in Z0. rewrite Z0 in Q. injection Q as Q.
    assert (a1 = 0%Z) by lia. assert (a2 = 0%Z) by lia. subst. vm_compute in S1. discriminate.
  - apply str_z_inj in S1. subst. reflexivity.
Qed.
Local Open Scope Q_scope.
Lemma fmt5_reads q : exists v, reads (fmt5 q) v /\ Qabs (inject_Z v - this q * 100000) <= 1 # 2.
Proof.
  unfold fmt5. set (m := rnd (this (qabs q) * 100000)).
  assert (N := rnd_near (this (qabs q) * 100000)). fold m in N.
  assert (P : 0 <= this (qabs q)).
  { unfold qabs. destruct (Qclt_le_dec q 0%Qc) as [H|H]; [|exact H].
    unfold Qclt in H. change (this 0%Qc) with 0 in H. unfold Qcopp, Q2Qc. cbn [this]. rewrite Qred_correct. lra. }
  assert (M : (0 <= m)%Z).
  { apply Qabs_Qle_condition in N. destruct N as [N1 N2].
    destruct (Z_lt_le_dec m 0) as [L|L]; [|exact L]. exfalso.
    assert (inject_Z m <= inject_Z (-1)) by (rewrite <- Zle_Qle; lia). change (inject_Z (-1)) with (-1 # 1) in *. lra. }
  pose proof (Z.mod_pos_bound m 100000 ltac:(lia)). pose proof (Z.div_pos m 100000 M ltac:(lia)).
  assert (R : reads ((if Qclt_le_dec q 0%Qc then "-" else "") ++ str_z (m / 100000) ++ "." ++ pad 5 (m mod 100000)) ((if Qclt_le_dec q 0%Qc then -1 else 1) * m)%Z).
  { exists (if Qclt_le_dec q 0%Qc then true else false), (m / 100000)%Z, (m mod 100000)%Z, (pad 5 (m mod 100000)).
    split; [lia|]. split; [lia|]. split; [destruct (Qclt_le_dec q 0%Qc); reflexivity|]. split; [apply int_of_pad|].
    split; [apply pad_no; reflexivity|]. split; [apply pad_no; reflexivity|]. pose proof (Z.div_mod m 100000 ltac:(lia)).
    destruct (Qclt_le_dec q 0%Qc); lia. }
  eexists. split; [exact R|]. unfold qabs in N. destruct (Qclt_le_dec q 0%Qc) as [H'|H'].
  - unfold Qcopp, Q2Qc in N. cbn [this] in N. rewrite Qred_correct in N. rewrite inject_Z_mult.
    apply Qabs_Qle_condition in N. apply Qabs_Qle_condition. change (inject_Z (-1)) with (-1 # 1). lra.
  - rewrite Z.mul_1_l. exact N.
Qed.
Lemma node_text_reads q : exists v, reads (node_text q) v /\ Qabs (inject_Z v - this q * 100000) <= 1 # 2.
Proof.
  unfold node_text. destruct (Qc_eq_dec q (Q2Qc (-1))) as [->|_].
  - exists (-100000)%Z. split; [|cbn; unfold Qle; cbn; lia]. exists true, 1%Z, 0%Z, "0". repeat split; try lia; try reflexivity; intros [E|[]]; discriminate.
  - destruct (Qc_eq_dec q 1%Qc) as [->|_]; [|apply fmt5_reads].
    exists 100000%Z. split; [|cbn; unfold Qle; cbn; lia]. exists false, 1%Z, 0%Z, "0". repeat split; try lia; try reflexivity; intros [E|[]]; discriminate.
Qed.
Lemma node_text_near p q : node_text p = node_text q -> Qabs (this p - this q) <= 1 # 100000.
Proof.
  intros E. destruct (node_text_reads p) as (v & R & N), (node_text_reads q) as (w & R' & N'). rewrite E in R.
  rewrite (reads_fun _ _ _ R R') in N. apply Qabs_Qle_condition in N, N'. apply Qabs_Qle_condition. lra.
Qed.
Lemma node_text_no q : no_char "|" (node_text q) /\ node_text q <> "".
Proof.
  destruct (node_text_reads q) as (v & (neg & a & b & t & _ & _ & E & _ & _ & T & _) & _). rewrite E. split.
  - rewrite <- append_assoc. apply no_app. split; [apply head_no; [reflexivity|discriminate]|]. apply no_cons. split; [discriminate|exact T].
  - destruct neg; cbn [append]; [discriminate|]. destruct (str_z a) eqn:Z; [|discriminate]. exfalso. apply (str_z_nonempty a Z).
Qed.
Lemma split_bar l : l <> [] -> Forall (no_char "|") l -> split "|" (join_bar l) = l.
Proof.
  induction l as [|s [|s' r] IH]; intros N F; [congruence| |]; inversion F; subst.
  - apply split_no. assumption.
  - change (join_bar (s :: s' :: r)) with (s ++ String "|" (join_bar (s' :: r))). rewrite split_app by assumption. f_equal. apply IH; [discriminate|assumption].
Qed.
Lemma key_near a b : str_nodes_key a = str_nodes_key b -> Forall2 (fun p q => Qabs (this p - this q) <= 1 # 100000) a b.
Proof.
  unfold str_nodes_key. intros E.
  assert (Fa : forall l, Forall (no_char "|") (map node_text l)) by (intros l; apply Forall_forall; intros s H; apply in_map_iff in H; destruct H as (q & <- & _); apply node_text_no).
  assert (NE : forall p l, join_bar (map node_text (p :: l)) <> "").
  { intros p l. destruct (node_text_no p) as [_ N]. destruct l; cbn [map join_bar]; [exact N|]. destruct (node_text p); [congruence|discriminate]. }
  assert (M : map node_text a = map node_text b).
  { destruct a as [|p a], b as [|q b]; [reflexivity| | |].
    - symmetry in E. destruct (NE _ _ E).
    - destruct (NE _ _ E).
    - rewrite <- (split_bar (map node_text (p :: a))), <- (split_bar (map node_text (q :: b))) by (discriminate || apply Fa). rewrite E. reflexivity. }
  clear E. revert b M. induction a as [|p a IH]; intros [|q b] M; try discriminate; [constructor|]. cbn in M. injection M as M1 M2.
  constructor; [apply node_text_near; exact M1|apply IH; exact M2].
Qed.
(** the remembered matrix row by row *)
Lemma flat_rows {A} (f : nat -> A -> Qc) (d : list A) n i c d0 : (i < n)%nat -> (c < List.length d)%nat ->
  nth (i * List.length d + c) (flat_map (fun i => map (f i) d) (seq 0 n)) 0%Qc = f i (nth c d d0).
Proof.
  intros Hi Hc. assert (G : forall m s, (i < m)%nat -> nth (i * List.length d + c) (flat_map (fun i => map (f i) d) (seq s m)) 0%Qc = f (s + i)%nat (nth c d d0)).
  { clear n Hi. induction i as [|i IH]; intros [|m] s H; try lia; cbn [seq flat_map].
    - rewrite app_nth1 by (rewrite map_length; cbn; lia). cbn [Nat.mul Nat.add]. rewrite Nat.add_0_r.
      rewrite (nth_indep _ 0%Qc (f s d0)) by (rewrite map_length; exact Hc). apply map_nth.
    - rewrite app_nth2 by (rewrite map_length; cbn; lia). rewrite map_length.
      replace (S i * List.length d + c - List.length d)%nat with (i * List.length d + c)%nat by (cbn; lia).
      rewrite IH by lia. f_equal. lia. }
  apply (G n 0%nat Hi).
Qed.
Lemma array_entries ns x v : lagrange_array ns [x] = Some v ->
  forall i c, (i < List.length ns)%nat -> (c < List.length (data x))%nat ->
    nth (i * List.length (data x) + c) (data v) 0%Qc = lagrange_q ns i (nth c (data x) 0%Qc).
Proof. intros [= <-] i c Hi Hc. cbn [data]. apply flat_rows; assumption. Qed.
