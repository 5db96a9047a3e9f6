(** Where the numberings are not continuous, and the numbering of top forms *)
From Coq Require Import Arith List ZArith Bool Lia Relations.
From Verif Require Import NdArray LocalNumberingModel IncidenceModel IncidenceSpec MeshModel MeshSpec GatherCore GatherModel GatherProofs GatherSpec TopologyModel.
From Verif Require Import IncidenceProofs IncidenceThms GatherThms GatherInst.
Import ListNotations.

Lemma gm_top_numbers N nd : numbers (gm_top N nd) N nd eq.
Proof.
  unfold gm_top. split; [now rewrite map_length, seq_length|]. split.
  { apply Forall_map, Forall_forall. intros e _. now rewrite map_length, seq_length. }
  assert (forall x v, gm_at (map (fun e => map Z.of_nat (seq (e * nd) nd)) (seq 0 N)) x v <->
    fst x < N /\ snd x < nd /\ v = Z.of_nat (fst x * nd + snd x)) as Hat.
  { intros [e i] v. unfold gm_at. cbn [fst snd]. rewrite nth_error_map, nth_error_seq. split.
    - intros (row & H1 & H2). destruct (Nat.ltb_spec e N); [|discriminate]. injection H1 as <-.
      rewrite nth_error_map, nth_error_seq in H2. destruct (Nat.ltb_spec i nd); [|discriminate]. injection H2 as <-. auto.
    - intros (H1 & H2 & ->). destruct (Nat.ltb_spec e N); [|lia]. eexists. split; [reflexivity|].
      rewrite nth_error_map, nth_error_seq. destruct (Nat.ltb_spec i nd); [reflexivity|lia]. }
  exists (N * nd). repeat split.
  - apply Hat in H as (_ & _ & ->). lia.
  - apply Hat in H as (H1 & H2 & ->). nia.
  - intros k Hk. assert (nd <> 0) as Hnd by nia. exists (Z.to_nat k / nd, Z.to_nat k mod nd). apply Hat. cbn [fst snd].
    pose proof (Nat.mod_upper_bound (Z.to_nat k) nd Hnd). pose proof (Nat.div_mod (Z.to_nat k) nd Hnd).
    repeat split; [apply Nat.div_lt_upper_bound; nia|auto|]. rewrite Nat.mul_comm, <- H0. lia.
  - intros ->. apply Hat in H as (H1 & H2 & E1). apply Hat in H0 as (H3 & H4 & E2). destruct x as [a b], y as [c d]. cbn [fst snd] in *.
    assert (a * nd + b = c * nd + d) as E by lia. assert (a = c) as -> by nia. f_equal. lia.
  - intros ->. apply Hat in H as (_ & _ & ->). apply Hat in H0 as (_ & _ & ->). auto.
Qed.

(** ** one element, closed periodically *)
Definition loop_mp : emap := fun _ _ => Some 0.
Lemma loop_consistent n : consistent n 1 loop_mp.
Proof.
  unfold loop_mp. split.
  - intros e a s m He Ha Hs [= <-]. lia.
  - intros a e m Ha He Hm. assert (e = 0) as -> by lia. assert (m = 0) as -> by lia. tauto.
Qed.
Lemma loop_m1n1k0 p : 1 <= p -> exists gm, gm_m1n1k0 1 loop_mp p = Some gm /\ gm_at gm (0, 0) (-1)%Z.
Proof.
  intros Hp. unfold gm_m1n1k0, ts_m1n1k0, do_elements, do_tasks, do_task, seq at 1.
  cbn [loop_mp rule_id Nat.ltb Nat.leb]. eexists. split; [reflexivity|].
  eexists. split; [reflexivity|]. cbn [fst snd].
  rewrite (grow_num _ [mk_arr 0 [p + 1]] 0 [0] 0); [|cbn; auto|].
  2:{ exists [mk_arr 0 [p + 1]], (mk_arr 0 [p + 1]). repeat split. unfold aget. simpl. rewrite Nat.add_1_r. simpl. now rewrite Nat.mul_0_r. }
  f_equal. cbn [sl_m1n1k0 op_side Nat.even map combine write app look fst snd].
  destruct p as [|p]; [lia|]. cbn [slot_eqb Nat.eqb andb].
  assert (forall l c r, look (-1) (map (fun av => (0, fst av, snd av)) (combine (map (fun i => [0; S i]) l) c) ++ r) 0 [0; 0] = look (-1) r 0 [0; 0]) as H.
  { induction l as [|i l IH]; intros [|c0 c] r; simpl; auto. }
  unfold write, fresh. refine (eq_trans (H (seq 0 (S p - 1)) _ _) _). reflexivity.
Qed.

(** ** two hexahedra side by side, no periodic direction *)
Definition two_hex : emap := fun e s => match e, s with 0, 1 => Some 1 | 1, 0 => Some 0 | _, _ => None end.
Lemma two_hex_ok : consistent 3 2 two_hex /\ no_self 3 2 two_hex.
Proof.
  split; [split|].
  - intros [|[|e]] [|[|[|a]]] [|[|s]] m He Ha Hs; cbv; intros [= <-]; lia.
  - intros [|[|[|a]]] [|[|e]] [|[|m]] Ha He Hm; try lia; cbv; split; intros; try discriminate; auto.
  - intros [|[|e]] [|[|[|a]]] He Ha; cbv; intros; try discriminate; lia.
Qed.
Definition same_class (ln : option (list arr)) degs N mp (P : nat * nat -> Prop) : Prop :=
  forall x y, touch ln degs N mp x y -> (P x <-> P y).
Lemma shared_class ln degs N mp P x y : same_class ln degs N mp P -> shared ln degs N mp x y -> (P x <-> P y).
Proof. intros Hs H. induction H; [now apply Hs|tauto|tauto|tauto]. Qed.

(** dof 0 (x- face) and dof 2 (y- face) of the first element both get number 0 *)
Lemma two_hex_alias : exists gm, gm_m3n3k2 2 two_hex 1 1 1 = Some gm /\
  gm_at gm (0, 0) 0%Z /\ gm_at gm (0, 2) 0%Z /\ ~ shared (ln_m3n3k2 1 1 1) [1; 1; 1] 2 two_hex (0, 0) (0, 2).
Proof.
  eexists. split; [vm_compute; reflexivity|]. split; [eexists; split; reflexivity|]. split; [eexists; split; reflexivity|].
  intros H. apply (shared_class _ _ _ _ (fun x => x = (0, 0))) in H; [destruct H as [H _]; now specialize (H eq_refl)|].
  intros x y (a & p & c & ix & Hx & Hp & Hm & H1 & H2 & H3). rewrite ln_m3n3k2_eq in *. destruct x as [e i], y as [e' i']. cbn [fst snd] in *.
  assert (e = 0 /\ e' = 1 /\ a = 0) as (-> & -> & ->).
  { destruct e as [|[|e]]; [| |lia]; destruct a as [|[|[|a]]]; cbv in Hm; try discriminate; injection Hm as <-; auto. }
  injection Hp as <-. pose proof (num_comp _ _ _ _ H1) as Hc. simpl in Hc.
  split; intros [=]. subst. exfalso. destruct c as [|[|[|c]]]; [| | |lia]; inv_num H1; subst; simpl in H2; injection H2 as ->; lia.
Qed.

(** ** eight quadrilaterals around one vertex *)
Definition eight : emap := fun e s =>
  if 8 <=? e then None else
  match e mod 4, s with
  | 0, 1 => Some ((e + 1) mod 8) | 0, 3 => Some ((e + 7) mod 8)
  | 1, 0 => Some ((e + 7) mod 8) | 1, 3 => Some ((e + 1) mod 8)
  | 2, 2 => Some ((e + 7) mod 8) | 2, 0 => Some ((e + 1) mod 8)
  | 3, 1 => Some ((e + 7) mod 8) | 3, 2 => Some ((e + 1) mod 8)
  | _, _ => None
  end.
Ltac all8 e tac := do 8 (destruct e as [|e]; [solve [tac]|]); lia.
Lemma eight_ok : consistent 2 8 eight /\ no_self 2 8 eight.
Proof.
  split; [split|].
  - intros e a s m He Ha Hs. assert (a = 0 \/ a = 1) as [-> | ->] by lia; assert (s = 0 \/ s = 1) as [-> | ->] by lia;
      all8 e ltac:(vm_compute; intros [= <-]; lia).
  - intros a e m Ha He Hm. assert (a = 0 \/ a = 1) as [-> | ->] by lia;
      all8 e ltac:(all8 m ltac:(vm_compute; split; intros H; try discriminate H; reflexivity)).
  - intros e a He Ha. assert (a = 0 \/ a = 1) as [-> | ->] by lia; all8 e ltac:(vm_compute; discriminate).
Qed.
(** neighbours 0 and 1 give the vertex all elements meet in different numbers *)
Lemma eight_split : exists gm v w, gm_m2n2k0_mesh 8 eight 1 1 = Some gm /\
  touch (ln_m2n2k0 1 1) [1; 1] 8 eight (0, 3) (1, 2) /\ gm_at gm (0, 3) v /\ gm_at gm (1, 2) w /\ v <> w.
Proof.
  destruct (gm_m2n2k0_mesh 8 eight 1 1) as [gm|] eqn:E; [|vm_compute in E; discriminate].
  exists gm, 3%Z, 12%Z. vm_compute in E. injection E as <-. split; [reflexivity|].
  split; [|split; [eexists; split; reflexivity|split; [eexists; split; reflexivity|discriminate]]].
  exists 0, 1, 0, [1; 1]. cbn [fst snd]. repeat split; [lia| |]; rewrite ln_m2n2k0_eq; eexists; eexists; repeat split.
Qed.
