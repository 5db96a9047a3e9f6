(** Proofs about the memory behind the dofs on faces of 2-forms. *)
From Coq Require Import Arith List Bool ZArith Lia.
From Verif Require Import NdArray LocalNumberingModel FaceModel FaceProofs FaceThms FaceThms2 FaceMemModel.
Import ListNotations.
Local Open Scope Z_scope.

Lemma addr_eqb_spec a b : reflect (a = b) (addr_eqb a b).
Proof.
  unfold addr_eqb. destruct a as [c i], b as [d j]; cbn [fst snd]. destruct (Nat.eqb_spec c d), (list_eq_dec Nat.eq_dec i j); cbn [andb]; constructor; congruence.
Qed.
Lemma in_addr a l : existsb (addr_eqb a) l = true <-> In a l.
Proof.
  rewrite existsb_exists. split; [intros (x & H & E); destruct (addr_eqb_spec a x); [now subst|discriminate]|]. intros H. exists a. split; auto. destruct (addr_eqb_spec a a); auto; congruence.
Qed.
Section Degree.
Variables px py pz : nat.
Variable shares : nat -> bool.
Hypothesis Hx : (1 <= px)%nat.
Hypothesis Hy : (1 <= py)%nat.
Hypothesis Hz : (1 <= pz)%nat.
Notation fresh := (fresh px py pz).
Notation find_face := (find_face px py pz shares).
Notation calls := (calls px py pz shares).
Notation view_of := (view_of px py pz).

Notation right := (FaceSpec.right_numbers px py pz).

(** the view of a face, read in fresh memory, is the list found *)
Lemma view_fresh f : (f < 6)%nat -> exists ax v l, view_of f = Some (ax, v) /\ htt_m3n3k2 px py pz f = Some l /\ map (m_at fresh) v = map Z.of_nat l /\ ax = Nat.div2 f /\ forall a, In a v -> fst a = ax.
Proof.
  intros Hf. destruct (face_place_eq f Hf) as [E A]. unfold htt_m3n3k2. rewrite e_m3n3k2, E. unfold view_of. rewrite E. set (ax := FaceSpec.face_axis f) in *.
  assert (Ea : (match ax with 0%nat => mk_arr 0 [px + 1; py; pz] | 1%nat => mk_arr ((px + 1) * py * pz) [px; py + 1; pz] | _ => mk_arr ((px + 1) * py * pz + px * (py + 1) * pz) [px; py; pz + 1] end)%nat
               = mk_arr (first_of px py pz ax) (shape_of px py pz ax)) by (destruct ax as [|[|[|]]]; [reflexivity|reflexivity|reflexivity|lia]).
  rewrite Ea. destruct (at_side_spec (mk_arr (first_of px py pz ax) (shape_of px py pz ax)) ax (FaceSpec.face_side f)) as (L & EL & _); [destruct ax as [|[|[|]]]; cbn; lia|destruct ax as [|[|[|]]]; cbn; lia|].
  unfold at_side, of_arr in EL. cbn [fst snd a_shape] in EL. destruct (nth ax (shape_of px py pz ax) 0%nat) as [|n] eqn:En; [discriminate|].
  exists ax. eexists _, L. split; [reflexivity|]. split; [unfold at_side, of_arr; cbn [fst snd a_shape]; rewrite En; exact EL|]. split; [|split; [reflexivity|]].
  - rewrite map_map. clear E A Ea En. revert L EL. induction (indices (remove ax (shape_of px py pz ax))) as [|ix l IH]; cbn [map all_some]; intros L EL; [injection EL as <-; reflexivity|].
    destruct (aget _ _) as [r|] eqn:G; [|discriminate]. destruct (all_some _) as [y|]; [|discriminate]. injection EL as <-. cbn [map]. rewrite (IH y eq_refl). f_equal. cbn [m_at FaceMemModel.fresh fst snd]. unfold fresh, m_at, fst, snd. now rewrite G.
  - intros a Ha. apply in_map_iff in Ha. destruct Ha as (ix & <- & _). reflexivity.
Qed.

(** ** calls that never write *)
Notation safe := FaceSpec.safe_call.
Definition good (st : memory) : Prop := (forall a, m_at st a = m_at fresh a) /\ forall f cw c, lookup st f cw = Some c -> right f (read st c).
Lemma good_fresh : good fresh.
Proof. split; auto. intros f cw c H. discriminate. Qed.
Lemma lookup_put st f cw c g w : lookup (put st f cw c) g w = if Nat.eqb f g && Bool.eqb cw w then Some c else lookup st g w.
Proof. unfold lookup, put. cbn. destruct (Nat.eqb f g && Bool.eqb cw w); reflexivity. Qed.
Lemma read_put st f cw c d : read (put st f cw c) d = read st d.
Proof. destruct d; reflexivity. Qed.
Lemma good_put st f cw c : good st -> right f (read st c) -> good (put st f cw c).
Proof.
  intros [M C] H. split; [exact M|]. intros g w d. rewrite lookup_put, read_put. destruct (Nat.eqb_spec f g), (Bool.eqb_spec cw w); cbn [andb]; subst; auto; try (intros L; apply (C _ _ _ L)).
  intros L. now injection L as <-.
Qed.
Lemma safe_step st f cw : good st -> safe (f, cw) -> (f < 6)%nat -> exists st' c, find_face st f cw = Some (st', c) /\ good st' /\ right f (read st' c).
Proof.
  intros G S Hf. unfold FaceMemModel.find_face. destruct (lookup st f cw) as [c|] eqn:L; [exists st, c; split; [reflexivity|]; split; [exact G|]; exact (proj2 G _ _ _ L)|].
  destruct (view_fresh f Hf) as (ax & v & l & E & El & Er & Eax & _). rewrite E.
  assert (Rv : right f (map (m_at st) v)). { exists l. split; auto. rewrite <- Er. apply map_ext. intros a. apply G. }
  destruct cw.
  - destruct S as [S|S]; [discriminate|]. cbn [fst] in S. assert (ax = 0%nat) as -> by (rewrite Eax; destruct f as [|[|]]; auto; lia). eexists _, _. split; [reflexivity|]. split; [apply good_put; auto|exact Rv].
  - eexists _, _. split; [reflexivity|]. destruct (shares f); (split; [apply good_put; auto|exact Rv]).
Qed.
Lemma safe_calls l : Forall safe l -> Forall (fun c => (fst c < 6)%nat) l -> forall st, good st -> exists st' vs, calls st l = Some (st', vs) /\ good st' /\ Forall2 (fun c v => right (fst c) v) l vs.
Proof.
  induction 1 as [|[f cw] l S SL IH]; intros F st G; inversion F; subst; cbn [FaceMemModel.calls]; [exists st, []; auto|].
  destruct (safe_step st f cw G S H1) as (st' & c & -> & G' & R). destruct (IH H2 st' G') as (st'' & vs & -> & G'' & A). exists st'', (read st' c :: vs). repeat split; auto; apply G''.
Qed.
Lemma safe_from_fresh l : Forall safe l -> Forall (fun c => (fst c < 6)%nat) l -> exists st' vs, calls fresh l = Some (st', vs) /\ Forall2 (fun c v => right (fst c) v) l vs.
Proof. intros S F. destruct (safe_calls l S F fresh good_fresh) as (st' & vs & E & _ & A). eauto. Qed.

(** ** calls that write *)
Lemma indices_nonempty sh : Forall (fun n => (0 < n)%nat) sh -> indices sh <> [].
Proof.
  induction 1 as [|n sh Hn F IH]; cbn; [discriminate|]. destruct (indices sh) as [|ix l]; [congruence|]. destruct n; [lia|]. cbn. discriminate.
Qed.
Lemma fold_max_ge l z : z <= fold_left Z.max l z /\ forall y, In y l -> y <= fold_left Z.max l z.
Proof.
  revert z. induction l as [|a l IH]; cbn; intros z; [split; [lia|tauto]|]. destruct (IH (Z.max z a)) as [A B]. split; [lia|]. intros y [<-|H]; [lia|auto].
Qed.
Lemma fold_max_in l z : In (fold_left Z.max l z) (z :: l).
Proof. revert z. induction l as [|a l IH]; cbn; intros z; [auto|]. destruct (IH (Z.max z a)) as [E|E]; [|auto]. rewrite <- E. destruct (Z.max_spec z a) as [[_ ->]|[_ ->]]; auto. Qed.
Lemma max_of l m : (exists y, In y l /\ y = m) -> (forall y, In y l -> y <= m) -> match l with [] => None | z :: r => Some (fold_left Z.max r z) end = Some m.
Proof.
  intros (y & Iy & ->) B. destruct l as [|z l]; [destruct Iy|]. f_equal. destruct (fold_max_ge l z) as [A C]. pose proof (B _ (fold_max_in l z)). destruct Iy as [->|Iy]; [lia|]. specialize (C m Iy). lia.
Qed.
Lemma ravel_last sh : Forall (fun n => (0 < n)%nat) sh -> exists ix, In ix (indices sh) /\ ravelF sh ix = Some (prodl sh - 1)%nat.
Proof.
  induction 1 as [|n sh Hn F (ix & Hi & E)]; [exists []; cbn; auto|]. exists ((n - 1)%nat :: ix). split.
  - cbn [indices]. apply in_flat_map. exists ix. split; auto. apply in_map_iff. exists (n - 1)%nat. split; auto. apply in_seq. lia.
  - cbn [ravelF prodl]. rewrite E. destruct (Nat.ltb_spec (n - 1) n); [|lia]. f_equal. assert (0 < prodl sh)%nat by (apply ravelF_lt in E; lia). nia.
Qed.
Lemma np_max_fresh c : (c < 3)%nat -> np_max px py pz fresh c = Some (Z.of_nat (first_of px py pz c + prodl (shape_of px py pz c)) - 1).
Proof.
  intros Hc. assert (F : Forall (fun n => (0 < n)%nat) (shape_of px py pz c)) by (destruct c as [|[|]]; cbn; repeat constructor; lia).
  destruct (ravel_last _ F) as (ix & Hi & E). unfold np_max. apply max_of.
  - eexists. split; [apply in_map_iff; exists ix; split; [reflexivity|exact Hi]|]. cbn [m_at FaceMemModel.fresh fst snd]. unfold aget. cbn [a_shape a_base]. rewrite E. apply ravelF_lt in E. lia.
  - intros y Iy. apply in_map_iff in Iy. destruct Iy as (jx & <- & Hj). cbn [m_at FaceMemModel.fresh fst snd]. unfold aget. cbn [a_shape a_base]. destruct (ravelF _ jx) as [r|] eqn:Er; [apply ravelF_lt in Er; lia|]. apply ravelF_lt in E. lia.
Qed.
Lemma map_subtract st v z : map (m_at (subtract st v z)) v = map (fun y => y - z) (map (m_at st) v).
Proof.
  rewrite map_map. apply map_ext_in. intros a Ha. cbn [m_at subtract]. apply in_addr in Ha. now rewrite Ha.
Qed.
Definition before (c : nat) : Z := match c with 1%nat => Z.of_nat ((px + 1) * py * pz) | _ => Z.of_nat ((px + 1) * py * pz + ((px + 1) * py * pz + px * (py + 1) * pz)) end.
(** the first component-wise call on a face y or z writes into the arrays *)
Lemma cw_writes f : (2 <= f < 6)%nat -> exists st' v l, find_face fresh f true = Some (st', View v) /\ htt_m3n3k2 px py pz f = Some l /\
  st' = put (subtract fresh v (before (Nat.div2 f))) f true (View v) /\ view_of f = Some (Nat.div2 f, v) /\ read st' (View v) = map (fun r => Z.of_nat r - before (Nat.div2 f)) l.
Proof.
  intros Hf. destruct (view_fresh f) as (ax & v & l & E & El & Er & Eax & _); [lia|]. subst ax. unfold FaceMemModel.find_face. cbn [lookup FaceMemModel.fresh m_cache find option_map]. rewrite E.
  assert (A : (Nat.div2 f = 1 \/ Nat.div2 f = 2)%nat) by (do 6 (destruct f as [|f]; [cbn; lia|]); lia).
  destruct A as [A|A]; rewrite A in *.
  - rewrite (np_max_fresh 0) by lia. eexists _, v, l. split; [reflexivity|]. split; [exact El|]. split; [|split; [reflexivity|]].
    + do 2 f_equal. unfold before, first_of, shape_of. cbn [prodl]. lia.
    + cbn [read put m_at]. rewrite map_subtract, Er, map_map. apply map_ext. intros r. unfold before, first_of, shape_of. cbn [prodl]. lia.
  - rewrite (np_max_fresh 0), (np_max_fresh 1) by lia. eexists _, v, l. split; [reflexivity|]. split; [exact El|]. split; [|split; [reflexivity|]].
    + do 2 f_equal. unfold before, first_of, shape_of. cbn [prodl]. lia.
    + cbn [read put m_at]. rewrite map_subtract, Er, map_map. apply map_ext. intros r. unfold before, first_of, shape_of. cbn [prodl]. lia.
Qed.
(** and a plain call on the same face after it gives these numbers again *)
Lemma cw_then_plain f : (2 <= f < 6)%nat -> exists st' l, htt_m3n3k2 px py pz f = Some l /\
  calls fresh [(f, true); (f, false)] = Some (st', [map (fun r => Z.of_nat r - before (Nat.div2 f)) l; map (fun r => Z.of_nat r - before (Nat.div2 f)) l]).
Proof.
  intros Hf. destruct (cw_writes f Hf) as (st' & v & l & E & El & Est & Ev & R). set (c' := if shares f then View v else Copy (map (m_at st') v)).
  assert (E2 : find_face st' f false = Some (put st' f false c', c')).
  { unfold FaceMemModel.find_face. replace (lookup st' f false) with (@None cached); [rewrite Ev; reflexivity|]. rewrite Est, lookup_put, Nat.eqb_refl. reflexivity. }
  exists (put st' f false c'), l. split; [exact El|]. cbn [FaceMemModel.calls]. rewrite E, E2. rewrite R. do 3 f_equal. rewrite read_put. cbn [read] in R. unfold c'. destruct (shares f); cbn [read]; rewrite R; reflexivity.
Qed.
Lemma plain_wrong f : (2 <= f < 6)%nat -> exists st' v w, calls fresh [(f, true); (f, false)] = Some (st', [v; w]) /\ ~ right f w.
Proof.
  intros Hf. destruct (cw_then_plain f Hf) as (st' & l & El & E). eexists _, _, _. split; [exact E|]. intros (l' & El' & Ew). rewrite El in El'. injection El' as <-.
  destruct l as [|r l]; [|cbn in Ew; injection Ew as Ew _; unfold before in Ew; destruct (Nat.div2 f) as [|[|]]; lia].
  destruct (view_fresh f) as (ax & v & l & E0 & El' & Er & _); [lia|]. rewrite El in El'. injection El' as <-. cbn in Er. destruct v; [|discriminate]. unfold FaceMemModel.view_of in E0. destruct (face_place_eq f) as [P A]; [lia|]. rewrite P in E0. destruct (nth _ _ _) as [|n]; [discriminate|]. injection E0 as _ E0. apply map_eq_nil in E0. revert E0. apply indices_nonempty.
  destruct (FaceSpec.face_axis f) as [|[|[|]]]; cbn; repeat constructor; lia.
Qed.
(** component-wise numbers on a face z are not numbers of the component *)
Lemma cw_negative f : (4 <= f < 6)%nat -> exists st' v, find_face fresh f true = Some (st', View v) /\ exists z, In z (read st' (View v)) /\ z < 0.
Proof.
  intros Hf. destruct (cw_writes f) as (st' & v & l & E & El & _ & Ev & R); [lia|]. exists st', v. split; [exact E|]. rewrite R.
  assert (A : Nat.div2 f = 2%nat) by (do 6 (destruct f as [|f]; [cbn; lia|]); lia). rewrite A. cbn [before].
  unfold htt_m3n3k2 in El. rewrite e_m3n3k2 in El. destruct (face_place_eq f) as [P _]; [lia|]. rewrite P in El. unfold FaceSpec.face_axis in El. rewrite A in El.
  (* the face z- contains the first number, the face z+ the number px*py*pz later; both are too small *)
  assert (B : forall r, In r l -> (r < (px + 1) * py * pz + px * (py + 1) * pz + px * py * (pz + 1))%nat).
  { destruct (at_side_spec (mk_arr ((px + 1) * py * pz + px * (py + 1) * pz) [px; py; pz + 1])%nat 2 (FaceSpec.face_side f)) as (L & EL & _ & _ & _ & B); [cbn; lia|cbn; lia|]. rewrite El in EL. injection EL as <-. intros r Hr. specialize (B r Hr). unfold asize in B. cbn [a_base a_shape prodl] in B. lia. }
  destruct l as [|r l].
  - exfalso. destruct (at_side_spec (mk_arr ((px + 1) * py * pz + px * (py + 1) * pz) [px; py; pz + 1])%nat 2 (FaceSpec.face_side f)) as (L & EL & _ & M & G & _); [cbn; lia|cbn; lia|]. rewrite El in EL. injection EL as <-.
    destruct (G [0; 0]%nat) as [r Hr]; [cbn [remove a_shape]; apply in_indices_2; exists 0%nat, 0%nat; repeat split; lia|]. apply (M r). exists [0; 0]%nat. split; [cbn [remove a_shape]; apply in_indices_2; exists 0%nat, 0%nat; repeat split; lia|exact Hr].
  - clear B. destruct (at_side_spec (mk_arr ((px + 1) * py * pz + px * (py + 1) * pz) [px; py; pz + 1])%nat 2 (FaceSpec.face_side f)) as (L & EL & _ & M & G & _); [cbn; lia|cbn; lia|]. rewrite El in EL. injection EL as <-.
    destruct (G [0; 0]%nat) as [q Hq]; [cbn [remove a_shape]; apply in_indices_2; exists 0%nat, 0%nat; repeat split; lia|]. assert (Iq : In q (r :: l)) by (apply M; exists [0; 0]%nat; split; [cbn [remove a_shape]; apply in_indices_2; exists 0%nat, 0%nat; repeat split; lia|exact Hq]).
    eexists. split; [apply in_map; exact Iq|]. cbn [insert nth a_shape] in Hq. unfold aget in Hq. cbn [a_shape a_base ravelF] in Hq.
    destruct (Nat.ltb_spec 0 px); [|lia]. destruct (Nat.ltb_spec 0 py); [|lia]. destruct (Nat.ltb_spec (pos (FaceSpec.face_side f) (pz + 1)) (pz + 1)); [|discriminate]. injection Hq as <-. assert (pos (FaceSpec.face_side f) (pz + 1) <= pz)%nat by lia. assert (px * (py * (pos (FaceSpec.face_side f) (pz + 1))) <= px * py * pz)%nat by nia. nia.
Qed.
Lemma cw_negative_calls f : (4 <= f < 6)%nat -> exists st' v, calls fresh [(f, true)] = Some (st', [v]) /\ exists z, In z v /\ z < 0.
Proof. intros Hf. destruct (cw_negative f Hf) as (st' & v & E & Z). exists st', (read st' (View v)). split; [|exact Z]. cbn [FaceMemModel.calls]. now rewrite E. Qed.
End Degree.
