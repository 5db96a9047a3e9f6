(** C23, C24, C51, C52: reading local matrices after any program of readings, customisations and assemblings.
    Only statements and references to proofs; [expected] is in LmCacheSpec.v, the machine in LmCacheModel.v. *)
From Coq Require Import List Arith Lia Bool String ZArith QArith Qcanon.
From Verif Require Import Dict GmModel GmProofs QSums LmModel LmSpec LmProofs LmThreshold LmCacheModel LmCacheSpec LmCacheProofs LmCacheThms LmCacheShared LmCacheEffects.
Import ListNotations.
Local Open Scope nat_scope.

(** * C23 derived matrices *)

(** what is expected of an element that is not customised: the operation applied to what is expected of the operands *)
Theorem derived_elements_are_operations es ops st i o e : lrun es empty_lstate ops = Some st -> nth_error (objs st) i = Some o -> get Nat.eqb (o_cust o) e = None ->
  expected st i e = match o_kind o with
  | KData _ d shape => match get Nat.eqb d e with Some r => deref (heap st) r | None => Some (zero_mat (shape e)) end
  | KCall _ f => Some (f e)
  | KUn f s => option_map f (expected st s e)
  | KTr s => option_map tr (expected st s e)
  | KBin _ f a b => match expected st a e, expected st b e with Some x, Some y => Some (f x y) | _, _ => None end
  | KBlk f b bs => option_map f (obind (b :: bs) (fun j => expected st j e))
  end.
Proof. exact (expected_equations es ops st i o e). Qed.
Print Assumptions derived_elements_are_operations.

(** all cache keys unique: every reading gives what is expected, and changes no expectation *)
Theorem reading_with_unique_keys es ops st : lrun es empty_lstate ops = Some st -> Forall no_threshold ops -> Forall unique_op ops ->
  forall i e, i < List.length (objs st) -> In e es -> exists st' r m, getitem st i e = Some (st', r) /\ deref (heap st') r = Some m /\ expected st i e = Some m /\
    forall j x, expected st' j x = expected st j x.
Proof. exact (reads_with_unique_keys es ops st). Qed.
Print Assumptions reading_with_unique_keys.

Theorem customising_changes_the_element es ops st i e f st' : lrun es empty_lstate ops = Some st -> Forall no_threshold ops -> Forall unique_op ops ->
  lstep es st (LCust i e f) = Some st' -> expected st' i e = option_map f (expected st i e).
Proof. exact (customise_effect es ops st i e f st'). Qed.
Print Assumptions customising_changes_the_element.

(** shared keys: customised matrices used in block matrices only *)
Theorem reading_with_shared_keys es ops st : lrun es empty_lstate ops = Some st -> Forall no_threshold ops ->
  (forall i e f k, In (LCust i e f) ops -> In (LNew k) ops -> direct k = true -> ~ In i (operands k)) -> keys_faithful es st ->
  forall i e, i < List.length (objs st) -> In e es -> exists st' r m, getitem st i e = Some (st', r) /\ deref (heap st') r = Some m /\ expected st i e = Some m /\
    forall j x, expected st' j x = expected st j x.
Proof. exact (reads_with_shared_keys es ops st). Qed.
Print Assumptions reading_with_shared_keys.

Theorem assembling_with_shared_keys es ops st : lrun es empty_lstate ops = Some st -> Forall no_threshold ops ->
  (forall i e f k, In (LCust i e f) ops -> In (LNew k) ops -> direct k = true -> ~ In i (operands k)) -> keys_faithful es st ->
  forall i, i < List.length (objs st) -> exists st' ms, assemble_reads None st i es = Some (st', ms) /\ Forall2 (fun e m => expected st i e = Some m) es ms /\
    forall j x, expected st' j x = expected st j x.
Proof. exact (assemble_with_shared_keys es ops st). Qed.
Print Assumptions assembling_with_shared_keys.

(** conditions on the base matrices only *)
Theorem reading_with_keys_of_one_length es ops st : lrun es empty_lstate ops = Some st -> Forall no_threshold ops ->
  (forall i e f k, In (LCust i e f) ops -> In (LNew k) ops -> direct k = true -> ~ In i (operands k)) -> base_ok String.length (fun _ => true) es st ->
  forall i e, i < List.length (objs st) -> In e es -> exists st' r m, getitem st i e = Some (st', r) /\ deref (heap st') r = Some m /\ expected st i e = Some m /\
    forall j x, expected st' j x = expected st j x.
Proof. exact (reads_with_keys_of_one_length es ops st). Qed.
Print Assumptions reading_with_keys_of_one_length.

Theorem reading_with_keys_without_products es ops st : lrun es empty_lstate ops = Some st -> Forall no_threshold ops ->
  (forall i e f k, In (LCust i e f) ops -> In (LNew k) ops -> direct k = true -> ~ In i (operands k)) -> base_ok dots (fun d => d) es st ->
  forall i e, i < List.length (objs st) -> In e es -> exists st' r m, getitem st i e = Some (st', r) /\ deref (heap st') r = Some m /\ expected st i e = Some m /\
    forall j x, expected st' j x = expected st j x.
Proof. exact (reads_with_keys_without_products es ops st). Qed.
Print Assumptions reading_with_keys_without_products.

(** the negated matrix gives one element the data of another one *)
Theorem negated_customised_matrix_refuted : exists ops st, lrun [0; 1] empty_lstate ops = Some st /\ Forall no_threshold ops /\ keys_faithful [0; 1] st /\ reads_wrong [0; 1] st 1 1.
Proof. exact (neg_of_customised_refuted). Qed.
Print Assumptions negated_customised_matrix_refuted.

(** the negated matrix does not see a later customisation *)
Theorem stale_negated_matrix_refuted : exists ops st, lrun [0] empty_lstate ops = Some st /\ Forall no_threshold ops /\ keys_faithful [0] st /\ reads_wrong [0] st 1 0.
Proof. exact (stale_derived_refuted). Qed.
Print Assumptions stale_negated_matrix_refuted.

(** nothing customised; keys "a" "bc" and "ab" "c" *)
Theorem product_of_matrices_keys_refuted : exists ops st, lrun [0; 1] empty_lstate ops = Some st /\ Forall no_threshold ops /\ Forall uncustomising ops /\ base_keys_differ [0; 1] st /\ reads_wrong [0; 1] st 2 1.
Proof. exact (product_keys_refuted). Qed.
Print Assumptions product_of_matrices_keys_refuted.

(** nothing customised; keys "a" "b.c" and "a.b" "c" *)
Theorem sum_of_matrices_keys_refuted : exists ops st, lrun [0; 1] empty_lstate ops = Some st /\ Forall no_threshold ops /\ Forall uncustomising ops /\ base_keys_differ [0; 1] st /\ reads_wrong [0; 1] st 2 1.
Proof. exact (sum_keys_refuted). Qed.
Print Assumptions sum_of_matrices_keys_refuted.

(** two elements, a sum of a matrix and its transposed matrix, customised, in a block matrix that is customised too *)
Definition un_ops : list lop :=
  [LHold (two 1 2); LHold (two 3 4); LNew (KData uniq_key [(0, (0, false)); (1, (1, false))] (fun _ => (2, 2))); LNew (KTr 0); LNew (KUn s_neg 0); LCust 0 1 (fun _ => two 5 6);
   LNew (KBlk (fun l => hd (two 0 0) l) 2 [1]); LRead 3 0; LCust 3 1 (fun _ => two 7 8); LAssemble 3 None; LClear 0].
Example unique_meets : exists st, lrun [0; 1] empty_lstate un_ops = Some st /\ Forall no_threshold un_ops /\ Forall unique_op un_ops /\ List.length (objs st) = 4 /\
  expects st 3 1 (svals (two 7 8)) /\ expects st 3 0 (svals (two (-1) (-2))).
Proof.
  eexists. split; [vm_compute; reflexivity|]. split; [repeat constructor|]. split; [repeat (apply Forall_cons; [cbn; auto|]); apply Forall_nil|]. split; [reflexivity|].
  split; (eexists; split; [vm_compute; reflexivity|vm_compute; reflexivity]).
Qed.
(** elements 0 and 1 share a key; the matrix of 0 is customised and used in a block matrix with a sum *)
Definition sh_key (e : nat) : string := match e with 2 => "b"%string | _ => "a"%string end.
Definition sh_ops : list lop :=
  [LHold (two 1 2); LHold (two 3 4); LNew (KData sh_key [(0, (0, false)); (1, (0, false)); (2, (1, false))] (fun _ => (2, 2))); LNew (KCall sh_key (fun e => match e with 2 => two 5 5 | _ => two 6 6 end));
   LNew (KTr 1); LNew (KBin true (fun a b => a) 1 2); LCust 0 0 (fun _ => two 7 8); LNew (KBlk (fun l => hd (two 0 0) l) 0 [3]); LRead 4 0; LRead 4 1; LRead 4 2; LAssemble 4 None].
Example shared_meets : exists st, lrun [0; 1; 2] empty_lstate sh_ops = Some st /\ Forall no_threshold sh_ops /\
  (forall i e f k, In (LCust i e f) sh_ops -> In (LNew k) sh_ops -> direct k = true -> ~ In i (operands k)) /\
  base_ok String.length (fun _ => true) [0; 1; 2] st /\ base_ok dots (fun d => d) [0; 1; 2] st /\ keys_faithful [0; 1; 2] st /\ List.length (objs st) = 5 /\
  expects st 4 0 (svals (two 7 8)) /\ expects st 4 1 (svals (two 1 2)) /\ expects st 4 2 (svals (two 3 4)).
Proof.
  eexists. split; [vm_compute; reflexivity|]. split; [repeat constructor|]. split.
  { intros i e f k H1 H2 Hd Hi. cbn in H1, H2. assert (i = 0) as -> by (repeat (destruct H1 as [H1|H1]; [try discriminate; now injection H1|]); destruct H1).
    repeat (destruct H2 as [H2|H2]; [try discriminate; injection H2 as <-; cbn in Hd, Hi; try discriminate; repeat (destruct Hi as [Hi|Hi]; try discriminate); try destruct Hi|]); destruct H2. }
  match goal with |- ?X /\ _ => assert (B : X) end.
  { intros [|[|[|[|[|i]]]]] o; cbn; [| | | | |destruct i; discriminate]; intros [= <-]; cbn; auto; intros e e' [<-|[<-|[<-|[]]]] [<-|[<-|[<-|[]]]] _ _; cbn; (split; [reflexivity|intros; try reflexivity; try discriminate]). }
  split; [exact B|]. split; [|split; [|split; [reflexivity|split; [|split]; (eexists; split; [vm_compute; reflexivity|vm_compute; reflexivity])]]].
  { intros [|[|[|[|[|i]]]]] o; cbn; [| | | | |destruct i; discriminate]; intros [= <-]; cbn; auto; intros e e' [<-|[<-|[<-|[]]]] [<-|[<-|[<-|[]]]] _ _; cbn; (split; [reflexivity|intros; try reflexivity; try discriminate]). }
  apply length_faithful; [refine (run_wf [0; 1; 2] sh_ops _ _ wf_empty _); vm_compute; reflexivity|exact B].
Qed.

(** * C24 thresholds *)

(** unique keys, and thresholds used only for computed matrices that are not customised: nothing is changed *)
Theorem reading_after_thresholds es ops st : lrun es empty_lstate ops = Some st -> safe es empty_lstate ops -> Forall unique_op ops ->
  forall i e, i < List.length (objs st) -> In e es -> exists st' r m, getitem st i e = Some (st', r) /\ deref (heap st') r = Some m /\ expected st i e = Some m /\
    forall j x, expected st' j x = expected st j x.
Proof. exact (reads_after_thresholds es ops st). Qed.
Print Assumptions reading_after_thresholds.

(** the assembled data are those expected, the small ones cut *)
Theorem assembling_after_thresholds es ops st i t : lrun es empty_lstate ops = Some st -> safe es empty_lstate ops -> Forall unique_op ops -> i < List.length (objs st) -> safe_step st (LAssemble i t) ->
  exists st' ms, assemble_reads t st i es = Some (st', ms) /\ (forall j x, expected st' j x = expected st j x) /\
    Forall2 (fun e m => exists v, expected st i e = Some v /\ m = match t with Some t => cut_mat t v | None => v end) es ms.
Proof. exact (assemble_after_thresholds es ops st i t). Qed.
Print Assumptions assembling_after_thresholds.

(** exactly the entries between -t and t become zero *)
Theorem threshold_cuts_small_entries t m : sm_fmt (cut_mat t m) = sm_fmt m /\ sm_nr (cut_mat t m) = sm_nr m /\ sm_nc (cut_mat t m) = sm_nc m /\
  Forall2 (Forall2 (fun a b => fst a = fst b /\ cut_to t (snd a) (snd b))) (sm_lines m) (sm_lines (cut_mat t m)).
Proof. exact (cut_mat_ok t m). Qed.
Print Assumptions threshold_cuts_small_entries.

(** the assembled triples are those without threshold, exactly the values between -t and t replaced by zero *)
Theorem assembled_with_threshold t gr gc Ms :
  match assemble_matrix None gr gc Ms, assemble_matrix (Some t) gr gc Ms with
  | Some A, Some B => Forall2 (Forall2 (fun a b => fst a = fst b /\ cut_to t (snd a) (snd b))) A B
  | None, None => True
  | _, _ => False
  end.
Proof. exact (assemble_cut t gr gc Ms). Qed.
Print Assumptions assembled_with_threshold.

Example cut_meets : map snd (List.concat (sm_lines (cut_mat (qz 2) {| sm_fmt := CSR; sm_nr := 1; sm_nc := 4; sm_lines := [[(0, qz 1); (1, qz (-3)); (2, qz (-1)); (3, qz 2)]] |}))) = [0%Qc; qz (-3); 0%Qc; qz 2].
Proof. reflexivity. Qed.

(** given data *)
Theorem threshold_changes_matrix_refuted : changes [0] data_ops 0 (qz 2) 0 0.
Proof. exact (threshold_changes_data_refuted). Qed.
Print Assumptions threshold_changes_matrix_refuted.

(** assembling the transposed matrix changes the matrix *)
Theorem threshold_changes_the_operand_refuted : changes [0] data_ops 1 (qz 2) 0 0.
Proof. exact (threshold_changes_operand_refuted). Qed.
Print Assumptions threshold_changes_the_operand_refuted.

Theorem threshold_changes_customised_matrix_refuted : changes [0] cust_ops 2 (qz 2) 2 0.
Proof. exact (threshold_changes_customised_refuted). Qed.
Print Assumptions threshold_changes_customised_matrix_refuted.

(** a later assembling without threshold finds the cut data in the cache *)
Theorem threshold_changes_cached_matrix_refuted : exists st st', lrun [0] empty_lstate cached_ops = Some st /\ lstep [0] st (LAssemble 0 (Some (qz 2))) = Some st' /\ reads_wrong [0] st' 0 0.
Proof. exact (threshold_changes_cache_refuted). Qed.
Print Assumptions threshold_changes_cached_matrix_refuted.

Definition th_ops : list lop := [LHold (two 1 4); LNew (KData uniq_key [(0, (0, false))] (fun _ => (2, 2))); LNew (KUn s_neg 0); LAssemble 1 (Some (qz 2)); LCust 0 0 (fun _ => two 1 5)].
Example thresholds_meet : exists st, lrun [0] empty_lstate th_ops = Some st /\ safe [0] empty_lstate th_ops /\ Forall unique_op th_ops /\ safe_step st (LAssemble 1 (Some (qz 3))) /\
  expects st 1 0 (svals (two (-1) (-5))).
Proof.
  eexists. split; [vm_compute; reflexivity|]. split; [|split; [repeat (apply Forall_cons; [cbn; auto|]); apply Forall_nil|split]].
  - cbn [safe th_ops safe_step lstep]. repeat (split; [exact I|]). cbn. split; [|repeat (split; [exact I|]); auto].
    eexists. split; [reflexivity|]. split; reflexivity.
  - eexists. split; [reflexivity|]. split; reflexivity.
  - eexists. split; vm_compute; reflexivity.
Qed.

(** * C51 a customised element is frozen *)

Theorem customised_element_is_frozen es ops st i e f st1 ops' st2 : lrun es empty_lstate ops = Some st -> lstep es st (LCust i e f) = Some st1 -> Forall no_threshold ops' -> Forall (leaves i e) ops' ->
  lrun es st1 ops' = Some st2 -> expected st2 i e = expected st1 i e.
Proof. exact (customised_is_frozen es ops st i e f st1 ops' st2). Qed.
Print Assumptions customised_element_is_frozen.

(** a block matrix customised first; then its block is customised *)
Example frozen_meets : exists st st1 st2, lrun [0] empty_lstate [LHold (two 1 4); LNew (KData uniq_key [(0, (0, false))] (fun _ => (2, 2))); LNew (KBlk (fun l => hd (two 0 0) l) 0 [])] = Some st /\
  lstep [0] st (LCust 1 0 s_neg) = Some st1 /\ lrun [0] st1 [LCust 0 0 (fun _ => two 7 7)] = Some st2 /\ Forall no_threshold [LCust 0 0 (fun _ => two 7 7)] /\ Forall (leaves 1 0) [LCust 0 0 (fun _ => two 7 7)] /\
  expects st2 1 0 (svals (two (-1) (-4))) /\ expects st2 0 0 (svals (two 7 7)).
Proof.
  eexists. eexists. eexists. split; [vm_compute; reflexivity|]. split; [vm_compute; reflexivity|]. split; [vm_compute; reflexivity|]. split; [repeat constructor|]. split; [repeat constructor; discriminate|].
  split; (eexists; split; vm_compute; reflexivity).
Qed.

(** * C52 the cache of assembled matrices *)

(** cache='x1', threshold=2.0 and cache='x', threshold=12.0 *)
Theorem assembled_matrix_cache_key_refuted : exists f c t f' c' t', (c, t) <> (c', t') /\ assembled_key f c t = assembled_key f' c' t' /\ f = f' /\ t = "2.0"%string /\ t' = "12.0"%string.
Proof. exact (assembled_key_refuted). Qed.
Print Assumptions assembled_matrix_cache_key_refuted.
