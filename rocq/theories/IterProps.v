(** C28-C30: the iterator.  Only statements and references to proofs; vocabulary in IterSpec.v, model in IterModel.v.
    [R] relates states that the solver cannot tell apart; [left_over] are the files left by runs that were killed. *)
From Coq Require Import List ZArith QArith Qabs Qcanon Bool Lia.
From Verif Require Import Dict MetricKeyModel IterModel IterSpec IterProofs.
Import ListNotations.
Local Open Scope Z_scope.

(** * C28 the record of computed inputs *)

(** an input is known iff it was noted, and it is stored once *)
Theorem computed_inputs_exact ops : exists c, history ops no_computed = Some c /\ forall k, (check_input c k = true <-> In (Note k) ops) /\ (stored c k <= 1)%nat.
Proof. exact (record_exact ops). Qed.
Print Assumptions computed_inputs_exact.

Theorem compressing_keeps_inputs ops c : history ops no_computed = Some c -> exists c', compress c = Some c' /\ forall k, stored c' k = stored c k.
Proof. exact (compress_exact ops c). Qed.
Print Assumptions compressing_keeps_inputs.

Example record_meets : exists c, history [Note (IInt 3); Note (IInt 1); Compress; Note (IInt 2); Compress; Note (IStr false 50001); Compress; Note (IInt 2)] no_computed = Some c /\
  c_ranges c = [(1, 4)] /\ c_ints c = [] /\ check_input c (IInt 2) = true /\ check_input c (IInt 4) = false.
Proof. eexists. split; [vm_compute; reflexivity|]. repeat split. Qed.

(** * C29 resuming *)

(** results and exit of a run from any file left over are those of a run without cache; so is the state, unless no input was left to compute *)
Theorem resumed_run_equals_uninterrupted {St Out Dat : Type} (solve : St -> Qc -> St * (Z * Out)) (code : St -> Dat) (restore : St -> Dat -> St) (R : St -> St -> Prop)
  (Hs : forall s t i, R s t -> snd (solve s i) = snd (solve t i) /\ R (fst (solve s i)) (fst (solve t i)))
  (Hr : forall s t x, R s t -> R s (restore x (code t))) s0 all f s ws : NoDup (map make_key all) -> left_over solve code restore R s0 all f -> R s0 s ->
    let '(m, rows, en) := run solve code restore f s all ws in
    rows = snd (fst (plain_run solve s0 all)) /\ en = snd (plain_run solve s0 all) /\ (if m_check m then m_st m = s else R (fst (fst (plain_run solve s0 all))) (m_st m)).
Proof. exact (resumed_run solve code restore R Hs Hr s0 all f s ws). Qed.
Print Assumptions resumed_run_equals_uninterrupted.

(** an input occurring twice *)
Theorem repeated_inputs_resume_refuted : exists all f, left_over count_solve save reload eq 0%nat all f /\ run_rows (run count_solve save reload f 0%nat all []) <> snd (fst (plain_run count_solve 0%nat all)).
Proof. exact (repeated_input_refuted). Qed.
Print Assumptions repeated_inputs_resume_refuted.

(** inputs with the same five decimals *)
Theorem close_inputs_resume_refuted : exists all f, NoDup all /\ left_over count_solve save reload eq 0%nat all f /\ run_rows (run count_solve save reload f 0%nat all []) <> snd (fst (plain_run count_solve 0%nat all)).
Proof. exact (close_inputs_refuted). Qed.
Print Assumptions close_inputs_resume_refuted.

(** if all results come from the file, the objects keep their initial state *)
Theorem state_after_finished_run_refuted : exists all f, NoDup (map make_key all) /\ left_over count_solve save reload eq 0%nat all f /\ run_state (run count_solve save reload f 0%nat all []) <> fst (fst (plain_run count_solve 0%nat all)).
Proof. exact (finished_state_refuted). Qed.
Print Assumptions state_after_finished_run_refuted.

(** two killed runs over four inputs *)
Definition ex_all : list Qc := [i2 0; Q2Qc (1 # 2); i2 5; i2 (-3)].
Definition ex_disk : file nat nat := run_disk (run count_solve save reload (run_disk (run count_solve save reload empty_file 0%nat (firstn 2 ex_all) [false; true])) 0%nat (firstn 3 ex_all) [true; true; false]).
Example resumed_meets : NoDup (map make_key ex_all) /\ left_over count_solve save reload eq 0%nat ex_all ex_disk /\
  (forall s t i, s = t -> snd (count_solve s i) = snd (count_solve t i) /\ fst (count_solve s i) = fst (count_solve t i)) /\ (forall s t x : nat, s = t -> s = reload x (save t)) /\
  f_data ex_disk = Some 2%nat /\ run_rows (run count_solve save reload ex_disk 0%nat ex_all []) = [0; 1; 2; 3]%nat.
Proof.
  split; [repeat constructor; vm_compute; intuition congruence|]. split; [apply left_run; [apply left_run; [apply left_new|reflexivity]|reflexivity]|]. split; [intros s t i ->; auto|]. split; [auto|].
  split; vm_compute; reflexivity.
Qed.

(** * C30 keys of inputs *)

Theorem equal_keys_are_close a b : make_key a = make_key b -> a = b \/ (Qabs (this a - this b) <= 1 # 100000)%Q.
Proof. exact (keys_close a b). Qed.
Print Assumptions equal_keys_are_close.

Theorem integer_inputs_have_own_keys a b : Qden (this a) = 1%positive -> make_key a = make_key b -> a = b.
Proof. exact (integer_keys_exact a b). Qed.
Print Assumptions integer_inputs_have_own_keys.

Theorem spaced_inputs_have_own_keys a b : ((1 # 100000) < Qabs (this a - this b))%Q -> make_key a <> make_key b.
Proof. exact (spaced_keys_differ a b). Qed.
Print Assumptions spaced_inputs_have_own_keys.

Theorem distinct_inputs_same_key_refuted : exists a b, a <> b /\ make_key a = make_key b.
Proof. exact (keys_refuted). Qed.
Print Assumptions distinct_inputs_same_key_refuted.

Example keys_meet : make_key (Q2Qc (-1 # 3)) = IStr true 33333 /\ make_key (i2 7) = IInt 7 /\ ((1 # 100000) < Qabs (this (Q2Qc (1 # 3)) - this (Q2Qc (1 # 4))))%Q.
Proof. repeat split. Qed.
