(** C31, C32, C53: functions cached by arrays.  Only statements and references to proofs; vocabulary in NdCacheSpec.v,
    model in NdCacheModel.v.  [F] is the cached function; a program makes arrays, writes them and calls. *)
From Coq Require Import List ZArith QArith Qcanon Bool String Lia.
From Verif Require Import Dict NdCacheModel NdCacheSpec NdCacheProofs.
Import ListNotations.
Local Open Scope nat_scope.

(** * C31 what the cache answers, what it keeps *)

(** every answer is the value of the function for the same text and near arrays; exceptions are those of the function *)
Theorem cached_answer_is_an_earlier_answer (F : string -> list arr -> option arr) ops st log l1 l l2 : polite F [] start ops -> run F start ops = Some (st, log) -> log = l1 ++ l :: l2 ->
    match l_out l with
    | Raised => F (l_str l) (l_arrays l) = None /\ l_value l = None
    | _ => exists l' v, In l' (l1 ++ [l]) /\ l_str l' = l_str l /\ Forall2 near_array (l_arrays l') (l_arrays l) /\ F (l_str l') (l_arrays l') = Some v /\ l_value l = Some v
    end.
Proof. exact (cached_sound F ops st log l1 l l2). Qed.
Print Assumptions cached_answer_is_an_earlier_answer.

(** if near arguments are equal *)
Theorem cache_is_invisible (F : string -> list arr -> option arr) ops st log l : polite F [] start ops -> run F start ops = Some (st, log) ->
    (forall l1 l2, In l1 log -> In l2 log -> l_str l1 = l_str l2 -> Forall2 near_array (l_arrays l1) (l_arrays l2) -> l_arrays l1 = l_arrays l2) ->
    In l log -> l_value l = F (l_str l) (l_arrays l).
Proof. exact (cached_exact F ops st log l). Qed.
Print Assumptions cache_is_invisible.

(** the entries are the latest computed results, at most 2m+1 and at least m+2 of them once any was dropped; the cache gives up exactly if more than 100 calls had less than one hit in twenty *)
Theorem cache_is_bounded F m ops st log : bounded_by m ops -> run F start ops = Some (st, log) ->
  List.length (entries (s_cache st)) <= 2 * m + 1 /\
  (if trying (s_cache st)
   then (exists old, flat_map made log = old ++ map snd (entries (s_cache st)) /\ (old = [] \/ m + 2 <= List.length (entries (s_cache st)))) /\
        (List.length log <= 100 \/ List.length log <= 20 * List.length (List.filter is_hit log))
   else entries (s_cache st) = [] /\ exists L1 L2, log = L1 ++ L2 /\ 100 < List.length L1 /\ 20 * List.length (List.filter is_hit L1) < List.length L1 /\ Forall (fun l => is_hit l = false) L2).
Proof. exact (cache_ledger F m ops st log). Qed.
Print Assumptions cache_is_bounded.

(** a call that is not a hit is unlike the m+2 latest computing calls *)
Theorem recent_calls_are_hits F m ops st log l1 l l2 : bounded_by m ops -> polite F [] start ops -> run F start ops = Some (st, log) -> log = l1 ++ l :: l2 ->
  is_hit l = true \/ given_up l1 \/ exists old recent, List.filter is_made l1 = old ++ recent /\ (old = [] \/ m + 2 <= List.length recent) /\ forall l', In l' recent -> ~ alike l' l.
Proof. exact (recent_calls_hit F m ops st log l1 l l2). Qed.
Print Assumptions recent_calls_are_hits.

Lemma polite_reading F ops : (forall x a, ~ In (Set_array x a) ops) -> forall used st, polite F used st ops.
Proof.
  induction ops as [|o r IH]; intros H used st; cbn [polite]; auto. split.
  - destruct o; auto. exfalso. eapply H. left. reflexivity.
  - destruct (step F st o) as [[st' ls]|]; auto. apply IH. intros x a Hx. apply (H x a). now right.
Qed.
(** with m = 1: the fourth computing call drops the first entry *)
Definition ev_ops : list op := [New (one 1); New (one 2); New (one 3); New (one 4); Call [0] "" 1; Call [1] "" 1; Call [0] "" 1; Call [2] "" 1; Call [3] "" 1; Call [3] "" 1; Call [0] "" 1].
Example eviction_meets : bounded_by 1 ev_ops /\ polite ident [] start ev_ops /\ 
  option_map (fun r => (map l_out (snd r), map fst (entries (s_cache (fst r))))) (run ident start ev_ops) = Some ([Made 4; Made 5; Hit 4; Made 6; Made 7; Hit 7; Made 8], [2; 3; 4]).
Proof.
  split; [intros xs s k H; cbn in H; repeat destruct H as [H|H]; try discriminate; try (injection H as <- <- <-; reflexivity); destruct H|]. split; [apply polite_reading; intros x a H; cbn in H; intuition discriminate|vm_compute; reflexivity].
Qed.
(** giving up after 101 different calls *)
Definition gu_ops : list op := flat_map (fun i => [New (one (Z.of_nat i)); Call [2 * i] "" 25]) (seq 0 101).
Example giving_up_meets : bounded_by 25 gu_ops /\ 
  option_map (fun r => (trying (s_cache (fst r)), List.length (snd r), existsb is_hit (snd r))) (run ident start (gu_ops ++ [Call [200] "" 25])) = Some (false, 102, false).
Proof.
  split; [|vm_compute; reflexivity].
  intros xs s k H. unfold gu_ops in H. apply in_flat_map in H as (i & _ & [H|[H|[]]]); [discriminate|]. injection H as <- <- <-. reflexivity.
Qed.

(** * C32 integer arrays *)

(** below 1e5 *)
Theorem integer_arrays_are_separated F ops st log l : polite F [] start ops -> run F start ops = Some (st, log) ->
  (forall l, In l log -> exists zs, l_arrays l = map int_array zs /\ Forall (Forall (fun z => (-100000 < z < 100000)%Z)) zs) -> In l log -> l_value l = F (l_str l) (l_arrays l).
Proof. exact (integer_keys_exact F ops st log l). Qed.
Print Assumptions integer_arrays_are_separated.

Theorem finding_small_dofs_is_exact gm nd ops st log l : polite (find_places gm nd) [] start ops -> run (find_places gm nd) start ops = Some (st, log) ->
  (forall l, In l log -> exists zs, l_arrays l = [int_array zs] /\ Forall (fun z => (-100000 < z < 100000)%Z) zs) -> In l log -> l_value l = find_places gm nd "" (l_arrays l).
Proof. exact (find_exact gm nd ops st log l). Qed.
Print Assumptions finding_small_dofs_is_exact.

(** a dof beyond 1e5 gets the places of another *)
Theorem finding_far_dofs_refuted : exists gm nd ops st log l, polite (find_places gm nd) [] start ops /\ run (find_places gm nd) start ops = Some (st, log) /\ In l log /\
  l_arrays l = [one 100000] /\ l_value l = find_places gm nd "" [one 100001] /\ l_value l <> find_places gm nd "" [one 100000].
Proof. exact (far_dofs_refuted). Qed.
Print Assumptions finding_far_dofs_refuted.

(** a dof that does not exist gets places instead of an exception *)
Theorem finding_missing_dof_refuted : exists gm nd ops st log l, polite (find_places gm nd) [] start ops /\ run (find_places gm nd) start ops = Some (st, log) /\ In l log /\
  find_places gm nd "" (l_arrays l) = None /\ l_out l <> Raised.
Proof. exact (missing_dof_refuted). Qed.
Print Assumptions finding_missing_dof_refuted.

Definition fd_ops : list op := [New (one 2); New (int_array [0; 2]%Z); Call [0] "" 25; Call [1] "" 25; Call [0] "" 25].
Example find_meets : polite (find_places [[0; 1]; [1; 2]]%Z 3%Z) [] start fd_ops /\ exists st log, run (find_places [[0; 1]; [1; 2]]%Z 3%Z) start fd_ops = Some (st, log) /\
  (forall l, In l log -> exists zs, l_arrays l = [int_array zs] /\ Forall (fun z => (-100000 < z < 100000)%Z) zs) /\ map l_out log = [Made 2; Made 3; Hit 2] /\
  map (fun l => option_map (fun a => map this (data a)) (l_value l)) log = [Some [2; 1; 1]%Q; Some [0; 0; 0; 2; 1; 1]%Q; Some [2; 1; 1]%Q].
Proof.
  split; [apply polite_reading; intros x a H; cbn in H; intuition discriminate|]. eexists _, _. split; [vm_compute; reflexivity|]. split; [|split; reflexivity].
  intros l [<-|[<-|[<-|[]]]]; cbn [l_arrays]; [exists [2%Z]|exists [0; 2]%Z|exists [2%Z]]; (split; [reflexivity|repeat constructor]).
Qed.

(** * C53 arrays are kept by reference *)

(** writing an array that was an argument changes the key: a later call gets the old result *)
Theorem argument_changed_later_refuted : exists a b st log l, run ident start [New a; Call [0] "" 25; Set_array 0 b; Call [0] "" 25] = Some (st, log) /\ In l log /\ l_arrays l = [b] /\ l_value l <> ident "" [b].
Proof. exact (changed_argument_refuted). Qed.
Print Assumptions argument_changed_later_refuted.

(** writing a result changes what later calls return *)
Theorem result_changed_later_refuted : exists a b st log l, run ident start [New a; Call [0] "" 25; Set_array 1 b; Call [0] "" 25] = Some (st, log) /\ In l log /\ l_arrays l = [a] /\ l_value l <> ident "" [a].
Proof. exact (changed_result_refuted). Qed.
Print Assumptions result_changed_later_refuted.
