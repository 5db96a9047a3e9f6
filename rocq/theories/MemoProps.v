(** C33, C34: memoised functions and frozen objects.  Only statements and references to proofs; vocabulary in
    MemoSpec.v, model in MemoModel.v. *)
From Coq Require Import List ZArith QArith Qcanon Bool String Ascii Lia.
From Verif Require Import Dict MemoModel MemoSpec MemoProofs.
Import ListNotations.
Local Open Scope nat_scope.
Local Open Scope string_scope.
Local Open Scope list_scope.

(** * C33 memoising *)
(** [same]: whether the table takes two arguments for the same; a function that does not tell such arguments apart *)

(** results are those of the function *)
Theorem memoised_calls {A R} (same : A -> A -> bool) (f : A -> option R) l : (forall a b, In a l -> In b l -> same a b = true -> f a = f b) -> map fst (snd (memo_run same f [] l)) = map f l.
Proof. exact (memo_transparent same f l). Qed.
Print Assumptions memoised_calls.

(** a function is not evaluated if an earlier call with the same argument had a result *)
Theorem memoised_once {A R} (same : A -> A -> bool) (f : A -> option R) (Ht : forall a b c, same a b = true -> same b c = true -> same a c = true) (Hr : forall a r, f a = Some r -> same a a = true) l l1 a l2 : l = l1 ++ a :: l2 -> nth_error (map snd (snd (memo_run same f [] l))) (List.length l1) = Some true ->
    forall b r, In (b, r) (combine l1 (map fst (snd (memo_run same f [] l)))) -> r <> None -> same b a = false.
Proof. exact (memo_once same f Ht Hr l l1 a l2). Qed.
Print Assumptions memoised_once.

(** for integers, booleans and None *)
Theorem memoize1_is_invisible {R} (f : arguments -> option R) l : Forall simple_args l -> map fst (snd (memo_run same1 f [] l)) = map f l.
Proof. exact (memoize1_transparent f l). Qed.
Print Assumptions memoize1_is_invisible.

(** long arrays are abbreviated in the key *)
Theorem memoize1_long_arrays_refuted : exists a b, map fst (snd (memo_run same1 sum_arr [] [a; b])) <> map sum_arr [a; b].
Proof. exact (memoize1_arrays_refuted). Qed.
Print Assumptions memoize1_long_arrays_refuted.

Theorem equal_values a b : pv_eqb a b = true <-> (exists q, number a = Some q /\ number b = Some q) \/ (a = PNone /\ b = PNone) \/ exists s, a = PStr s /\ b = PStr s.
Proof. exact (pv_eqb_spec a b). Qed.
Print Assumptions equal_values.

Theorem equal_values_transitive a b c : pv_eqb a b = true -> pv_eqb b c = true -> pv_eqb a c = true.
Proof. exact (pv_eqb_trans a b c). Qed.
Print Assumptions equal_values_transitive.

(** the same method, the same number of positional arguments with equal values, the same keyword arguments with equal values in any order *)
Theorem equal_arguments a b : same2 a b = true <-> fst a = fst b /\ Forall2 (fun x y => pv_eqb x y = true) (fst (snd a)) (fst (snd b)) /\
  (forall k v, In (k, v) (snd (snd a)) -> exists w, In (k, w) (snd (snd b)) /\ pv_eqb v w = true) /\ (forall k v, In (k, v) (snd (snd b)) -> exists w, In (k, w) (snd (snd a)) /\ pv_eqb v w = true).
Proof. exact (same2_spec a b). Qed.
Print Assumptions equal_arguments.

Theorem equal_argument_tuples a : forall b, pvs_eqb a b = true <-> Forall2 (fun x y => pv_eqb x y = true) a b.
Proof. exact (pvs_eqb_spec a). Qed.
Print Assumptions equal_argument_tuples.

Theorem equal_arguments_transitive a b c : same2 a b = true -> same2 b c = true -> same2 a c = true.
Proof. exact (same2_trans a b c). Qed.
Print Assumptions equal_arguments_transitive.

(** 1 and 1.0 share an entry *)
Theorem memoize3_types_refuted : exists a b, map fst (snd (memo_run same3 (fun v => Some (type_name v)) [] [a; b])) <> map (fun v => Some (type_name v)) [a; b].
Proof. exact (memoize3_types_refuted). Qed.
Print Assumptions memoize3_types_refuted.

(** memoize_2, memoize_5: a call gives the value of the method unless the object was frozen before any memoised call: then it raises, and only then *)
Theorem memoised_methods {R} (f : nat -> nat * arguments -> option R) l l1 o a l2 : (forall o a b, same2 a b = true -> f o a = f o b) -> l = l1 ++ Call_obj o a :: l2 ->
    exists r, nth_error (snd (mrun f new_objs l)) (List.length l1) = Some r /\
      match r with
      | FrozenErr => frozen_after o l1 false = true /\ ~ used_before o l1
      | Value v _ => (frozen_after o l1 false = false \/ used_before o l1) /\ v = f o a
      | Silent => False
      end.
Proof. exact (methods_right f l l1 o a l2). Qed.
Print Assumptions memoised_methods.

Definition ar (z : Z) : arguments := ([PInt z; PNone], [("n", PBool true)]).
Definition first (a : arguments) : option Z := match fst a with PInt z :: _ => if (z <? 0)%Z then None else Some z | _ => None end.
Example memo_meets : Forall simple_args [ar 12; ar (-1); ar 12; ar (-1)] /\ memo_run same1 first [] [ar 12; ar (-1); ar 12; ar (-1)] = ([(ar 12, 12%Z)], [(Some 12%Z, true); (None, true); (Some 12%Z, false); (None, true)]) /\
  key1 (ar 12) = Some "(12, None){'n': True}".
Proof. split; [repeat constructor; cbn; repeat split; try discriminate|]. split; reflexivity. Qed.
Definition meth (o : nat) (a : nat * arguments) : option Z := Some (Z.of_nat (o + fst a)).
Example methods_meet : (forall o a b, same2 a b = true -> meth o a = meth o b) /\
  snd (mrun meth new_objs [Call_obj 0 (1, ar 0); Freeze_obj 0; Freeze_obj 1; Call_obj 0 (2, ar 0); Call_obj 1 (2, ar 0); Call_obj 0 (1, ([PFloat 0%Qc; PNone], [("n", PInt 1)])); Melt_obj 1; Call_obj 1 (2, ar 0)])
  = [Value (Some 1%Z) true; Silent; Silent; Value (Some 2%Z) true; FrozenErr; Value (Some 1%Z) false; Silent; Value (Some 3%Z) true].
Proof. split; [|reflexivity]. intros o [n a] [n' a'] H. unfold same2 in H. cbn in H. rewrite !andb_true_iff, Nat.eqb_eq in H. destruct H as [[-> _] _]. reflexivity. Qed.

(** * C34 frozen objects *)

(** attributes, the flag and the outcomes are as expected, in any history that leaves the flag alone *)
Theorem frozen_objects {V} (T F : V) (truth : V -> bool) (class_names readonly : list string) (HT : truth T = true) (HF : truth F = false) (Hro : ~ In FROZEN readonly) l d : Forall untouched l ->
    let (d', rs) := frun T F truth class_names readonly d l in
    (filter (fun kv => negb (String.eqb (fst kv) FROZEN)) d', match get String.eqb d' FROZEN with Some v => truth v | None => false end, rs)
    = expected class_names readonly (filter (fun kv => negb (String.eqb (fst kv) FROZEN)) d) (match get String.eqb d FROZEN with Some v => truth v | None => false end) l.
Proof. exact (frun_expected T F truth class_names readonly HT HF Hro l d). Qed.
Print Assumptions frozen_objects.

(** no new names while frozen *)
Theorem frozen_names_are_kept {V} (T F : V) truth class_names readonly l d v : truth T = true -> truth F = false -> ~ In FROZEN readonly -> Forall untouched l -> Forall (fun p => p <> FMelt) l ->
  get String.eqb d FROZEN = Some v -> truth v = true -> incl (keys (fst (frun T F truth class_names readonly d l))) (keys d ++ class_names).
Proof. exact (frozen_names T F truth class_names readonly l d v). Qed.
Print Assumptions frozen_names_are_kept.

Example frozen_meets_history : frun true false (fun b : bool => b) ["meth"; "prop"] ["prop"] [] [FSet "a" true; FFreeze; FSet "b" true; FSet "a" false; FSet "meth" true; FSet "prop" true; FDel "a"; FSet "a" true; FMelt; FSet "a" true]
  = ([("___FROZEN___", false); ("meth", true); ("a", true)], [true; true; false; true; true; false; true; false; true; true]).
Proof. reflexivity. Qed.
