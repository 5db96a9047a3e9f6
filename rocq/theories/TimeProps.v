(** C38-C40: time sequences and abstract time instants.  Only statements and references to proofs; vocabulary in
    TimeSpec.v, model in TimeModel.v. *)
From Coq Require Import List ZArith QArith Qround Qabs Bool String Ascii Lia.
From Verif Require Import MetricKeyModel MemoModel MiscModel TimeModel TimeSpec TimeConst TimeFunc TimeText TimeParse TimeInstant.
Import ListNotations.
Local Open Scope Q_scope.

(** * C38 constant time sequences; all t0, t_max, n, factor *)

(** every positive multiple of the factor is a possible number of intervals *)
Theorem constant_sequence_made t0 tmax n factor m : t0 < tmax -> (0 < factor)%Z -> (0 < m)%Z -> n == inject_Z (m * factor) -> exists c, new_cseq t0 tmax n factor = Some c /\ c_kmax c = m.
Proof. exact (new_cseq_total t0 tmax n factor m). Qed.
Print Assumptions constant_sequence_made.

(** what was made has positive steps that add up to the whole *)
Theorem constant_sequence_valid t0 tmax n factor c : new_cseq t0 tmax n factor = Some c ->
  t0 < tmax /\ (0 < factor)%Z /\ (0 < c_kmax c)%Z /\ n == inject_Z (c_kmax c * factor) /\ c_t0 c = t0 /\ c_tmax c = tmax /\
  c_dt c * inject_Z (c_kmax c) == tmax - t0 /\ c_allowed c = map (fun i => round8 (inject_Z (Z.of_nat i) / inject_Z factor)) (seq 0 (Z.to_nat factor)).
Proof. exact (new_cseq_spec t0 tmax n factor c). Qed.
Print Assumptions constant_sequence_valid.

Theorem constant_step_positive t0 tmax n factor c (Hc : new_cseq t0 tmax n factor = Some c) : 0 < c_dt c.
Proof. exact (dt_pos t0 tmax n factor c Hc). Qed.
Print Assumptions constant_step_positive.

(** every multiple of 1 / factor up to one step outside is an instant of the even grid *)
Theorem constant_grid t0 tmax n factor c (Hc : new_cseq t0 tmax n factor = Some c) : forall j, (- factor <= j <= (c_kmax c + 1) * factor)%Z -> exists t, cget c (inject_Z j / inject_Z factor) = Some t /\
  t == t0 + inject_Z j / inject_Z factor * c_dt c /\ t == t0 + inject_Z j * ((tmax - t0) / n).
Proof. exact (cget_multiple t0 tmax n factor c Hc). Qed.
Print Assumptions constant_grid.

(** only such multiples, up to 1e-8, are accepted *)
Theorem constant_accepted t0 tmax n factor c (Hc : new_cseq t0 tmax n factor = Some c) : forall k t, cget c k = Some t -> t == t0 + k * c_dt c /\ exists j, Qabs (k - inject_Z j / inject_Z factor) <= 1 / E8.
Proof. exact (cget_near t0 tmax n factor c Hc). Qed.
Print Assumptions constant_accepted.

(** more than one step outside: an error *)
Theorem constant_rejected t0 tmax n factor c (Hc : new_cseq t0 tmax n factor = Some c) : forall k, k < - (1) \/ inject_Z (c_kmax c) + 1 < k -> cget c k = None.
Proof. exact (cget_outside t0 tmax n factor c Hc). Qed.
Print Assumptions constant_rejected.

Theorem constant_monotone t0 tmax n factor c (Hc : new_cseq t0 tmax n factor = Some c) : forall k k' t t', cget c k = Some t -> cget c k' = Some t' -> (k < k' <-> t < t').
Proof. exact (cget_monotone t0 tmax n factor c Hc). Qed.
Print Assumptions constant_monotone.

(** t[0] = t0, t[k_max] = t_max *)
Theorem constant_ends t0 tmax n factor c (Hc : new_cseq t0 tmax n factor = Some c) : exists a b, cget c 0 = Some a /\ a == t0 /\ cget c (inject_Z (c_kmax c)) = Some b /\ b == tmax.
Proof. exact (cget_ends t0 tmax n factor c Hc). Qed.
Print Assumptions constant_ends.

(** rounding errors are forgiven above a whole step *)
Theorem slightly_above_accepted t0 tmax n factor c (Hc : new_cseq t0 tmax n factor = Some c) : forall j e, (0 <= j <= c_kmax c)%Z -> 0 <= e < (1 # 200000000) -> cget c (inject_Z j + e) = Some (c_t0 c + (inject_Z j + e) * c_dt c).
Proof. exact (cget_above t0 tmax n factor c Hc). Qed.
Print Assumptions slightly_above_accepted.

(** but not below one: the rounded remainder 1.0 is not allowed *)
Theorem slightly_below_refuted t0 tmax n factor c (Hc : new_cseq t0 tmax n factor = Some c) : forall j e, (factor <= 100000000)%Z -> 0 < e < (1 # 200000000) -> cget c (inject_Z j - e) = None.
Proof. exact (cget_below t0 tmax n factor c Hc). Qed.
Print Assumptions slightly_below_refuted.

Example constant_meet : exists c, new_cseq 0 5 15 3 = Some c /\ c_kmax c = 5%Z /\ (exists t, cget c (4 # 3) = Some t /\ t == 4 # 3) /\ cget c (1 # 2) = None /\ cget c (29 # 3) = None.
Proof. eexists. split; [reflexivity|]. vm_compute. repeat split. eexists. split; reflexivity. Qed.

(** * C39 function time sequences; all positive increments, all intervals above half of 1e-8, all histories of questions *)

(** after any history: the time on the polygon, or an error outside the steps made so far *)
Theorem function_answers t0 ivl d func (Hivl : (1 # 2) < ivl * E8) (Hfunc : forall n, func n = Some (d n)) (Hd : forall n, 0 < d n) : forall l x, let st := asked ivl func t0 l in let k := round8 x in
  match fget ivl func st x with
  | (At t, st') => on_polygon ivl t0 d k t /\ (0 <= k <= zlast (f_steps st'))%Z
  | (Invalid, st') => (k < 0)%Z \/ (zlast (f_steps st') < k)%Z
  | (Broken, _) => False
  end.
Proof. exact (fget_answer t0 ivl d func Hivl Hfunc Hd). Qed.
Print Assumptions function_answers.

(** answers do not depend on the history *)
Theorem function_history t0 ivl d func (Hivl : (1 # 2) < ivl * E8) (Hfunc : forall n, func n = Some (d n)) (Hd : forall n, 0 < d n) : forall l l' x x' t t' s s', fget ivl func (asked ivl func t0 l) x = (At t, s) -> fget ivl func (asked ivl func t0 l') x' = (At t', s') -> round8 x = round8 x' -> t == t'.
Proof. exact (fget_same t0 ivl d func Hivl Hfunc Hd). Qed.
Print Assumptions function_history.

(** later steps are later times *)
Theorem function_monotone t0 ivl d func (Hivl : (1 # 2) < ivl * E8) (Hfunc : forall n, func n = Some (d n)) (Hd : forall n, 0 < d n) : forall l l' x x' t t' s s', fget ivl func (asked ivl func t0 l) x = (At t, s) -> fget ivl func (asked ivl func t0 l') x' = (At t', s') -> (round8 x < round8 x')%Z -> t < t'.
Proof. exact (fget_mono t0 ivl d func Hivl Hfunc Hd). Qed.
Print Assumptions function_monotone.

(** what was answered stays answered *)
Theorem function_again t0 ivl d func (Hivl : (1 # 2) < ivl * E8) (Hfunc : forall n, func n = Some (d n)) (Hd : forall n, 0 < d n) : forall l x t s l', fget ivl func (asked ivl func t0 l) x = (At t, s) -> exists t' s', fget ivl func (asked ivl func t0 (l ++ x :: l')) x = (At t', s') /\ t' == t.
Proof. exact (fget_again t0 ivl d func Hivl Hfunc Hd). Qed.
Print Assumptions function_again.

(** asking again and again reaches every step *)
Theorem function_reached t0 ivl d func (Hivl : (1 # 2) < ivl * E8) (Hfunc : forall n, func n = Some (d n)) (Hd : forall n, 0 < d n) : forall l x n, (0 <= round8 x <= step ivl (S n))%Z -> exists t s, fget ivl func (asked ivl func t0 (l ++ repeat x n)) x = (At t, s).
Proof. exact (fget_reached t0 ivl d func Hivl Hfunc Hd). Qed.
Print Assumptions function_reached.

(** at most one call of the function per question *)
Theorem function_calls t0 ivl d func (Hivl : (1 # 2) < ivl * E8) (Hfunc : forall n, func n = Some (d n)) (Hd : forall n, 0 < d n) : forall l, exists m, f_steps (asked ivl func t0 l) = map (step ivl) (seq 0 (S m)) /\ f_calls (asked ivl func t0 l) = m /\ (m <= List.length l)%nat.
Proof. exact (fget_steps t0 ivl d func Hfunc Hd). Qed.
Print Assumptions function_calls.

(** with an interval of one, t[n] is the n-th time *)
Theorem function_whole_steps t0 d func n l t s : (forall n, func n = Some (d n)) -> (forall n, 0 < d n) -> fget 1 func (asked 1 func t0 l) (inject_Z (Z.of_nat n)) = (At t, s) -> t == time t0 d n.
Proof. exact (fget_nth t0 d func n l t s). Qed.
Print Assumptions function_whole_steps.

(** asked in order, each whole step is answered with one call *)
Theorem function_in_order t0 d func n : (forall n, func n = Some (d n)) -> (forall n, 0 < d n) -> exists t s, fget 1 func (asked 1 func t0 (map (fun i => inject_Z (Z.of_nat i)) (seq 1 n))) (inject_Z (Z.of_nat (S n))) = (At t, s) /\ t == time t0 d (S n) /\ f_calls s = S n.
Proof. exact (fget_in_order t0 d func n). Qed.
Print Assumptions function_in_order.

Theorem steps_are_multiples ivl z : ivl * E8 == inject_Z z -> forall n, step ivl n = (Z.of_nat n * z)%Z.
Proof. exact (step_whole ivl z). Qed.
Print Assumptions steps_are_multiples.

(** an error is not free of effects: the same question then succeeds *)
Theorem failed_question_advances_refuted : exists t0 func x st, fget 1 func (new_fseq t0) x = (Invalid, st) /\ exists t st', fget 1 func st x = (At t, st').
Proof. exact (failed_question_advances). Qed.
Print Assumptions failed_question_advances_refuted.

(** after the function once gave no positive number the times are shifted and no longer increase *)
Theorem failed_function_refuted : exists t0 func l x y s s' t t', fget 1 func (asked 1 func t0 l) x = (At t, s) /\ fget 1 func (asked 1 func t0 l) y = (At t', s') /\ (round8 x < round8 y)%Z /\ t' < t.
Proof. exact (torn_by_func). Qed.
Print Assumptions failed_function_refuted.

(** and the newest step never gets a time *)
Theorem failed_function_for_good_refuted : exists t0 func l x, (forall n, exists v, func (S n) = Some v /\ 0 < v) /\ fst (fget 1 func (asked 1 func t0 l) x) = Broken /\ (0 <= round8 x <= zlast (f_steps (asked 1 func t0 l)))%Z.
Proof. exact (torn_for_good). Qed.
Print Assumptions failed_function_for_good_refuted.

Example function_meet : let func n := Some (inject_Z (Z.of_nat n + 1)) in
  (exists t s, fget 1 func (asked 1 func 5 [1]) (3 # 2) = (At t, s) /\ t == 7) /\ (exists t s, fget 1 func (asked 1 func 5 [1; 7; 7; 1 # 2]) (3 # 2) = (At t, s) /\ t == 7) /\ (1 # 2) < 1 * E8.
Proof. cbv zeta. split; [|split]; [eexists _, _; split; [vm_compute; reflexivity|reflexivity]|eexists _, _; split; [vm_compute; reflexivity|reflexivity]|reflexivity]. Qed.

(** * C40 abstract time instants; all texts, all keyword arguments *)
Local Open Scope string_scope.

(** the value with the letters bound, when letters stand apart and no negative value is the base of a power *)
Theorem substitution_values s kw x : apart s -> NoDup (map fst kw) ->
  (forall c t v, In (c, (t, v)) kw -> (exists p q, s = p ++ String c q) /\ letter c = true /\ literal t v /\ ((exists w, t = String "-" w) -> ~ base_of_power c s)) ->
  eval (env_of (vals kw)) s = Some x -> step_of s (texts kw) = Some x.
Proof. exact (step_of_sound s kw x). Qed.
Print Assumptions substitution_values.

(** for values without sign: the same value, the same failures *)
Theorem substitution_exact s kw : apart s -> (forall c t v, In (c, (t, v)) kw -> (exists p q, s = p ++ String c q) /\ letter c = true /\ number t = Some v) -> step_of s (texts kw) = eval (env_of (vals kw)) s.
Proof. exact (step_of_exact s kw). Qed.
Print Assumptions substitution_exact.

Theorem unknown_keys_rejected s kw : (exists c t, In (c, t) kw /\ ~ (exists p q, s = p ++ String c q)) -> step_of s kw = None.
Proof. exact (unknown_key s kw). Qed.
Print Assumptions unknown_keys_rejected.

Theorem long_names_rejected s kw : (exists p a b q, s = p ++ String a (String b q) /\ letter a = true /\ letter b = true) -> step_of s kw = None.
Proof. exact (neighbours s kw). Qed.
Print Assumptions long_names_rejected.

(** the text of every integer *)
Theorem integers_are_literals z : literal (str_z z) (inject_Z z).
Proof. exact (literal_int z). Qed.
Print Assumptions integers_are_literals.

Theorem signed_integers z : (exists w, str_z z = String "-" w) <-> (z < 0)%Z.
Proof. exact (signed_int z). Qed.
Print Assumptions signed_integers.

(** from t[k-1] to t[k] it is one time step, for all k *)
Theorem interval_of_one_step t0 tmax n factor c z : new_cseq t0 tmax n factor = Some c -> (0 <= z <= c_kmax c + 1)%Z -> exists d, interval c "k-1" "k" [("k"%char, str_z z)] = Some d /\ (d == c_dt c)%Q.
Proof. exact (interval_dt t0 tmax n factor c z). Qed.
Print Assumptions interval_of_one_step.

Theorem half_steps_are_midpoints t0 tmax n factor c z : new_cseq t0 tmax n factor = Some c -> (factor mod 2 = 0)%Z -> (0 <= z <= c_kmax c + 1)%Z ->
  exists a m b, instant c "k-1" [("k"%char, str_z z)] = Some a /\ instant c "k-1/2" [("k"%char, str_z z)] = Some m /\ instant c "k" [("k"%char, str_z z)] = Some b /\ (m == (a + b) / 2)%Q.
Proof. exact (midpoint t0 tmax n factor c z). Qed.
Print Assumptions half_steps_are_midpoints.

(** (-1)**2 is taken for -1**2 *)
Theorem power_of_negative_refuted : step_of "k**2" [("k"%char, str_z (-1))] = Some (-1)%Q /\ eval (env_of [("k"%char, (-1)%Q)]) "k**2" = Some 1%Q.
Proof. exact (power_of_negative). Qed.
Print Assumptions power_of_negative_refuted.

(** 2k with k = 3 is 23 *)
Theorem factor_in_front_refuted : step_of "2k" [("k"%char, str_z 3)] = Some 23%Q /\ eval (env_of [("k"%char, 3%Q)]) "2k" = None.
Proof. exact (factor_in_front). Qed.
Print Assumptions factor_in_front_refuted.

Example apart_meet : apart "k-1/2*m" /\ eval (env_of [("k"%char, 3%Q); ("m"%char, (-1)%Q)]) "k-1/2*m" = Some (inject_Z 3 - 1 / 2 * (- (1)))%Q /\ literal "-1" (-1)%Q /\ ~ base_of_power "m" "k-1/2*m".
Proof.
  split; [now apply iso_apart|]. split; [reflexivity|]. split; [apply (literal_int (-1))|].
  intros H. apply base_bpow in H. discriminate.
Qed.
Example text_meet : (exists x, step_of "k-1/2*m" [("k"%char, str_z 3); ("m"%char, str_z (-1))] = Some x /\ (x == 7 # 2)%Q) /\ step_of "k+j" [("k"%char, "2")] = None /\ step_of "kk" [("k"%char, "2")] = None.
Proof. split; [eexists; split; [vm_compute; reflexivity|reflexivity]|split; vm_compute; reflexivity]. Qed.
