(** C75: the matrix of a Newton step is the derivative of the residual.
    Only statements and references to proofs; vocabulary in NlSpec.v; model in NlModel.v.  None stands for an exception. *)
From Coq Require Import List Arith Bool ZArith Reals Lia Lra.
From Coquelicot Require Import Coquelicot.
From Verif Require Import NlModel NlSpec NlSums NlTerms NlThms NlThms2 NlThms3.
Import ListNotations.
Local Open Scope R_scope.

(** no exception for a good system, and the gathering matrices of all blocks are those of the linear system; the right-hand
    side is minus the residual A x + N(x) - b *)
Theorem newton_system_is_defined s X i : good s -> (i < n0 s)%nat ->
  (forall j, (j < n1 s)%nat -> exists L, lhs s (cochains s X) i j = Some L /\
     gm_row L = gm_row (A s i j) /\ gm_col L = gm_col (A s i j) /\
     forall e, In e (els s) -> exists M, mdata L e = Some M /\ rows M = nrow s i e /\ cols M = ncol s j e) /\
  (forall e, In e (els s) -> exists v w, newton_rhs s (cochains s X) i e = Some v /\ length v = nrow s i e /\
     (forall a, (a < nrow s i e)%nat -> nth a v 0 = - residual s X i e a) /\
     evaluate_f s (cochains s X) i e = Some w /\ length w = nrow s i e /\
     (forall a, (a < nrow s i e)%nat -> nth a w 0 = residual s X i e a)).
Proof. exact (newton_defined s X i). Qed.
Print Assumptions newton_system_is_defined.

(** in each element, the matrix times a direction is the derivative of the residual in that direction *)
Theorem newton_matrix_is_derivative s X H i e a :
  good s -> (i < n0 s)%nat -> In e (els s) -> (a < nrow s i e)%nat ->
  is_derive (fun r => residual s (move X H r) i e a) 0 (times s (newton_matrix s X) H i e a).
Proof. exact (newton_derivative s X H i e a). Qed.
Print Assumptions newton_matrix_is_derivative.

(** the same of the assembled matrix and the assembled residual, for global vectors of the unknowns *)
Theorem assembled_newton_matrix_is_derivative s g N Y Z i r :
  good s -> (i < n0 s)%nat -> numbered s g N ->
  is_derive (fun t => assembled s g (residual s (spread g (fun c k => Y c k + t * Z c k))) i r) 0
    (global_times s g N (newton_matrix s (spread g Y)) Z i r).
Proof. exact (newton_assembled s g N Y Z i r). Qed.
Print Assumptions assembled_newton_matrix_is_derivative.

(** a step in one unknown only is exact *)
Theorem newton_is_exact_in_one_unknown s X H u r i e a :
  good s -> (i < n0 s)%nat -> In e (els s) -> (a < nrow s i e)%nat -> In u (uks s) ->
  residual s (move X (only u H) r) i e a = residual s X i e a + r * times s (newton_matrix s X) (only u H) i e a.
Proof. exact (newton_exact_in_one s X H u r i e a). Qed.
Print Assumptions newton_is_exact_in_one_unknown.

(** with terms of three forms the residual after a solved step is the nonlinear part of the step alone *)
Theorem newton_step_leaves_quadratic_part s g N Y Z i r :
  good s -> (i < n0 s)%nat -> numbered s g N ->
  (forall t, In t (terms s i) -> length (corr (fst t)) = 3%nat) ->
  global_times s g N (newton_matrix s (spread g Y)) Z i r
  = assembled s g (fun i e a => value (newton_rhs s (cochains s (spread g Y)) i e) a) i r ->
  assembled s g (residual s (spread g (fun c k => Y c k + Z c k))) i r = assembled s g (terms_of s (spread g Z)) i r.
Proof. exact (newton_step s g N Y Z i r). Qed.
Print Assumptions newton_step_leaves_quadratic_part.

(** the right-hand side of a Picard step is b - N(x); the residual after a solved step is the change of N *)
Theorem picard_system_is_defined s X i e : good s -> (i < n0 s)%nat -> In e (els s) ->
  exists v, picard_rhs s (cochains s X) i e = Some v /\ length v = nrow s i e /\
    forall a, (a < nrow s i e)%nat -> nth a v 0 = nth a (b s i e) 0 - terms_of s X i e a.
Proof. exact (picard_defined s X i e). Qed.
Print Assumptions picard_system_is_defined.
Theorem picard_step_leaves_change s g N Y Z i r : good s -> (i < n0 s)%nat -> numbered s g N ->
  global_times s g N (linear_matrix s) Z i r
    - assembled s g (fun i e a => value (picard_rhs s (cochains s (spread g Y)) i e) a) i r
  = assembled s g (residual s (spread g Z)) i r
    + (assembled s g (terms_of s (spread g Y)) i r - assembled s g (terms_of s (spread g Z)) i r).
Proof. exact (picard_step s g N Y Z i r). Qed.
Print Assumptions picard_step_leaves_change.
Theorem picard_fixed_points_are_solutions s g N Y i r : good s -> (i < n0 s)%nat -> numbered s g N ->
  global_times s g N (linear_matrix s) Y i r
    = assembled s g (fun i e a => value (picard_rhs s (cochains s (spread g Y)) i e) a) i r
  <-> assembled s g (residual s (spread g Y)) i r = 0.
Proof. exact (picard_fixed s g N Y i r). Qed.
Print Assumptions picard_fixed_points_are_solutions.

(** a term with a form that is neither an unknown nor the test form makes Newton raise, whatever the values *)
Theorem newton_raises_with_known_factor s x i j unk t c : nth_error (uks s) j = Some unk -> In t (terms s i) ->
  In unk (corr (fst t)) -> In c (corr (fst t)) -> c <> tests s i -> ~ In c (uks s) -> lhs s x i j = None.
Proof. exact (known_factor_raises s x i j unk t c). Qed.
Print Assumptions newton_raises_with_known_factor.
(** so does a term with one unknown only, once or several times *)
Theorem newton_raises_with_one_unknown s x i j unk t : nth_error (uks s) j = Some unk -> In t (terms s i) ->
  In unk (corr (fst t)) -> (forall c, In c (corr (fst t)) -> c = tests s i \/ c = unk) -> lhs s x i j = None.
Proof. exact (nothing_known_raises s x i j unk t). Qed.
Print Assumptions newton_raises_with_one_unknown.
(** the check of the three forms: neighbours differ *)
Theorem three_forms_checked fa fb fc tf d bs ts n : three_dim fa fb fc tf d bs ts = Some n -> fa <> fb /\ fb <> fc /\ In tf [fa; fb; fc].
Proof. exact (three_dim_distinct fa fb fc tf d bs ts n). Qed.
Print Assumptions three_forms_checked.
(** the check of the three forms accepts u, v, u; with one dof per element the value then lacks a factor: u v instead of u u v *)
Theorem squares_of_unknowns_refuted :
  exists d s n X, three_dim 0 1 0 1 d (fun f => f) (fun _ => 0%Z) = Some n /\
    terms s 0 = [(n, true)] /\ tests s 0 = Gen 1 /\ uks s = [Copy 0 0] /\
    (forall x, lhs s x 0 0 = None) /\
    picard_rhs s (cochains s X) 0 0 = Some [-2] /\ nth 0 (b s 0 0) 0 - terms_of s X 0 0 0 = -4 /\
    evaluate_f s (cochains s X) 0 0 = Some [4] /\ residual s X 0 0 0 = 6.
Proof. exact same_unknown_refuted. Qed.
Print Assumptions squares_of_unknowns_refuted.
(** the derivative of a term alone may carry the gathering matrices of its transpose *)
Theorem derivative_gathering_refuted :
  exists els n test unk known m M, derivative_contribution els n test unk known = Some (Some m) /\
    mdata m 0 = Some M /\ corr n = [unk; test; Copy 2 0] /\
    gm_row m = base unk /\ gm_col m = base test /\ base unk <> base test /\
    rows M = nth 1 (shape (array n 0)) 0%nat /\ cols M = nth 0 (shape (array n 0)) 0%nat /\ rows M <> cols M.
Proof. exact transposed_gathering_refuted. Qed.
Print Assumptions derivative_gathering_refuted.

(** terms with three forms: as a vector, as a matrix, and through the wrapper *)
Theorem trilinear_vector fa fb fc T dim (c : nat -> list R) :
  shape T = map dim [fa; fb; fc] -> (forall f, In f [fa; fb; fc] -> length (c f) = dim f) ->
  forall vf, count_occ Nat.eq_dec [fa; fb; fc] vf = 1%nat ->
  exists a, one_dim [fa; fb; fc] vf T c = Some a /\ shape a = [dim vf] /\
    forall i, (i < dim vf)%nat -> at_ a [i] = mform (shape T) (at_ T)
      (map (fun f => if (f =? vf)%nat then delta i else fun k => nth k (c f) 0) [fa; fb; fc]).
Proof. exact (vector_value fa fb fc T dim c). Qed.
Print Assumptions trilinear_vector.
Theorem trilinear_vector_of_other_form_raises fa fb fc T (c : nat -> list R) vf :
  count_occ Nat.eq_dec [fa; fb; fc] vf <> 1%nat -> one_dim [fa; fb; fc] vf T c = None.
Proof. exact (vector_raises fa fb fc T c vf). Qed.
Print Assumptions trilinear_vector_of_other_form_raises.
Theorem trilinear_matrix fa fb fc T dim (c : nat -> list R) :
  shape T = map dim [fa; fb; fc] -> (forall f, In f [fa; fb; fc] -> length (c f) = dim f) ->
  forall rf kf, count_occ Nat.eq_dec [fa; fb; fc] rf = 1%nat -> count_occ Nat.eq_dec [fa; fb; fc] kf = 1%nat -> rf <> kf ->
  exists M, two_dim [fa; fb; fc] rf kf T c = Some (rf, kf, M) /\ rows M = dim rf /\ cols M = dim kf /\
    forall i j, (i < dim rf)%nat -> (j < dim kf)%nat -> ent M i j = mform (shape T) (at_ T)
      (map (fun f => if (f =? rf)%nat then delta i else if (f =? kf)%nat then delta j else fun k => nth k (c f) 0) [fa; fb; fc]).
Proof. exact (matrix_value fa fb fc T dim c). Qed.
Print Assumptions trilinear_matrix.
Theorem trilinear_matrix_times_cochain fa fb fc T dim (c : nat -> list R) rf kf a M :
  shape T = map dim [fa; fb; fc] -> (forall f, In f [fa; fb; fc] -> length (c f) = dim f) ->
  NoDup [fa; fb; fc] -> In rf [fa; fb; fc] -> In kf [fa; fb; fc] -> rf <> kf ->
  one_dim [fa; fb; fc] rf T c = Some a -> two_dim [fa; fb; fc] rf kf T c = Some (rf, kf, M) ->
  forall i, (i < dim rf)%nat -> rsum (cols M) (fun j => ent M i j * nth j (c kf) 0) = at_ a [i].
Proof. exact (matrix_times_cochain fa fb fc T dim c rf kf a M). Qed.
Print Assumptions trilinear_matrix_times_cochain.
Theorem trilinear_wrapper T p : length p = 3%nat -> count_none p = 1%nat -> wrapped T p = contract T p.
Proof. exact (wrapped_contract T p). Qed.
Print Assumptions trilinear_wrapper.

(** ** cases *)

(** two unknowns with 2 and 1 dofs, test forms with 2 and 1 dofs; row 0 has the term -3 * sum (i + 2 j + 1) u_i v_j w_k *)
Definition some_nloc (f e : nat) : nat := match f with 0 => 2 | 1 => 2 | _ => 1 end%nat.
Definition some_term : nop := rmul 3 (Arr (fun _ => mk_nd [2; 2; 1]%nat
  (fun l => match l with [i; j; _] => INR i + 2 * INR j + 1 | _ => 0 end)) [Copy 0 0; Gen 1; Copy 2 0] true).
Definition some_system : nls := mk_nls [0; 1]%nat 2 2
  (fun i j => mk_lmat (2 * i + 1) (2 * j) (fun _ => Some (mk_mat (2 - i) (2 - j) (fun a k => INR a + INR k))))
  (fun i _ => repeat 1 (2 - i)) (fun i => if (i =? 0)%nat then [(some_term, false)] else [])
  (fun i => Gen (2 * i + 1)) [Copy 0 0; Copy 2 0] some_nloc.
Example some_system_good : good some_system.
Proof.
  split; [simpl; lia|]. split; [reflexivity|]. split.
  { constructor; [simpl; intuition congruence|]. constructor; [simpl; tauto|constructor]. }
  split. { intros c [<-|[<-|[]]]; eauto. }
  split. { intros i _. exists (2 * i + 1)%nat. reflexivity. }
  split.
  { intros i j e Hi Hj He. eexists. split; [reflexivity|]. simpl in Hi, Hj.
    destruct i as [|[|i]]; [| |lia]; (destruct j as [|[|j]]; [| |lia]); split; reflexivity. }
  split. { intros i e Hi He. simpl in Hi. destruct i as [|[|i]]; [| |lia]; reflexivity. }
  intros i t Hi Ht. simpl in Hi, Ht. destruct i as [|[|i]]; [|contradiction|lia]. destruct Ht as [<-|[]].
  split; [apply made_mul; apply made_arr|]. split.
  { simpl. constructor; [simpl; intuition congruence|]. constructor; [simpl; intuition congruence|]. constructor; [simpl; tauto|constructor]. }
  split; [simpl; tauto|]. split; [simpl; intros c [<-|[<-|[<-|[]]]]; auto|]. split; [simpl; lia|]. reflexivity.
Qed.
Definition some_gm (f e : nat) : list nat := match f with 0 => [e; S e] | 1 => [e; S e] | _ => [e] end%nat.
Example some_numbers : numbered some_system some_gm (fun j => match j with 0 => 3 | _ => 2 end)%nat.
Proof.
  intros j e k Hj He Hk. simpl in Hj, He. destruct j as [|[|j]]; [| |lia]; cbn in *.
  - destruct k as [|[|k]]; cbn; destruct He as [<-|[<-|[]]]; lia.
  - destruct k as [|k]; cbn; destruct He as [<-|[<-|[]]]; lia.
Qed.
Example some_residual X : residual some_system X 0 0 1 =
  ((1 + 0) * X (Copy 0 0) 0%nat 0%nat + (1 + 1) * X (Copy 0 0) 0%nat 1%nat + (1 + 0) * X (Copy 2 0) 0%nat 0%nat)
  - 3 * (3 * X (Copy 0 0) 0%nat 0%nat + 4 * X (Copy 0 0) 0%nat 1%nat) * X (Copy 2 0) 0%nat 0%nat - 1.
Proof. cbv -[Rplus Rmult Rminus Ropp IZR]. ring. Qed.
(** its derivative by the last unknown is in the matrix *)
Example some_entry X : entry (newton_matrix some_system X 0 1 0) 1 0
  = 1 + 0 - 3 * (3 * X (Copy 0 0) 0%nat 0%nat + 4 * X (Copy 0 0) 0%nat 1%nat).
Proof. cbv -[Rplus Rmult Rminus Ropp IZR]. ring. Qed.
Example some_three : forall t, In t (terms some_system 0) -> length (corr (fst t)) = 3%nat.
Proof. intros t [<-|[]]. reflexivity. Qed.
(** a known factor; one unknown only *)
Example some_known x : lhs (mk_nls [0%nat] 1 1 (A square) (b square)
  (fun _ => [(Arr (fun _ => one_of [1; 1; 1]%nat) [Copy 0 0; Gen 1; Copy 5 0] true, true)]) (tests square) (uks square) (nloc square)) x 0 0 = None.
Proof.
  apply (newton_raises_with_known_factor _ x 0 0 (Copy 0 0) (Arr (fun _ => one_of [1; 1; 1]%nat) [Copy 0 0; Gen 1; Copy 5 0] true, true) (Copy 5 0));
    simpl; auto; intuition discriminate.
Qed.
Example some_linear x : lhs (mk_nls [0%nat] 1 1 (A square) (b square)
  (fun _ => [(Arr (fun _ => one_of [1; 1]%nat) [Copy 0 0; Gen 1] true, true)]) (tests square) (uks square) (nloc square)) x 0 0 = None.
Proof.
  apply (newton_raises_with_one_unknown _ x 0 0 (Copy 0 0) (Arr (fun _ => one_of [1; 1]%nat) [Copy 0 0; Gen 1] true, true));
    simpl; auto. intros c [<-|[<-|[]]]; auto.
Qed.
(** (A, B, C) with forms 4, 7, 4: the form 7 occurs once *)
Example some_trilinear : exists a, one_dim [4; 7; 4]%nat 7 (mk_nd [1; 2; 1]%nat (fun l => match l with [_; j; _] => INR j + 1 | _ => 0 end))
   (fun _ => [3]) = Some a /\ at_ a [0%nat] = 9 /\ at_ a [1%nat] = 18.
Proof. eexists. split; [reflexivity|]. split; cbv -[Rplus Rmult Rminus Ropp IZR]; ring. Qed.
Example some_trilinear_matrix : exists M, two_dim [4; 7; 5]%nat 5 4 (mk_nd [2; 1; 3]%nat (fun l => match l with [i; _; k] => INR i + 10 * INR k | _ => 0 end))
   (fun _ => [3]) = Some (5, 4, M)%nat /\ rows M = 3%nat /\ cols M = 2%nat /\ ent M 2 1 = 63.
Proof. eexists. split; [reflexivity|]. split; [reflexivity|]. split; [reflexivity|]. cbv -[Rplus Rmult Rminus Ropp IZR]; ring. Qed.
