(** C72: deriving weak formulations.  Only statements and references to proofs; vocabulary in WfSpec.v;
    model in WfModel.v.  None stands for an exception. *)
From Coq Require Import Ascii String Reals Lra Bool Arith Lia List Permutation.
From Verif Require Import WfModel WfSpec WfStr WfThms WfTerm WfSteps.
Import ListNotations.
Local Open Scope list_scope.
Local Open Scope R_scope.

(** * indices *)

(** wf['i-k'] is the k-th term of equation i, left terms first; no other index is accepted *)
Theorem wf_getitem : forall {T} (w : wf T) s x, getitem w s = Some x <->
  exists i k e, s = index_of i k /\ nth_error (wf_eqs w) i = Some e /\ nth_error (fst e ++ snd e) k = Some x.
Proof. exact (@getitem_some). Qed.
Print Assumptions wf_getitem.

(** * replacing and deleting *)

(** new terms take the place and the sign of the old one; other equations and the unknowns stay *)
Theorem wf_replace : forall {T} (efs : T -> list nat) (w w' : wf T) i k new, replace efs w (index_of i k) new = Some w' ->
  wf_unknowns w' = wf_unknowns w /\ length (wf_eqs w') = length (wf_eqs w) /\
  (forall j, j <> i -> nth_error (wf_eqs w') j = nth_error (wf_eqs w) j) /\
  exists e e' s t,
    nth_error (wf_eqs w) i = Some e /\ nth_error (wf_eqs w') i = Some e' /\
    on_left e k = Some (s, t) /\
    gathered e' = put (gathered e) k (signed s new) /\
    (length (fst e') <= length (fst e) + length new)%nat /\
    forall v, residual v e' = residual v e + sg s * (total v new - v t).
Proof. exact (@replace_effect). Qed.
Print Assumptions wf_replace.

(** it runs exactly if the index exists, a term is left and the unknowns that were set still occur *)
Theorem wf_replace_runs : forall {T} (efs : T -> list nat) (w : wf T) i k new,
  (exists w', replace efs w (index_of i k) new = Some w') <->
  exists e s t, nth_error (wf_eqs w) i = Some e /\ nth_error (fst e ++ snd e) k = Some (s, t) /\
    acceptable efs w (put (wf_eqs w) i [eq_put e k (signed s new)]).
Proof. exact (@replace_runs). Qed.
Print Assumptions wf_replace_runs.

(** deleting takes one term from the equation *)
Theorem wf_delete : forall {T} (efs : T -> list nat) (w : wf T) i k w', delete efs w (index_of i k) = Some w' ->
  exists e e' s t, nth_error (wf_eqs w) i = Some e /\ nth_error (wf_eqs w') i = Some e' /\
    on_left e k = Some (s, t) /\ gathered e' = firstn k (gathered e) ++ skipn (S k) (gathered e) /\
    forall v, residual v e' = residual v e - sg s * v t.
Proof. exact (@delete_effect). Qed.
Print Assumptions wf_delete.

(** * rearranging *)

(** whatever is asked for: the same terms with the same residual, whatever the values of the terms *)
Theorem wf_rearrange : forall {T} (efs : T -> list nat) (w w' : wf T) req, rearrange efs w req = Some w' ->
  wf_unknowns w' = wf_unknowns w /\ length (wf_eqs w') = length (wf_eqs w) /\
  forall i e, nth_error (wf_eqs w) i = Some e -> exists e', nth_error (wf_eqs w') i = Some e' /\
    (request req i = None -> e' = e) /\
    Permutation (gathered e') (gathered e) /\ forall v, residual v e' = residual v e.
Proof. exact (@rearrange_sound). Qed.
Print Assumptions wf_rearrange.

(** "0, 3 = 1, 2" puts the terms 0 and 3 on the left and 1 and 2 on the right, in this order, with the sign
    they have there; if a side is left out, it gets the other terms *)
Theorem wf_rearrange_asked : forall {T} (efs : T -> list nat) (w w' : wf T) req i e s l r,
  rearrange efs w req = Some w' -> nth_error (wf_eqs w) i = Some e -> request req i = Some s -> asks s l r ->
  let n := (length (fst e) + length (snd e))%nat in
  let '(l', r') := complete n l r in
  exists e', nth_error (wf_eqs w') i = Some e' /\ Permutation (l' ++ r') (seq 0 n) /\
    map_opt (on_left e) l' = Some (fst e') /\ map_opt (on_right e) r' = Some (snd e').
Proof. exact (@rearrange_written). Qed.
Print Assumptions wf_rearrange_asked.

(** requests that mention every term once are carried out *)
Theorem wf_rearrange_runs : forall {T} (efs : T -> list nat) (w : wf T) req,
  acceptable efs w (wf_eqs w) ->
  (forall x, In x req -> (fst x < length (wf_eqs w))%nat) ->
  (forall i e s, nth_error (wf_eqs w) i = Some e -> request req i = Some s ->
     exists l r, asks s l r /\ l ++ r <> [] /\
       let n := (length (fst e) + length (snd e))%nat in
       let '(l', r') := complete n l r in Permutation (l' ++ r') (seq 0 n)) ->
  exists w', rearrange efs w req = Some w'.
Proof. exact (@rearrange_runs). Qed.
Print Assumptions wf_rearrange_runs.

(** the example of the docstring: "0, 3 = 2, 1" *)
Example abcd : wf nat := mkWf [([(Plus, 10); (Minus, 11)], [(Plus, 12); (Minus, 13)])]%nat (Some [10%nat]).
Example abcd_acceptable : acceptable (fun t : nat => [t]) abcd (wf_eqs abcd).
Proof.
  split; [discriminate|]. intros us [= <-]. split; [reflexivity|]. intros x [<-|[]].
  exists 10%nat. cbn. auto.
Qed.
Example abcd_asked : asks "0, 3 = 2, 1" [0; 3]%nat [2; 1]%nat.
Proof. reflexivity. Qed.
Example abcd_rearranged :
  rearrange (fun t : nat => [t]) abcd [(0%nat, Some "0, 3 = 2, 1"%string)]
  = Some (mkWf [([(Plus, 10); (Plus, 13)], [(Plus, 12); (Plus, 11)])]%nat (Some [10%nat])).
Proof. reflexivity. Qed.
Example abcd_short :
  rearrange (fun t : nat => [t]) abcd [(0%nat, Some "2"%string)]
  = Some (mkWf [([(Minus, 12)], [(Minus, 10); (Plus, 11); (Minus, 13)])]%nat (Some [10%nat]))
  /\ complete 4 [2%nat] [] = ([2], [0; 1; 3])%nat.
Proof. split; reflexivity. Qed.
Example abcd_replaced :
  replace (fun t : nat => [t]) abcd "0-3" [(Plus, 7%nat); (Minus, 8%nat)]
  = Some (mkWf [([(Plus, 10); (Minus, 11)], [(Plus, 12); (Minus, 7); (Plus, 8)])]%nat (Some [10%nat])).
Proof. reflexivity. Qed.
Example abcd_deleted :
  delete (fun t : nat => [t]) abcd "0-1" = Some (mkWf [([(Plus, 10)], [(Plus, 12); (Minus, 13)])]%nat (Some [10%nat]))
  /\ delete (fun t : nat => [t]) abcd "0-0" = None.
Proof. split; reflexivity. Qed.

(** * switching signs *)

Theorem wf_switch_sign : forall {T} (efs : T -> list nat) (w w' : wf T) rows, switch_sign efs w rows = Some w' ->
  wf_unknowns w' = wf_unknowns w /\ length (wf_eqs w') = length (wf_eqs w) /\
  forall i e, nth_error (wf_eqs w) i = Some e -> exists e', nth_error (wf_eqs w') i = Some e' /\
    map snd (fst e') = map snd (fst e) /\ map snd (snd e') = map snd (snd e) /\
    (In i rows -> forall v, residual v e' = - residual v e) /\ (~ In i rows -> e' = e).
Proof. exact (@switch_sign_effect). Qed.
Print Assumptions wf_switch_sign.

Theorem wf_switch_sign_twice : forall {T} (efs : T -> list nat) (w w' : wf T) rows,
  switch_sign efs w rows = Some w' -> switch_sign efs w' rows = Some w.
Proof. exact (@switch_sign_twice). Qed.
Print Assumptions wf_switch_sign_twice.

Example abcd_switched : switch_sign (fun t : nat => [t]) abcd [0%nat]
  = Some (mkWf [([(Minus, 10); (Plus, 11)], [(Minus, 12); (Plus, 13)])]%nat (Some [10%nat])).
Proof. reflexivity. Qed.

(** * merging *)

(** the equations of all, in order; solutions are the common solutions *)
Theorem wf_merge : forall {T} (ws : list (wf T)) w, merge_wfs ws = Some w ->
  wf_eqs w = flat_map wf_eqs ws /\ forall v : T -> R, solves v w <-> forall w', In w' ws -> solves v w'.
Proof. intros T ws w H. exact (conj (merge_eqs ws w H) (fun v => merge_solves v ws w H)). Qed.
Print Assumptions wf_merge.

Example abcd_merged : merge_wfs [abcd; abcd] = Some (mkWf (wf_eqs abcd ++ wf_eqs abcd) None).
Proof. reflexivity. Qed.

(** * integration by parts *)

Theorem wf_by_parts : forall I s t periodic drop new,
  green I -> (periodic || drop = true -> closed I) -> t_restricted t = false ->
  by_parts periodic drop t = Some new -> total (value I s) new = value I s t.
Proof. exact (@by_parts_value). Qed.
Print Assumptions wf_by_parts.

(** what is lost when the boundary integral is dropped *)
Theorem wf_by_parts_dropped : forall I s t bf new,
  green I -> t_restricted t = false -> t_f0 t = Codiff bf -> by_parts false true t = Some new ->
  total (value I s) new
  = value I s t + t_factor t * i_pair I Dual false (eval I (i_root I) (Tr (Star bf)) s) (eval I (i_root I) (Tr (t_f1 t)) s).
Proof. exact (@by_parts_dropped). Qed.
Print Assumptions wf_by_parts_dropped.

(** numbers, with d f = 3 f, codiff f = 2 f, so that the boundary integral is the product *)
Example numbers : interp :=
  mkInterp R (fun a s => INR a + s) INR (fun f s => f 1 - f 0) (fun x => 3 * x) (fun x => 2 * x) (fun x => x) (fun x => x)
    (fun _ x => x) Rmult Rplus Rminus Rdiv (fun _ restricted x y => if restricted then 2 * (x * y) else x * y).
Example numbers_green : green numbers.
Proof. intros b f. cbn. lra. Qed.
Example numbers_hodge : hodge numbers.
Proof. split; reflexivity. Qed.
Example numbers_linear : linear_first numbers.
Proof. intro k. cbn. split; [intros; lra|]. split; [intros; lra|]. intros a c g C. field. exact C. Qed.
Example numbers_ext_dt : ext_dt numbers.
Proof. intros f g H s. cbn. now rewrite !H. Qed.
Example numbers_parts :
  by_parts false false (mkTerm Inner 5 (Codiff (Root 0)) (Root 1) false)
  = Some [(Plus, mkTerm Inner 5 (Root 0) (Ext (Root 1)) false); (Minus, mkTerm Dual 5 (Tr (Star (Root 0))) (Tr (Root 1)) false)].
Proof. reflexivity. Qed.
(** no boundary: d f = codiff f = f and traces vanish *)
Example torus : interp :=
  mkInterp R (fun a s => INR a + s) INR (fun f s => 0) (fun x => x) (fun x => x) (fun x => 0) (fun x => x)
    (fun _ x => x) Rmult Rplus Rminus Rdiv (fun _ _ x y => x * y).
Example torus_closed : green torus /\ closed torus.
Proof. split; intros b f; cbn; lra. Qed.

(** * splitting a term *)

(** the new terms have the value of the old one without its factor *)
Theorem wf_split : forall I s of_f0 into signs factors t new,
  split_term of_f0 into signs factors t = Some new ->
  paired I s of_f0 t (if of_f0 then t_f0 t else t_f1 t)
    = combination (paired I s of_f0 t) (combine (combine signs into) (factors_of into factors)) ->
  value I s t = t_factor t * total (value I s) new.
Proof. exact (@split_keeps). Qed.
Print Assumptions wf_split.

Theorem wf_split_runs : forall of_f0 into signs factors t,
  (exists new, split_term of_f0 into signs factors t = Some new) <->
  (into <> [] /\ length into = length signs /\ length signs = length (factors_of into factors) /\ t_restricted t = false).
Proof. exact (@split_runs). Qed.
Print Assumptions wf_split_runs.

(** splitting a term with the factor 2 into the form it had changes the solutions *)
Theorem wf_split_refuted : exists I s w w',
  derive_with term_efs (split_term true [Root 1] [Plus] None) w "0-0" = Some w' /\
  (forall sn t, getitem w "0-0" = Some (sn, t) -> t_f0 t = Root 1) /\
  solves (value I s) w /\ ~ solves (value I s) w'.
Proof.
  exists numbers, 0,
    (mkWf [([(Plus, mkTerm Inner 2 (Root 1) (Root 3) false)], [(Plus, mkTerm Inner 1 (Root 2) (Root 3) false)])] None),
    (mkWf [([(Plus, mkTerm Inner 1 (Root 1) (Root 3) false)], [(Plus, mkTerm Inner 1 (Root 2) (Root 3) false)])] None).
  split; [reflexivity|]. split; [intros sn t [= <- <-]; reflexivity|]. split.
  - intros e [<-|[]]. unfold residual, value, value_in. cbn. lra.
  - intro H. specialize (H _ (or_introl eq_refl)). unfold residual, value, value_in in H. cbn in H. lra.
Qed.
Print Assumptions wf_split_refuted.

(** 3 = 1 + 2 as forms *)
Example three_split : exists new,
  split_term true [Root 1; Root 2] [Plus; Plus] None (mkTerm Inner 1 (Root 3) (Root 4) false) = Some new /\
  paired numbers 0 true (mkTerm Inner 1 (Root 3) (Root 4) false) (Root 3)
  = combination (paired numbers 0 true (mkTerm Inner 1 (Root 3) (Root 4) false)) [(Plus, Root 1, 1); (Plus, Root 2, 1)].
Proof. eexists. split; [reflexivity|]. unfold paired. cbn. lra. Qed.

(** * duality pairings *)

Theorem wf_to_duality : forall I s t new, hodge I -> t_restricted t = false -> to_duality t = Some new ->
  total (value I s) new = value I s t.
Proof. exact (@to_duality_value). Qed.
Print Assumptions wf_to_duality.

Example star_second : to_duality (mkTerm Inner 2 (Root 1) (Star (Root 2)) false) = Some [(Plus, mkTerm Dual 2 (Root 1) (Root 2) false)].
Proof. reflexivity. Qed.

(** * the scalar triple product *)

Theorem wf_commute : forall I s current target t new, triple I -> t_restricted t = false ->
  commute current target t = Some new -> total (value I s) new = value I s t.
Proof. exact (@commute_value). Qed.
Print Assumptions wf_commute.

(** the new term has the target format: if the letters stand for the forms of the term *)
Theorem wf_commute_format : forall current target t new env,
  commute current target t = Some new ->
  (forall x, read_format (t_kind t) current = Some x -> described env x (t_f0 t) (t_f1 t)) ->
  exists sn x t', new = [(sn, t')] /\ read_format (t_kind t) target = Some x /\
    described env x (t_f0 t') (t_f1 t') /\ t_kind t' = t_kind t /\ t_factor t' = t_factor t.
Proof. exact (@commute_format). Qed.
Print Assumptions wf_commute_format.

Notation R3 := (R * R * R)%type.
Definition dot (a b : R3) : R := let '(x, y, z) := a in let '(u, v, w) := b in x * u + y * v + z * w.
Definition cross (a b : R3) : R3 := let '(x, y, z) := a in let '(u, v, w) := b in (y * w - z * v, z * u - x * w, x * v - y * u).
Example space3 : interp :=
  mkInterp R3 (fun a s => match a with O => (1, 0, 0) | 1%nat => (0, 1, 0) | _ => (0, 0, 1) end) INR (fun f s => f s)
    (fun x => x) (fun x => x) (fun x => x) (fun x => x) (fun _ x => x) cross (fun x _ => x) (fun x _ => x) (fun x _ => x)
    (fun _ restricted x y => if restricted then 0 else dot x y).
Example space3_triple : triple space3.
Proof.
  split; [|split]; intros k; cbn.
  - intros [[x y] z] [[u v] w]. unfold dot. lra.
  - intros [[x y] z] [[u v] w] [[p q] r]. unfold dot, cross. lra.
  - intros [[x y] z] [[u v] w] [[p q] r]. unfold dot, cross. lra.
Qed.
Example commuted : commute "(a, b x c)" "(b x a, c)" (mkTerm Inner 4 (Root 0) (Crossp (Root 1) (Root 2)) false)
  = Some [(Minus, mkTerm Inner 4 (Crossp (Root 1) (Root 0)) (Root 2) false)].
Proof. reflexivity. Qed.
Example commuted_pairing : commute "<a | b x c>" "<b | c x a>" (mkTerm Dual 4 (Root 0) (Crossp (Root 1) (Root 2)) false)
  = Some [(Plus, mkTerm Dual 4 (Root 1) (Crossp (Root 2) (Root 0)) false)].
Proof. reflexivity. Qed.

(** a pairing restricted to a part of the boundary becomes one over all of it *)
Theorem wf_commute_restricted_refuted : exists I s cur tgt t new, triple I /\ commute cur tgt t = Some new /\
  total (value I s) new <> value I s t.
Proof.
  exists space3, 0, "<a | b x c>"%string, "<b | c x a>"%string, (mkTerm Dual 1 (Root 0) (Crossp (Root 1) (Root 2)) true),
    [(Plus, mkTerm Dual 1 (Root 1) (Crossp (Root 2) (Root 0)) false)].
  split; [exact space3_triple|]. split; [reflexivity|]. unfold value, value_in. cbn. lra.
Qed.
Print Assumptions wf_commute_restricted_refuted.

(** * series of derivations *)

(** derivations that hold for the values keep the solutions, however many *)
Theorem wf_derives : forall I s w w', derives I s w w' -> solves (value I s) w <-> solves (value I s) w'.
Proof. exact (@derives_solves). Qed.
Print Assumptions wf_derives.

Example heat : wf term :=
  mkWf [([(Plus, mkTerm Inner 1 (TimeDer (Root 0)) (Root 1) false); (Plus, mkTerm Inner 1 (Codiff (Ext (Root 0))) (Root 1) false)], [])] None.
Example heat_derived : exists w', w' <> heat /\ derives numbers 0 heat w' /\
  wf_eqs w' = [([(Plus, mkTerm Inner 1 (TimeDer (Root 0)) (Root 1) false); (Plus, mkTerm Inner 1 (Ext (Root 0)) (Ext (Root 1)) false)],
                [(Plus, mkTerm Dual 1 (Tr (Star (Ext (Root 0)))) (Tr (Root 1)) false)])].
Proof.
  exists (mkWf [([(Plus, mkTerm Inner 1 (TimeDer (Root 0)) (Root 1) false); (Plus, mkTerm Inner 1 (Ext (Root 0)) (Ext (Root 1)) false)],
                [(Plus, mkTerm Dual 1 (Tr (Star (Ext (Root 0)))) (Tr (Root 1)) false)])] None).
  split; [|split; [|reflexivity]].
  2:{ eapply (d_step _ _ _ (SParts "0-1" false false)); [reflexivity | |].
      - split; [exact numbers_green|]. split; [discriminate|]. intros sn t [= <- <-]. reflexivity.
      - eapply (d_step _ _ _ (SRearrange [(0%nat, Some "0,1=2"%string)])); [reflexivity | exact Logic.I |].
        apply d_refl. }
  unfold heat. discriminate.
Qed.

(** * expressions *)

(** an expression with the terms l and r on its sides gives these terms, whatever the blanks *)
Theorem wf_read : forall {T} (interpreter : list (string * T)) l r s l' r', equation_text l r s ->
  Forall (fun y => plain (snd y)) (l ++ r) ->
  Forall2 (stands interpreter) l l' -> Forall2 (stands interpreter) r r' ->
  read_equation interpreter s = Some (l', r').
Proof. exact (@read_equation_text). Qed.
Print Assumptions wf_read.

Example read_meant : equation_text [(Plus, "a"); (Minus, "bc")]%string [] "a - b c = 0".
Proof. exists "a-bc"%string, "0"%string. split; [apply (st_first "a" [(Minus, "bc"%string)])|]. split; [apply st_zero | reflexivity]. Qed.
Example read_done : read_equation [("a", 1%nat); ("bc", 2%nat)]%string "a - b c = 0" = Some ([(Plus, 1); (Minus, 2)]%nat, []).
Proof. reflexivity. Qed.

(** of several signs before a term the last one counts, the others are ignored *)
Theorem wf_read_signs : forall {T} (interpreter : list (string * T)) ss x t, ss <> [] -> plain x -> sget x interpreter = Some t ->
  read_side interpreter (plus_minus (String.append (signs_text ss) x)) = Some [(last ss Plus, t)].
Proof. exact (@read_signs). Qed.
Print Assumptions wf_read_signs.

(** "- - b" is not b, "- + b" not -b *)
Theorem wf_double_minus_refuted : exists (interpreter : list (string * nat)) x t ss, plain x /\ sget x interpreter = Some t /\
  read_side interpreter (plus_minus (String.append (signs_text ss) x)) <> Some [(product ss, t)].
Proof.
  exists [("b"%string, 5%nat)], "b"%string, 5%nat, [Minus; Minus].
  split; [repeat split; discriminate|]. split; [reflexivity|]. cbn. discriminate.
Qed.
Print Assumptions wf_double_minus_refuted.

(** a pde is read only if every equation has one sign of equality *)
Theorem wf_pde_one_equality : forall {T} (interpreter : list (string * T)) expression eqs, read_pde interpreter expression = Some eqs ->
  forall s, In s expression -> count_char "=" s = 1%nat.
Proof. exact (@read_pde_one). Qed.
Print Assumptions wf_pde_one_equality.

Example pde_read : read_pde [("a", 1%nat); ("b", 2%nat)]%string ["a = b"%string] = Some [([(Plus, 1)], [(Plus, 2)])]%nat.
Proof. reflexivity. Qed.

(** a weak formulation takes "a = b = 0" for "a = b" *)
Theorem wf_third_side_refuted : exists (interpreter : list (string * nat)) s,
  count_char "=" s = 2%nat /\ read_wf interpreter [s] <> None.
Proof. exists [("a", 1%nat); ("b", 2%nat)]%string, "a = b = 0"%string. split; [reflexivity | discriminate]. Qed.
Print Assumptions wf_third_side_refuted.

(** * temporal discretization *)

(** every term stays on its side and in its place with its sign, and becomes what is asked of it *)
Theorem wf_td : forall defined time e l e', td_call defined time e l = Some e' ->
  length (fst e') = length (fst e) /\ length (snd e') = length (snd e) /\
  forall k s t, nth_error (fst e ++ snd e) k = Some (s, t) ->
    exists t', nth_error (fst e' ++ snd e') k = Some (s, t') /\ becomes defined time k t t l t'.
Proof. exact (@td_call_sound). Qed.
Print Assumptions wf_td.

(** replacing a form by another gives the value with the other form's values *)
Theorem wf_td_replace : forall I s a g t, ext_dt I ->
  value I s (snd (term_replace a g t)) = value_in I (upd (i_root I) a (eval I (i_root I) g)) s t.
Proof. exact (@replace_value). Qed.
Print Assumptions wf_td_replace.

(** averages are means over the instants *)
Theorem wf_td_average : forall I s k a instants f g, linear_first I -> average_form a instants = Some f ->
  i_pair I k false (eval I (i_root I) f s) g
  = sum_list (map (fun u => i_pair I k false (i_root I a (i_time I u)) g) instants) / INR (length instants).
Proof. exact (@average_value). Qed.
Print Assumptions wf_td_average.

(** a form that moves at a constant rate: the difference quotient is the time derivative, but for the factor *)
Theorem wf_td_differentiate : forall (time : nat -> R) I s own a ks ke,
  linear_first I -> (forall u, i_time I u = time u) -> time ke <> time ks ->
  t_kind own = Inner -> t_restricted own = false -> t_f0 own = TimeDer (Root a) ->
  (forall g, i_pair I Inner false (i_root I a (time ke)) g - i_pair I Inner false (i_root I a (time ks)) g
             = (time ke - time ks) * i_pair I Inner false (i_dt I (i_root I a) s) g) ->
  value I s own = t_factor own * value I s (quotient time own a ks ke).
Proof. exact (@quotient_value). Qed.
Print Assumptions wf_td_differentiate.

Example numbers_rate : forall g, i_pair numbers Inner false (i_root numbers 7 (INR 2)) g - i_pair numbers Inner false (i_root numbers 7 (INR 0)) g
  = (INR 2 - INR 0) * i_pair numbers Inner false (i_dt numbers (i_root numbers 7) 5) g.
Proof. intro g. cbn. lra. Qed.
Example heat_td : exists e', td_call [0; 1]%nat INR
    ([(Plus, mkTerm Inner 1 (TimeDer (Root 0)) (Root 1) false)], [(Minus, mkTerm Inner 1 (Ext (Root 0)) (Root 1) false)])
    [Differentiate 0 0 1; Average 1 0 [0; 1]%nat] = Some e' /\ map fst (snd e') = [Minus].
Proof. eexists. split; reflexivity. Qed.

(** the factor of the term is dropped *)
Theorem wf_td_differentiate_refuted : exists I s (time : nat -> R) e e' k ks ke,
  linear_first I /\ (forall u, i_time I u = time u) /\ time ke <> time ks /\
  (forall a g, i_pair I Inner false (i_root I a (time ke)) g - i_pair I Inner false (i_root I a (time ks)) g
               = (time ke - time ks) * i_pair I Inner false (i_dt I (i_root I a) s) g) /\
  td_call [ks; ke] time e [Differentiate k ks ke] = Some e' /\
  residual (value I s) e = 0 /\ residual (value I s) e' <> 0.
Proof.
  exists numbers, 0, INR,
    ([(Plus, mkTerm Inner 2 (TimeDer (Root 7)) (Root 1) false)], [(Plus, mkTerm Inner 1 (Root 2) (Root 1) false)]).
  eexists. exists 0%nat, 0%nat, 1%nat.
  split; [exact numbers_linear|]. split; [reflexivity|]. split; [cbn; lra|]. split; [intros a g; cbn; lra|].
  split; [reflexivity|]. split; unfold residual, value, value_in; cbn; lra.
Qed.
Print Assumptions wf_td_differentiate_refuted.
