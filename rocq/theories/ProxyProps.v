(** C73: algebraic and matrix proxies of weak formulations.  Only statements and references to proofs;
    vocabulary in ProxySpec.v; model in ProxyModel.v.  None stands for an exception. *)
From Coq Require Import Ascii String Reals QArith Bool Arith List Lia Lra.
From Verif Require Import WfModel ProxyModel ProxySpec ProxyThms ProxyText.
Import ListNotations.
Local Open Scope R_scope.
Local Open Scope list_scope.

Section Statements.
  Context (space degree : nat -> nat) (d_space tr_space : nat -> nat) (size : dim -> nat)
          (mat : root -> nat -> nat -> R) (par : nat -> R) (nval : nat -> (nat -> nat -> R) -> R)
          (dual : nat -> bool) (other : nat -> dim * dim).
  Notation term_ap := (term_ap space degree d_space tr_space other dual).
  Notation new_mp := (new_mp space degree d_space tr_space other dual).
  Notation parse := (parse space degree d_space tr_space other).
  Notation to_ls := (to_ls space degree d_space tr_space other).
  Notation to_nls := (to_nls space degree d_space tr_space other).
  Notation parses := (parses space degree d_space tr_space other).
  Notation num := (num space degree size).
  Notation pairing := (pairing space degree d_space tr_space size mat par nval dual).
  Notation side := (ProxySpec.side space degree d_space tr_space size mat par nval dual).
  Notation solves := (solves space degree d_space tr_space size mat par nval dual).
  Notation arr_value := (arr_value space degree d_space tr_space size mat par other).
  Notation entry_value := (entry_value space degree d_space tr_space size mat par other).
  Notation row_value := (row_value space degree d_space tr_space size mat par other).
  Notation half := (half space degree d_space tr_space size mat par other).
  Notation ls_holds := (ls_holds space degree d_space tr_space size mat par other).

  (** the product of arrays that stands for a term has the value of its pairing *)
  Theorem proxy_term : arrays_ok mat -> forall v t a c,
    term_ap v t = Some (Lin a) -> arr_value c a 0 0 = pairing c t.
  Proof. exact (@term_value space degree d_space tr_space size mat par nval dual other). Qed.

  (** each side is the coefficients of the test form times the blocks, and the nonlinear terms *)
  Theorem proxy_sides : arrays_ok mat -> forall eqs unknowns tss m m',
    new_mp eqs unknowns = Some m -> parses tss m = Some m' ->
    forall i l r v, nth_error eqs i = Some (l, r, v) -> forall c,
      side c l = sumto (num v) (fun p => c v p * half c (m_left m') (m_lbv m') i p) + non_value nval c (nth i (m_lnon m') []) /\
      side c r = sumto (num v) (fun p => c v p * half c (m_right m') (m_rbv m') i p) + non_value nval c (nth i (m_rnon m') []).
  Proof. exact (@proxy_rows space degree d_space tr_space size mat par nval dual other). Qed.

  (** coefficients solve the weak formulation exactly if the rows agree *)
  Theorem proxy_solutions : arrays_ok mat -> forall eqs unknowns tss m m',
    new_mp eqs unknowns = Some m -> parses tss m = Some m' ->
    (forall l r v s t, In (l, r, v) eqs -> In (s, t) l \/ In (s, t) r -> linear t /\ once v t) ->
    forall c, solves c eqs <->
      forall i l r v p, nth_error eqs i = Some (l, r, v) -> (p < num v)%nat ->
        half c (m_left m') (m_lbv m') i p = half c (m_right m') (m_rbv m') i p.
  Proof. exact (@solves_rows space degree d_space tr_space size mat par nval dual other). Qed.

  (** what remains beside the blocks has no target; there are not more targets than equations *)
  Theorem proxy_rest : arrays_ok mat -> forall eqs unknowns tss targets m m' m'',
    new_mp eqs unknowns = Some m -> parses tss m = Some m' -> parse targets m' = Some m'' ->
    (length targets <= length eqs)%nat /\
    forall i x, In x (nth i (m_lbv m'') []) \/ In x (nth i (m_rbv m'') []) ->
      forall cs f, a_comps (snd x) = cs ++ [(Vec f, false)] -> ~ In f targets.
  Proof. exact (@parse_free space degree d_space tr_space size mat par nval dual other). Qed.

  (** A x = b: x are the unknowns or the targets of one parse, as many as there are equations *)
  Theorem proxy_ls_unknowns : arrays_ok mat -> forall eqs unknowns tss m m' sys,
    new_mp eqs unknowns = Some m -> parses tss m = Some m' -> to_ls m' = Some sys ->
    In (l_x sys) (unknowns :: tss) /\ length (l_x sys) = length eqs.
  Proof. exact (@ls_unknowns space degree d_space tr_space size mat par nval dual other). Qed.

  (** A x = b, A and b evaluated before, has the solutions of the weak formulation *)
  Theorem proxy_ls : arrays_ok mat -> forall eqs unknowns tss m m' sys,
    new_mp eqs unknowns = Some m -> parses tss m = Some m' -> to_ls m' = Some sys ->
    (forall l r v s t, In (l, r, v) eqs -> In (s, t) l \/ In (s, t) r -> linear t /\ once v t) ->
    (forall l r v s t f, In (l, r, v) eqs -> In (s, t) r -> In f (forms_in t) -> ~ In f (l_x sys)) ->
    forall c0 c, (forall f, ~ In f (l_x sys) -> forall p, c f p = c0 f p) ->
      (solves c eqs <->
       ls_holds c0 c sys (fun i => match nth_error eqs i with Some (_, _, v) => num v | None => 0%nat end)).
  Proof. exact (@ls_solves space degree d_space tr_space size mat par nval dual other). Qed.

  (** with nonlinear terms: they are on the left, and nothing is lost *)
  Theorem proxy_nls : arrays_ok mat -> forall eqs unknowns tss m m' sys non,
    new_mp eqs unknowns = Some m -> parses tss m = Some m' -> to_nls m' = Some (sys, non) ->
    forall i l r v, nth_error eqs i = Some (l, r, v) -> forall c,
      side c l - side c r =
      sumto (num v) (fun p => c v p * (row_value c c (nth i (l_A sys) []) (l_x sys) p - entry_value c (nth i (l_b sys) []) p 0))
      + non_value nval c (nth i non []).
  Proof. exact (@nls_rows space degree d_space tr_space size mat par nval dual other). Qed.

  (** assembled blocks have the values of the symbolic ones *)
  Theorem proxy_assembled : forall c e M,
    block_static size (root_shape space degree d_space tr_space other) (entry_of mat c) par e = Some M ->
    forall i j, M i j = entry_value c e i j.
  Proof. exact (@block_static_value space degree d_space tr_space size mat par other). Qed.

  (** terms with a time derivative have no proxy *)
  Theorem proxy_time_derivative : forall v k f y,
    term_ap v (PIp k (Dt f) y) = None /\ term_ap v (PIp k y (Dt f)) = None.
  Proof. intros v k f y. split; destruct y; reflexivity. Qed.
End Statements.
Print Assumptions proxy_term.
Print Assumptions proxy_sides.
Print Assumptions proxy_solutions.
Print Assumptions proxy_rest.
Print Assumptions proxy_ls_unknowns.
Print Assumptions proxy_ls.
Print Assumptions proxy_nls.
Print Assumptions proxy_assembled.
Print Assumptions proxy_time_derivative.

(** * arrays as text *)

(** an array is read from its text exactly if it can be read at all, and as the same array *)
Theorem proxy_read : forall array_name scalar_name, names_ok array_name scalar_name ->
  forall scalars arrays a b, read_arr array_name scalar_name scalars arrays a = Some b <->
    b = a /\ simple scalars (a_factor a) /\ a_comps a <> [] /\ Forall (comp_known arrays) (a_comps a).
Proof. exact (@read_arr_iff). Qed.
Print Assumptions proxy_read.

Theorem proxy_read_entry : forall array_name scalar_name, names_ok array_name scalar_name ->
  forall scalars arrays e e', read_entry array_name scalar_name scalars arrays e = Some e' -> e' = e.
Proof. exact (@read_entry_sound). Qed.
Print Assumptions proxy_read_entry.

(** * a case *)

(** forms: u 0, sigma 1, its test form 2, the test form of u 3, f 4; (sigma, tau) - (u, d tau) = 0 and
    (d sigma, v) = - k (f, v) *)
Definition ex_space (f : nat) : nat := match f with 1 | 2 => 1 | _ => 2 end%nat.
Definition ex_degree (_ : nat) : nat := 3%nat.
Definition ex_d (s : nat) : nat := Datatypes.S s.
Definition ex_other (_ : nat) : dim * dim := (Unit, Unit).
Definition mixed : list (list (sgn * pterm) * list (sgn * pterm) * nat) :=
  [([(Plus, PIp One (Rt 1) (Rt 2)); (Minus, PIp One (Rt 0) (Dr 2))], [], 2%nat);
   ([(Plus, PIp One (Dr 1) (Rt 3))], [(Minus, PIp (Par 0) (Rt 4) (Rt 3))], 3%nat)].
Definition mixed_system : ls :=
  mkLs [[[(Plus, mkArr One [(Mass 1 3, false)])]; [(Minus, mkArr One [(EdT 1 3, false); (Mass 2 3, false)])]];
        [[(Plus, mkArr One [(Mass 2 3, false); (Ed 1 3, false)])]; []]]
       [1; 0]%nat
       [[]; [(Minus, mkArr (Par 0) [(Mass 2 3, false); (Vec 4, false)])]].
Example mixed_ls : exists m, new_mp ex_space ex_degree ex_d ex_d ex_other (fun _ => false) mixed [1; 0]%nat = Some m /\
  to_ls ex_space ex_degree ex_d ex_d ex_other m = Some mixed_system.
Proof. eexists. split; reflexivity. Qed.
Example mixed_linear : forall l r v s t, In (l, r, v) mixed -> In (s, t) l \/ In (s, t) r -> linear t /\ once v t.
Proof.
  intros l r v s t [E|[E|[]]]; injection E as <- <- <-; cbn [In]; intros H;
    repeat (destruct H as [H|H]; try contradiction); try (injection H as <- <-; split; [exact I|reflexivity]).
Qed.
Example mixed_right : forall l r v s t f, In (l, r, v) mixed -> In (s, t) r -> In f (forms_in t) -> ~ In f (l_x mixed_system).
Proof.
  intros l r v s t f [E|[E|[]]]; injection E as <- <- <-; [intros []|]. intros [E|[]]. injection E as <- <-.
  cbn. intuition lia.
Qed.
Example arrays_ok_case : arrays_ok (fun _ _ _ => 1).
Proof. repeat split. Qed.
(** parsing again for the right-hand side f *)
Example mixed_parse : exists m m', new_mp ex_space ex_degree ex_d ex_d ex_other (fun _ => false) mixed [1; 0]%nat = Some m /\
  parses ex_space ex_degree ex_d ex_d ex_other [[4%nat]] m = Some m' /\ length (m_right m') = 1%nat.
Proof. eexists. eexists. repeat split; reflexivity. Qed.
(** with a nonlinear term *)
Example mixed_nls : exists m p, new_mp ex_space ex_degree ex_d ex_d ex_other (fun _ => false)
    [([(Plus, PIp One (Rt 0) (Rt 3)); (Minus, PNon 7 [0; 0; 3]%nat)], [(Plus, PIp One (Rt 4) (Rt 3))], 3%nat)] [0%nat] = Some m /\
  to_nls ex_space ex_degree ex_d ex_d ex_other m = Some p /\ snd p = [[(Minus, 7%nat)]].
Proof. eexists. eexists. repeat split; reflexivity. Qed.
Example assembled_case : exists M, block_static (fun _ => 2%nat) (root_shape ex_space ex_degree ex_d ex_d ex_other)
    (fun _ i j => INR i + INR j) (fun _ => 2) [(Minus, mkArr (Par 0) [(Mass 2 3, false); (Ed 1 3, false)])] = Some M /\ M 1%nat 1%nat <> 0.
Proof.
  eexists. split; [reflexivity|]. cbn. destruct (Req_EM_T 2 1); cbn; lra.
Qed.

(** names *)
Fixpoint strokes (n : nat) (t : string) : string := match n with O => t | Datatypes.S n => String "i" (strokes n t) end.
Definition ex_name (r : root) : string :=
  match r with
  | Vec f => String "v" (strokes f "")
  | Mass s d => String "M" (strokes s (String "-" (strokes d "")))
  | Ed s d => String "E" (strokes s (String "-" (strokes d "")))
  | EdT s d => String "F" (strokes s (String "-" (strokes d "")))
  | Wdp s d => String "W" (strokes s (String "-" (strokes d "")))
  | TrM f => String "T" (strokes f "")
  | Bdp s d => String "B" (strokes s (String "-" (strokes d "")))
  | Other n => String "O" (strokes n "")
  end.
Definition ex_scalar (c : nat) : string := String "k" (strokes c "").
Lemma strokes_end n : forall m, strokes n "" = strokes m "" -> n = m.
Proof. induction n; intros [|m] H; cbn in H; try discriminate; [reflexivity|]. injection H as H. f_equal. auto. Qed.
Lemma strokes_mid n : forall m s t, strokes n (String "-" s) = strokes m (String "-" t) -> n = m /\ s = t.
Proof.
  induction n; intros [|m] s t H; cbn in H; try discriminate; [injection H as H; auto|].
  injection H as H. destruct (IHn _ _ _ H). split; congruence.
Qed.
Lemma strokes_legal n t : legal t -> legal (strokes n t).
Proof. induction n; cbn; auto. intro H. split; [repeat split; discriminate|auto]. Qed.
Example ex_names : names_ok ex_name ex_scalar.
Proof.
  assert (C : forall a t, In a ["v"; "M"; "E"; "F"; "W"; "T"; "B"; "O"; "k"; "-"]%char -> legal t -> legal (String a t)).
  { intros a t Ha Ht. split; [|exact Ht]. repeat split; intros ->; cbn in Ha; intuition discriminate. }
  split; [|split; [|split; [|split]]].
  - intros []; apply C; cbn; auto 12; repeat first [apply strokes_legal | apply C; [cbn; auto 12|] | exact I].
  - intro c. apply C; [cbn; auto 12|]. apply strokes_legal. exact I.
  - intros [] [] H; try discriminate; cbn in H; injection H as H;
      first [apply strokes_end in H; congruence
            | apply strokes_mid in H; destruct H as [-> H]; apply strokes_end in H; congruence].
  - intros c d H. injection H as H. apply strokes_end. exact H.
  - intros c H. discriminate.
Qed.
Example ex_read : read_arr ex_name ex_scalar [0; 1]%nat [Mass 2 3; Vec 4]
    (mkArr (Over (Par 0) (Par 1)) [(Mass 2 3, true); (Vec 4, false)])
  = Some (mkArr (Over (Par 0) (Par 1)) [(Mass 2 3, true); (Vec 4, false)]).
Proof. reflexivity. Qed.

(** * refuted *)

(** an unknown on the right-hand side stays in b: with the values it has before *)
Theorem proxy_right_unknown_refuted : exists space degree d_space tr_space size mat par nval dual other eqs unknowns m sys c0 c,
  arrays_ok mat /\
  new_mp space degree d_space tr_space other dual eqs unknowns = Some m /\
  to_ls space degree d_space tr_space other m = Some sys /\
  (forall l r v s t, In (l, r, v) eqs -> In (s, t) l \/ In (s, t) r -> linear t /\ once v t) /\
  (forall f, ~ In f (l_x sys) -> forall p, c f p = c0 f p) /\
  ls_holds space degree d_space tr_space size mat par other c0 c sys
    (fun i => match nth_error eqs i with Some (_, _, v) => num space degree size v | None => 0%nat end) /\
  ~ solves space degree d_space tr_space size mat par nval dual c eqs.
Proof.
  exists (fun _ => 2%nat), ex_degree, ex_d, ex_d, (fun _ => 1%nat), (fun _ _ _ => 1), (fun _ => / 2), (fun _ _ => 0), (fun _ => false), ex_other,
    [([(Plus, PIp One (Rt 0) (Rt 1))], [(Plus, PIp (Par 0) (Rt 0) (Rt 1)); (Plus, PIp One (Rt 2) (Rt 1))], 1%nat)], [0%nat].
  eexists. eexists. exists (fun f _ => match f with 0%nat => 0 | _ => 1 end), (fun _ _ => 1).
  split; [repeat split|]. split; [reflexivity|]. split; [reflexivity|]. split.
  { intros l r v s t [E|[]]. injection E as <- <- <-. cbn [In]. intros H;
    repeat (destruct H as [H|H]; try contradiction); try (injection H as <- <-; split; [exact I|reflexivity]). }
  split. { intros [|f] Hf p; [exfalso; apply Hf; left; reflexivity|reflexivity]. }
  split.
  - intros i p Hi Hp. cbn in Hi. destruct i as [|i]; [|lia]. cbn in Hp. cbn. unfold arr_value, width. cbn. lra.
  - intro H. specialize (H _ _ _ (or_introl eq_refl) (fun _ => 1)). unfold ProxySpec.side, upd, pairing in H. cbn in H. lra.
Qed.
Print Assumptions proxy_right_unknown_refuted.

(** products and multiples of arrays: no factor is lost, and exactly two factors other than one are refused *)
Theorem proxy_factors : forall par a b f,
  (forall c, matmul a b = Some c ->
     num_value par (a_factor c) = num_value par (a_factor a) * num_value par (a_factor b) /\ a_comps c = a_comps a ++ a_comps b) /\
  (matmul a b = None <-> a_factor a <> One /\ a_factor b <> One) /\
  (forall c, rmul f a = Some c -> num_value par (a_factor c) = num_value par f * num_value par (a_factor a) /\ a_comps c = a_comps a) /\
  (rmul f a = None <-> a_factor a <> One).
Proof.
  intros par [fa la] [fb lb] f. unfold matmul, rmul. cbn [a_factor a_comps].
  repeat split; destruct fa, fb; cbn; intros; try discriminate; try tauto; try congruence; try (injection H as <-; cbn; lra); try (injection H as <-; reflexivity);
    try (destruct H as [H H']; congruence).
Qed.
Print Assumptions proxy_factors.
Example proxy_factors_ex : matmul (mkArr (Par 0) [(Mass 0 0, false)]) (of_root (Vec 1)) = Some (mkArr (Par 0) [(Mass 0 0, false); (Vec 1, false)]).
Proof. reflexivity. Qed.

(** factors that are sums, or quotients of quotients, cannot be read *)
Theorem proxy_read_factor_refuted : forall array_name scalar_name, names_ok array_name scalar_name ->
  forall scalars arrays a b c l,
    read_arr array_name scalar_name scalars arrays (mkArr (Plus_ a b) l) = None /\
    read_arr array_name scalar_name scalars arrays (mkArr (Over (Over a b) c) l) = None /\
    read_arr array_name scalar_name scalars arrays (mkArr (Over c (Over a b)) l) = None.
Proof.
  intros array_name scalar_name ok scalars arrays a b c l.
  assert (H : forall f, ~ simple scalars f -> read_arr array_name scalar_name scalars arrays (mkArr f l) = None).
  { intros f Hf. destruct (read_arr _ _ _ _ _) as [x|] eqn:E; [|reflexivity]. exfalso. apply Hf.
    apply (read_arr_iff _ _ ok) in E. apply E. }
  repeat split; apply H; intros [K|[x [y [E [Kx Ky]]]]]; try contradiction; try discriminate; injection E as <- <-; contradiction.
Qed.
Print Assumptions proxy_read_factor_refuted.

(** the constant one half cannot be added to *)
Theorem proxy_real_plus_refuted : exists q, forall other, real_plus q other = None.
Proof. exists (1 # 2)%Q. reflexivity. Qed.
Print Assumptions proxy_real_plus_refuted.
