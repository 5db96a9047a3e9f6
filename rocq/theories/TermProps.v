(** C76: the arrays of terms with three forms are the terms, and keep what the terms keep.
    Only statements and references to proofs; vocabulary in TermSpec.v; model in TermModel.v.  None stands for an exception. *)
From Coq Require Import List Arith Bool Reals Lia Lra.
From Verif Require Import NlModel NlSpec NlSums TermModel TermSpec TermThms TermThms2 TermThms3 TermThms4.
Import ListNotations.
Local Open Scope R_scope.

(** the array of an element, for all cochains, is the quadrature of (A x B) . C or A B . C of the reconstructed fields *)
Theorem element_array_is_term o m nq qw e T a b c : element_data o m nq qw e = Some T ->
  shape T = [ndof (eA e); ndof (eB e); ndof (eC e)] /\ form3 T a b c = term o nq qw e a b c.
Proof. exact (data_is_term o m nq qw e T a b c). Qed.
Print Assumptions element_array_is_term.
(** which terms are coded *)
Theorem element_array_defined o m nq qw e : (exists T, element_data o m nq qw e = Some T) <-> supported o m (arity o e).
Proof. exact (data_defined o m nq qw e). Qed.
Print Assumptions element_array_defined.

(** a whole call: if elements with one key have one array, every element gets the array of its own term *)
Theorem generated_arrays_are_terms o m n a b c rule els q :
  quad_degree o a b c = Some q -> m = n -> m = 2%nat \/ m = 3%nat ->
  keys_determine o m (fst (rule q)) (snd (rule q)) (els q) ->
  (forall i e, In (i, e) (els q) -> key_of o e <> None /\ supported o m (arity o e)) ->
  exists L, generate o m n a b c rule els = Some L /\ map fst L = map fst (els q) /\
    forall p i e T, nth_error (els q) p = Some (i, e) -> nth_error L p = Some (i, T) ->
      shape T = [ndof (eA e); ndof (eB e); ndof (eC e)] /\
      forall x y z, form3 T x y z = term o (fst (rule q)) (snd (rule q)) e x y z.
Proof. exact (generate_terms o m n a b c rule els q). Qed.
Print Assumptions generated_arrays_are_terms.
(** elements with one key have one signature and, if dofs may be reversed, the same reversed dofs of both kinds *)
Theorem keys_have_contents o e e' k : key_of o e = Some (Some k) -> key_of o e' = Some (Some k) ->
  sig e = sig e' /\ sig e <> Obj /\ (etype e = Quad9 <-> etype e' = Quad9) /\ (etype e = Quad9 -> rev_outer e = rev_outer e' /\ rev_inner e = rev_inner e').
Proof. exact (key_contents o e e' k). Qed.
Print Assumptions keys_have_contents.
(** the degree of the rule: 1.5 times the largest number in the three degrees, rounded down, plus one *)
Theorem quadrature_degree_is o a b c q : quad_degree o a b c = Some q ->
  exists p, (exists d, In d [a; b; c] /\ largest d p) /\ (forall d p', In d [a; b; c] -> largest d p' -> (p' <= p)%nat) /\ q = (3 * p / 2 + 1)%nat.
Proof. exact (degree_value o a b c q). Qed.
Print Assumptions quadrature_degree_is.
(** exceptions: tuples of degrees for terms with a derivative; curved hexahedra for terms with a derivative *)
Theorem generate_raises_for o m n a b c rule els :
  (exists d, In d [a; b; c] /\ deg_num o d = None) \/ m <> n \/ (m <> 2%nat /\ m <> 3%nat) ->
  generate o m n a b c rule els = None.
Proof. exact (generate_raises o m n a b c rule els). Qed.
Print Assumptions generate_raises_for.
Theorem tuples_of_degrees_raise o : tuples_ok o = false <-> d_of_B o = true \/ d_of_C o = true.
Proof. exact (tuples_raise o). Qed.
Print Assumptions tuples_of_degrees_raise.
Theorem element_types_raise o e : key_of o e = None <->
  etype e = OtherE \/ (etype e = CurvHexa /\ (d_of_B o = true \/ d_of_C o = true)) \/ (etype e = Quad9 /\ sig e = Obj).
Proof. exact (key_raises o e). Qed.
Print Assumptions element_types_raise.

(** (A x B, B) = 0 and (A x B, A) = 0, for every rule and every element *)
Theorem cross_keeps_energy o nq qw e a b : cross_undiff o -> same_space (eB e) (eC e) -> term o nq qw e a b b = 0.
Proof. exact (energy_is_kept o nq qw e a b). Qed.
Print Assumptions cross_keeps_energy.
Theorem cross_is_orthogonal_to_A o nq qw e a b : cross_undiff o -> same_space (eA e) (eC e) -> term o nq qw e a b a = 0.
Proof. exact (orthogonal_to_A o nq qw e a b). Qed.
Print Assumptions cross_is_orthogonal_to_A.
Theorem cross_with_itself_vanishes o nq qw e a c : is_cross o = true -> same_space (eA e) (eB e) -> term o nq qw e a a c = 0.
Proof. exact (field_with_itself o nq qw e a c). Qed.
Print Assumptions cross_with_itself_vanishes.
Theorem cross_is_skew_in_BC o nq qw e a b c : cross_undiff o -> same_space (eB e) (eC e) ->
  term o nq qw e a b c = - term o nq qw e a c b.
Proof. exact (skew_in_BC o nq qw e a b c). Qed.
Print Assumptions cross_is_skew_in_BC.
Theorem cross_is_skew_in_AB o nq qw e a b c : is_cross o = true -> same_space (eA e) (eB e) ->
  term o nq qw e a b c = - term o nq qw e b a c.
Proof. exact (skew_in_AB o nq qw e a b c). Qed.
Print Assumptions cross_is_skew_in_AB.
Theorem cross_is_cyclic o nq qw e a b c : cross_undiff o ->
  term o nq qw e a b c = term o nq qw (with_ABC e (eB e) (eC e) (eA e)) b c a.
Proof. exact (cyclic o nq qw e a b c). Qed.
Print Assumptions cross_is_cyclic.
(** the matrix made of a given A has these entries; for one space it is skew and does no work *)
Theorem given_A_matrix_is_term o m nq qw e T fa fb fc dim (c : nat -> list R) :
  element_data o m nq qw e = Some T -> NoDup [fa; fb; fc] ->
  map dim [fa; fb; fc] = [ndof (eA e); ndof (eB e); ndof (eC e)] -> length (c fa) = dim fa -> length (c fb) = dim fb -> length (c fc) = dim fc ->
  exists M, two_dim [fa; fb; fc] fc fb T c = Some (fc, fb, M) /\ rows M = ndof (eC e) /\ cols M = ndof (eB e) /\
    forall k j, (k < ndof (eC e))%nat -> (j < ndof (eB e))%nat ->
      ent M k j = term o nq qw e (fun i => nth i (c fa) 0) (delta j) (delta k).
Proof. exact (matrix_is_term o m nq qw e T fa fb fc dim c). Qed.
Print Assumptions given_A_matrix_is_term.
Theorem given_A_matrix_is_skew o m nq qw e T fa fb fc dim (c : nat -> list R) :
  element_data o m nq qw e = Some T -> NoDup [fa; fb; fc] -> cross_undiff o -> same_space (eB e) (eC e) ->
  map dim [fa; fb; fc] = [ndof (eA e); ndof (eB e); ndof (eC e)] -> length (c fa) = dim fa -> length (c fb) = dim fb -> length (c fc) = dim fc ->
  exists M, two_dim [fa; fb; fc] fc fb T c = Some (fc, fb, M) /\ rows M = ndof (eB e) /\ cols M = ndof (eB e) /\
    (forall k j, (k < ndof (eB e))%nat -> (j < ndof (eB e))%nat -> ent M k j = - ent M j k) /\
    (forall u, rsum (ndof (eB e)) (fun k => u k * rsum (ndof (eB e)) (fun j => ent M k j * u j)) = 0).
Proof. exact (matrix_is_skew o m nq qw e T fa fb fc dim c). Qed.
Print Assumptions given_A_matrix_is_skew.

(** (A B, C) and (A dB, dC) are symmetric in B and C, and dissipate for A >= 0 *)
Theorem product_is_symmetric o nq qw e a b c :
  o = T_ABC /\ same_space (eB e) (eC e) \/ o = AdB_dC /\ same_d_space (eB e) (eC e) ->
  term o nq qw e a b c = term o nq qw e a c b.
Proof. exact (symmetric_in_BC o nq qw e a b c). Qed.
Print Assumptions product_is_symmetric.
Theorem product_is_nonnegative o nq qw e a b :
  o = T_ABC /\ same_space (eB e) (eC e) \/ o = AdB_dC /\ same_d_space (eB e) (eC e) ->
  (forall l, (l < nq)%nat -> 0 <= qw l * detJ e l) ->
  (forall l x, (l < nq)%nat -> In x (values false (eA e) a l) -> 0 <= x) ->
  0 <= term o nq qw e a b b.
Proof. exact (nonnegative o nq qw e a b). Qed.
Print Assumptions product_is_nonnegative.

(** terms with derivatives are the terms of the form d(C), d(B) with its cochain *)
Theorem d_C_is_a_form o o' nq qw e a b c n E r :
  (o, o') = (AxB_dC, AxB_C) \/ (o, o') = (AB_dC, T_ABC) \/ (o, o') = (AdB_dC, AdB_C) ->
  term o nq qw e a b c = term o' nq qw (with_C e (d_form (eC e) n E r)) a b (d_cochain (eC e) c).
Proof. exact (d_of_C_is_form o o' nq qw e a b c n E r). Qed.
Print Assumptions d_C_is_a_form.
Theorem d_B_is_a_form o o' nq qw e a b c n E r :
  (o, o') = (AdB_C, T_ABC) \/ (o, o') = (AdB_dC, AB_dC) ->
  term o nq qw e a b c = term o' nq qw (with_ABC e (eA e) (d_form (eB e) n E r) (eC e)) a (d_cochain (eB e) b) c.
Proof. exact (d_of_B_is_form o o' nq qw e a b c n E r). Qed.
Print Assumptions d_B_is_a_form.

(** the degree of the rule is enough: on elements with a constant Jacobian a rule that is right to degree 2 q + 1 (Gauss with
    q + 1 nodes) gives the array of any other such rule, for polynomial forms of the given degrees *)
Theorem quadrature_degree_is_enough o m a b c q ka kb kc J r s f g h T T' :
  quad_degree o a b c = Some q -> deg_num o a = Some ka -> deg_num o b = Some kb -> deg_num o c = Some kc ->
  pform_degree m ka f -> pform_degree m kb g -> pform_degree m kc h ->
  agree m (2 * q + 1) r s ->
  element_data o m (nodes r) (weight r) (affine J (X r) f g h) = Some T ->
  element_data o m (nodes s) (weight s) (affine J (X s) f g h) = Some T' ->
  shape T = shape T' /\ forall i j k, at_ T [i; j; k] = at_ T' [i; j; k].
Proof. exact (quadrature_enough o m a b c q ka kb kc J r s f g h T T'). Qed.
Print Assumptions quadrature_degree_is_enough.

(** (ln A, B) *)
Theorem log_vector_is_its_term nq qw dJ fA fB ca cb RA RB v : rms fA = [RA] -> rms fB = [RB] -> log_vector nq qw dJ fA fB ca = Some v ->
  rsum (ndof fB) (fun k => v k * cb k)
  = rsum nq (fun l => qw l * dJ l * (ln (nth 0 (values false fA ca l) 0) * nth 0 (values false fB cb l) 0)).
Proof. exact (log_vector_is_term nq qw dJ fA fB ca cb RA RB v). Qed.
Print Assumptions log_vector_is_its_term.

(** adaptive programs: arrays of (A x B, C), <A x B | C> and (A x B, dC) are those of the current spaces, after any renewals; the
    others are if no address of a space is ever used again *)
Theorem cleaned_caches_are_right {D} (truth : op -> nat -> list (nat * deg) -> D) evs out :
  run truth evs start = Some out -> Forall (fun x => In (fst (fst (fst x))) [AxB_C; AxB_dpC; AxB_dC] -> right_array truth x) out.
Proof. exact (cleaned_three truth evs out). Qed.
Print Assumptions cleaned_caches_are_right.
Theorem caches_with_fresh_addresses_are_right {D} (truth : op -> nat -> list (nat * deg) -> D) evs out :
  three evs -> NoDup (concat (renewed evs)) -> run truth evs start = Some out -> Forall (right_array truth) out.
Proof. exact (fresh_is_right truth evs out). Qed.
Print Assumptions caches_with_fresh_addresses_are_right.
(** false for the four other classes: their dictionaries are never emptied, and an address may come back *)
Theorem uncleaned_caches_refuted o : ~ In o [AxB_C; AxB_dpC; AxB_dC] ->
  exists (D : Type) (truth : op -> nat -> list (nat * deg) -> D) evs g ss T,
    run truth evs start = Some [(o, 1%nat, ss, truth o 1%nat ss); (o, g, ss, T)] /\ length ss = 3%nat /\ T = truth o 1%nat ss /\ T <> truth o g ss.
Proof. exact (stale_others o). Qed.
Print Assumptions uncleaned_caches_refuted.

(** ** instances *)

(** a scalar and two vectors of one space in one element: (w k x u, v) = w (u1 v2 - u2 v1) *)
Example some_array : exists T, element_data AxB_C 2 1 (fun _ => 1) element1 = Some T /\ at_ T [0; 0; 1]%nat = 2 /\ at_ T [0; 1; 0]%nat = -2.
Proof. exact element1_data. Qed.
Example some_spaces : same_space (eB element1) (eC element1).
Proof. exact element1_same. Qed.
Example some_arity : arity AxB_C element1 = (1, 2, 2)%nat /\ arity AB_dC (with_ABC element1 scalar1 vector2 scalar1) = (1, 2, 2)%nat /\
  arity AdB_C (with_ABC element1 scalar1 vector2 scalar1) = (1, 1, 1)%nat.
Proof. repeat split. Qed.
(** two equal elements share an array, a reversed one of type 9 has its own *)
Definition some_elements : list (nat * elem) :=
  [(4, element1); (5, element1);
   (6, mk_elem Quad9 (Str 0) (Some [1]) None (fun _ => 1%R) scalar1 vector2 vector2);
   (7, mk_elem Quad9 (Str 0) None None (fun _ => 3%R) scalar1 vector2 vector2)]%nat.
Example some_keys : keys_determine AxB_C 2 1 (fun _ => 1) some_elements /\
  (forall i e, In (i, e) some_elements -> key_of AxB_C e <> None /\ supported AxB_C 2 (arity AxB_C e)) /\
  exists L, generate AxB_C 2 2 (Num 1) (Num 1) (Num 1) (fun _ => (1%nat, fun _ => 1)) (fun _ => some_elements) = Some L /\
    map (fun x => at_ (snd x) [0; 0; 1]%nat) L = [2; 2; 2; 6].
Proof.
  split; [|split].
  - intros i e j e' k Hi Hj Hk Hk'. cbn in Hi, Hj.
    destruct Hi as [H|[H|[H|[H|[]]]]]; injection H as <- <-; destruct Hj as [H|[H|[H|[H|[]]]]]; injection H as <- <-; try reflexivity;
      cbn in Hk, Hk'; injection Hk as <-; discriminate Hk'.
  - intros i e Hi. cbn in Hi. destruct Hi as [H|[H|[H|[H|[]]]]]; injection H as <- <-; split; try discriminate; cbn; auto.
  - eexists. split; [reflexivity|]. cbn. unfold plus3, neg3, einsum4. cbn. repeat f_equal; ring.
Qed.
(** degree (2, 4) with degree 3: seven, eight nodes in each direction *)
Example some_degree : quad_degree T_ABC (Tup [2; 4]%nat) (Num 3) (Num 1) = Some 7%nat /\ quad_degree AB_dC (Tup [2; 4]%nat) (Num 3) (Num 1) = None.
Proof. split; reflexivity. Qed.
(** two rules for degree one; a polynomial form *)
Example some_rules : agree 2 3 gauss2 simpson.
Proof. exact gauss_simpson. Qed.
Example some_pform : pform_degree 2 1 (mk_pform 1 [fun _ => [(1, [1; 0]%nat); (2, [1; 1]%nat)]] 0 (fun _ _ => 0) []).
Proof.
  split; [|intros p i []]. intros p i [<-|[]] t [<-|[<-|[]]]; (split; [reflexivity|]); cbn; intros j [<-|[<-|[]]]; lia.
Qed.
Example some_quad_degree : quad_degree T_ABC (Num 0) (Num 0) (Num 0) = Some 1%nat.
Proof. reflexivity. Qed.
(** an array of an address used again: right for (A x B, C) *)
Example some_run : run (fun _ g _ => g) [Renew [7]; Term AxB_C [(0, Num 2); (0, Num 2); (0, Num 2)]; Renew [8]; Renew [9]; Renew [7];
    Term AxB_C [(0, Num 2); (0, Num 2); (0, Num 2)]]%nat start
  = Some [(AxB_C, 1, [(0, Num 2); (0, Num 2); (0, Num 2)], 1); (AxB_C, 4, [(0, Num 2); (0, Num 2); (0, Num 2)], 4)]%nat.
Proof. reflexivity. Qed.
Example some_fresh_run : three [Renew [7]; Term T_ABC [(0, Num 2); (0, Num 2); (0, Num 2)]; Renew [8]]%nat /\
  NoDup (concat (renewed [Renew [7]; Term T_ABC [(0, Num 2); (0, Num 2); (0, Num 2)]; Renew [8]]%nat)).
Proof.
  split; [intros o ss [H|[H|[H|[]]]]; try discriminate; injection H as <- <-; reflexivity|].
  cbn. constructor; [cbn; lia|]. constructor; [cbn; tauto|constructor].
Qed.
