(** C46: abstract spaces and the operators between them.  Only statements and references to proofs; vocabulary in SpaceSpec.v, model in SpaceModel.v.
    A [session] is what any sequence of calls from an empty registry leaves; [later m W tidy R R'] says that R' comes after R by calls that name
    orientations in full ("inner", "outer") and take no wedge product of spaces of different orientations; with [anything] all calls are allowed.
    [m] is the dimension of the space in which everything is embedded, [W] names the meshes of the session. *)
From Coq Require Import List ZArith String Bool.
From Verif Require Import MemoModel SpaceModel SpaceSpec SpaceProofs SpaceThms SpaceLaws SpaceText SpaceCalc.
Import ListNotations.
Local Open Scope string_scope.
Local Open Scope Z_scope.


(** * asking for a space *)

(** what is accepted, in every session *)
Theorem space_new_accepts m W ok R abbr k M raw : closed W -> session m W ok R -> legit W M ->
  (snd (new R abbr k (Some M) raw) <> None <->
   (abbr = "Lambda" \/ abbr = "bundle" \/ abbr = "bundle-diagonal") /\ (raw = None \/ raw = Some "inner" \/ raw = Some "outer" \/ raw = Some "i" \/ raw = Some "o" \/ raw = Some "None") /\
   (if String.eqb abbr "bundle-diagonal" then k = 0 \/ k = ndim M else 0 <= k <= ndim M)).
Proof. exact (new_accepts m W ok R abbr k M raw). Qed.
Print Assumptions space_new_accepts.

(** what is returned has the class, mesh and degree asked for, in every session; and the orientation if that is "outer" *)
Theorem space_new_data m W ok R abbr k M raw R1 s : closed W -> session m W ok R -> legit W M -> new R abbr k (Some M) raw = (R1, Some s) ->
  abbr_of (s_cls s) = abbr /\ s_mesh s = M /\ s_k s = k /\ live R1 s /\ (raw = Some "outer" -> s_ori s = "outer").
Proof. exact (new_data m W ok R abbr k M raw R1 s). Qed.
Print Assumptions space_new_data.

(** in a tidy session the orientation is the one asked for *)
Theorem space_new_orientation m W R abbr k M raw R1 s : closed W -> session m W tidy R -> legit W M -> full_word raw -> new R abbr k (Some M) raw = (R1, Some s) -> raw = Some (s_ori s).
Proof. exact (new_orientation m W R abbr k M raw R1 s). Qed.
Print Assumptions space_new_orientation.

(** the same question gets the same object for ever, whatever happens in between *)
Theorem space_new_stays m W ok ok' R abbr k M raw R1 s R2 : closed W -> session m W ok R -> legit W M -> new R abbr k (Some M) raw = (R1, Some s) -> later m W ok' R1 R2 -> new R2 abbr k (Some M) raw = (R2, Some s).
Proof. exact (new_stays m W ok ok' R abbr k M raw R1 s R2). Qed.
Print Assumptions space_new_stays.

(** in a tidy session there is one object for each class, mesh, degree and orientation *)
Theorem space_one_object m W R s1 s2 : closed W -> session m W tidy R -> live R s1 -> live R s2 -> s_cls s1 = s_cls s2 -> s_mesh s1 = s_mesh s2 -> s_k s1 = s_k s2 -> s_ori s1 = s_ori s2 -> s1 = s2.
Proof. exact (one_object m W R s1 s2). Qed.
Print Assumptions space_one_object.

Theorem space_same_identity m W ok R s1 s2 : closed W -> session m W ok R -> live R s1 -> live R s2 -> s_id s1 = s_id s2 -> s1 = s2.
Proof. exact (same_identity m W ok R s1 s2). Qed.
Print Assumptions space_same_identity.

(** "o" for "outer" returns the inner space if that exists, and otherwise an outer space that is returned for "inner" from then on *)
Theorem space_new_orientation_refuted : exists R1 R2 s, session 2 W2 tidy R1 /\ legit W2 M2 /\ new R1 "Lambda" 1 (Some M2) (Some "o") = (R2, Some s) /\ s_ori s = "inner".
Proof. exact o_gives_inner. Qed.
Print Assumptions space_new_orientation_refuted.
Theorem space_inner_is_outer_refuted : exists R2 s, session 2 W2 anything R2 /\ new empty "Lambda" 1 (Some M2) (Some "o") = (R2, Some s) /\ s_ori s = "outer" /\ new R2 "Lambda" 1 (Some M2) (Some "inner") = (R2, Some s).
Proof. exact o_alone_gives_outer. Qed.
Print Assumptions space_inner_is_outer_refuted.

Theorem space_short_word_gives_inner m W R s raw : closed W -> session m W tidy R -> live R s -> s_ori s = "inner" -> (raw = Some "o" \/ raw = Some "i" \/ raw = None \/ raw = Some "None") ->
  new R (abbr_of (s_cls s)) (s_k s) (Some (s_mesh s)) raw = (R, Some s).
Proof. exact (other_word_gives_inner m W R s raw). Qed.
Print Assumptions space_short_word_gives_inner.

(** * operators *)

(** the Hodge star: degree n - k, other orientation, and twice it is the same object *)
Theorem space_hodge_involution m W R s : closed W -> session m W tidy R -> live R s -> s_cls s <> Diagonal ->
  exists R1 s1, hodge R s = (R1, Some s1) /\ s_cls s1 = s_cls s /\ s_mesh s1 = s_mesh s /\ s_k s1 = ndim (s_mesh s) - s_k s /\ s_ori s1 = swap (s_ori s) /\
    forall R2, later m W tidy R1 R2 -> hodge R2 s1 = (R2, Some s).
Proof. exact (hodge_involution m W R s). Qed.
Print Assumptions space_hodge_involution.

Theorem space_d_codifferential m W R s : closed W -> session m W tidy R -> live R s -> s_cls s <> Diagonal -> s_k s < ndim (s_mesh s) ->
  exists R1 s1, d R s = (R1, Some s1) /\ s_cls s1 = s_cls s /\ s_mesh s1 = s_mesh s /\ s_k s1 = s_k s + 1 /\ s_ori s1 = s_ori s /\
    forall R2, later m W tidy R1 R2 -> codifferential R2 s1 = (R2, Some s).
Proof. exact (d_then_codifferential m W R s). Qed.
Print Assumptions space_d_codifferential.

Theorem space_codifferential_d m W R s : closed W -> session m W tidy R -> live R s -> s_cls s <> Diagonal -> 0 < s_k s ->
  exists R1 s1, codifferential R s = (R1, Some s1) /\ s_cls s1 = s_cls s /\ s_mesh s1 = s_mesh s /\ s_k s1 = s_k s - 1 /\ s_ori s1 = s_ori s /\
    forall R2, later m W tidy R1 R2 -> d R2 s1 = (R2, Some s).
Proof. exact (codifferential_then_d m W R s). Qed.
Print Assumptions space_codifferential_d.

Theorem space_no_d_of_top R s : s_k s = ndim (s_mesh s) -> d R s = (R, None).
Proof. exact (d_top R s). Qed.
Print Assumptions space_no_d_of_top.
Theorem space_no_codifferential_of_bottom R s : s_k s = 0 -> codifferential R s = (R, None).
Proof. exact (cod_bottom R s). Qed.
Print Assumptions space_no_codifferential_of_bottom.

(** the codifferential goes to the space of star d star *)
Theorem space_codifferential_by_hodge m W R s R1 s1 R2 R3 s2 R4 R5 s3 R6 : closed W -> session m W tidy R -> live R s -> s_cls s <> Diagonal -> 0 < s_k s ->
  hodge R s = (R1, Some s1) -> later m W tidy R1 R2 -> d R2 s1 = (R3, Some s2) -> later m W tidy R3 R4 -> hodge R4 s2 = (R5, Some s3) -> later m W tidy R5 R6 -> codifferential R6 s = (R6, Some s3).
Proof. exact (codifferential_is_hodge_d_hodge m W R s R1 s1 R2 R3 s2 R4 R5 s3 R6). Qed.
Print Assumptions space_codifferential_by_hodge.

Theorem space_wedge_commutes m W R s1 s2 : closed W -> session m W tidy R -> live R s1 -> live R s2 -> s_cls s1 <> Diagonal -> s_cls s1 = s_cls s2 -> s_mesh s1 = s_mesh s2 -> s_ori s1 = s_ori s2 ->
  s_k s1 + s_k s2 <= ndim (s_mesh s1) ->
  exists R1 s, wedge R s1 s2 = (R1, Some s) /\ s_cls s = s_cls s1 /\ s_mesh s = s_mesh s1 /\ s_k s = s_k s1 + s_k s2 /\ s_ori s = s_ori s1 /\
    forall R2, later m W tidy R1 R2 -> wedge R2 s2 s1 = (R2, Some s).
Proof. exact (wedge_commutes m W R s1 s2). Qed.
Print Assumptions space_wedge_commutes.

Theorem space_wedge_too_high R s1 s2 : ndim (s_mesh s1) < s_k s1 + s_k s2 -> wedge R s1 s2 = (R, None).
Proof. exact (wedge_too_high R s1 s2). Qed.
Print Assumptions space_wedge_too_high.

Theorem space_wedge_associates m W R a b c R1 ab R2 R3 x R4 R5 bc R6 : closed W -> session m W tidy R -> live R a -> live R b -> live R c -> s_cls a <> Diagonal -> s_cls a = s_cls b -> s_cls b = s_cls c -> s_mesh a = s_mesh b -> s_mesh b = s_mesh c ->
  s_ori a = s_ori b -> s_ori b = s_ori c -> s_k a + s_k b + s_k c <= ndim (s_mesh a) ->
  wedge R a b = (R1, Some ab) -> later m W tidy R1 R2 -> wedge R2 ab c = (R3, Some x) -> later m W tidy R3 R4 -> wedge R4 b c = (R5, Some bc) -> later m W tidy R5 R6 ->
  s_k x = s_k a + s_k b + s_k c /\ s_ori x = s_ori a /\ wedge R6 a bc = (R6, Some x).
Proof. exact (wedge_associates m W R a b c R1 ab R2 R3 x R4 R5 bc R6). Qed.
Print Assumptions space_wedge_associates.

(** d (a ^ b) and da ^ b live in the same space *)
Theorem space_leibniz m W R a b R1 ab R2 R3 x R4 R5 da R6 : closed W -> session m W tidy R -> live R a -> live R b -> s_cls a <> Diagonal -> s_cls a = s_cls b -> s_mesh a = s_mesh b -> s_ori a = s_ori b ->
  s_k a + s_k b < ndim (s_mesh a) ->
  wedge R a b = (R1, Some ab) -> later m W tidy R1 R2 -> d R2 ab = (R3, Some x) -> later m W tidy R3 R4 -> d R4 a = (R5, Some da) -> later m W tidy R5 R6 -> wedge R6 da b = (R6, Some x) /\ wedge R6 b da = (R6, Some x).
Proof. exact (leibniz_spaces m W R a b R1 ab R2 R3 x R4 R5 da R6). Qed.
Print Assumptions space_leibniz.

(** the trace of d is d of the trace *)
Theorem space_trace_d m W R s B R1 t R2 R3 ts R4 R5 ds R6 : closed W -> session m W tidy R -> live R s -> s_cls s = Lambda -> boundary (s_mesh s) = Some B -> s_k s + 1 < ndim (s_mesh s) ->
  trace R s = (R1, Some t) -> later m W tidy R1 R2 -> d R2 t = (R3, Some ts) -> later m W tidy R3 R4 -> d R4 s = (R5, Some ds) -> later m W tidy R5 R6 ->
  s_mesh t = B /\ ndim B = ndim (s_mesh s) - 1 /\ trace R6 ds = (R6, Some ts).
Proof. exact (trace_commutes_with_d m W R s B R1 t R2 R3 ts R4 R5 ds R6). Qed.
Print Assumptions space_trace_d.

Theorem space_no_trace_of_top R s : s_k s = ndim (s_mesh s) -> trace R s = (R, None).
Proof. exact (no_trace_of_top R s). Qed.
Print Assumptions space_no_trace_of_top.

Theorem space_no_trace_without_boundary R s : boundary (s_mesh s) = None -> trace R s = (R, None).
Proof. exact (no_trace_without_boundary R s). Qed.
Print Assumptions space_no_trace_without_boundary.

(** cross products, by any of the three operators: the result is a scalar or a vector where the cross product of vector calculus is one *)
Theorem space_cross_product m R s1 s2 R1 s W ok : closed W -> session m W ok R -> live R s1 -> cross_product m R s1 s2 = (R1, Some s) \/ Cross_Product m R s1 s2 = (R1, Some s) \/ CrossProduct m R s1 s2 = (R1, Some s) ->
  s_cls s = Lambda /\ s_mesh s = s_mesh s1 /\ s_mesh s2 = s_mesh s1 /\ cross_kind (kind_of (ndim (s_mesh s1)) (s_k s1)) (kind_of (ndim (s_mesh s1)) (s_k s2)) = Some (kind_of (ndim (s_mesh s1)) (s_k s)).
Proof. exact (cross_product_kind m R s1 s2 R1 s W ok). Qed.
Print Assumptions space_cross_product.

(** the three operators go to three different spaces for the same operands: outer and inner 1-forms in three dimensions *)
Theorem space_three_cross_products R s1 s2 : s_cls s1 = Lambda -> s_cls s2 = Lambda -> mesh_eqb (s_mesh s1) (s_mesh s2) = true -> ndim (s_mesh s1) = 3 ->
  s_k s1 = 1 -> s_ori s1 = "outer" -> s_k s2 = 1 -> s_ori s2 = "inner" ->
  cross_product 3 R s1 s2 = new R "Lambda" 1 (Some (s_mesh s1)) (Some "inner") /\
  Cross_Product 3 R s1 s2 = new R "Lambda" 2 (Some (s_mesh s1)) (Some "outer") /\
  CrossProduct 3 R s1 s2 = new R "Lambda" 1 (Some (s_mesh s1)) (Some "outer").
Proof.
  intros C1 C2 M N K1 O1 K2 O2. unfold cross_product, Cross_Product, CrossProduct, by_table. rewrite C1, C2, M, N, K1, O1, K2, O2. cbn. auto.
Qed.
Print Assumptions space_three_cross_products.

(** * names of vector calculus *)

(** the exterior derivative is named for all degrees below n, and the operator of that name goes from k-forms to (k+1)-forms *)
Theorem space_vc_total (F : Type) (zero one : F) (add mul sub : F -> F -> F) (opp : F -> F) (D : nat -> F -> F) n k ori ind a :
  (1 <= n <= 3)%nat -> (k < n)%nat -> (ori = "inner" \/ ori = "outer") -> (ind = "Lambda" \/ ind = "bundle") -> List.length a = comps n k ->
  exists name b, d_to_vc ind (Z.of_nat n) (Z.of_nat n) (Z.of_nat k) ori = Some name /\ operator F add sub opp D name n a = Some b /\ List.length b = comps n (k + 1).
Proof. exact (vc_total F add sub opp D n k ori ind a). Qed.
Print Assumptions space_vc_total.
(** the operators of two consecutive derivatives give zero *)
Theorem space_vc_exact (F : Type) (zero one : F) (add mul sub : F -> F -> F) (opp : F -> F) (D : nat -> F -> F) : derivations F zero one add mul sub opp D ->
  forall n k ori ind A B a b c, (ori = "inner" \/ ori = "outer") ->
  d_to_vc ind (Z.of_nat n) (Z.of_nat n) (Z.of_nat k) ori = Some A -> d_to_vc ind (Z.of_nat n) (Z.of_nat n) (Z.of_nat (k + 1)) ori = Some B ->
  operator F add sub opp D A n a = Some b -> operator F add sub opp D B n b = Some c -> Forall (fun f => f = zero) c.
Proof. exact (vc_exact F zero one add mul sub opp D). Qed.
Print Assumptions space_vc_exact.
(** the codifferential, with its sign, is adjoint to the derivative up to a divergence *)
Theorem space_vc_adjoint (F : Type) (zero one : F) (add mul sub : F -> F -> F) (opp : F -> F) (D : nat -> F -> F) : derivations F zero one add mul sub opp D ->
  forall n k ori ind a b, (1 <= n <= 3)%nat -> (1 <= k <= n)%nat -> (ori = "inner" \/ ori = "outer") -> (ind = "Lambda" \/ ind = "bundle") ->
  List.length a = comps n (k - 1) -> List.length b = comps n k ->
  exists A s B da sb, d_to_vc ind (Z.of_nat n) (Z.of_nat n) (Z.of_nat (k - 1)) ori = Some A /\ d_ast_to_vc ind (Z.of_nat n) (Z.of_nat n) (Z.of_nat k) ori = Some (s, B) /\
    operator F add sub opp D A n a = Some da /\ operator F add sub opp D B n b = Some sb /\ (s = "+" \/ s = "-") /\
    exists w, List.length w = n /\ sub (dot F zero add mul da b) (signed F opp s (dot F zero add mul a sb)) = divergence_from F zero add D 0 w.
Proof. exact (vc_adjoint F zero one add mul sub opp D). Qed.
Print Assumptions space_vc_adjoint.
(** a ring with derivations: a + b e with e e = 0 and D_i e = (i + 1) e *)
Example space_derivations : derivations (Z * Z) (0, 0) (1, 0) (fun x y => (fst x + fst y, snd x + snd y)) (fun x y => (fst x * fst y, fst x * snd y + snd x * fst y))
  (fun x y => (fst x - fst y, snd x - snd y)) (fun x => (- fst x, - snd x)) (fun i x => (0, (Z.of_nat i + 1) * snd x)).
Proof.
  split; [constructor; intros; repeat match goal with x : (Z * Z)%type |- _ => destruct x end; cbn [fst snd]; apply (f_equal2 pair); ring|].
  repeat split; intros; cbn [fst snd]; apply (f_equal2 pair); ring.
Qed.

(** * spaces of unknown orientation *)

(** no operator can be applied to them *)
Theorem space_unknown_is_stuck m W ok R s : closed W -> session m W ok R -> live R s -> s_ori s = "unknown" ->
  snd (hodge R s) = None /\ snd (d R s) = None /\ snd (codifferential R s) = None /\ snd (trace R s) = None /\ forall s2, s_ori s2 = "unknown" -> snd (wedge R s s2) = None.
Proof. exact (unknown_is_stuck m W ok R s). Qed.
Print Assumptions space_unknown_is_stuck.

(** the wedge product of an inner and an outer space is the inner space if that exists *)
Theorem space_wedge_of_two_orientations m W R s1 s2 s : closed W -> session m W tidy R -> live R s1 -> live R s2 -> live R s -> s_cls s1 <> Diagonal -> s_cls s1 = s_cls s2 -> s_mesh s1 = s_mesh s2 -> s_ori s1 <> s_ori s2 ->
  s_cls s = s_cls s1 -> s_mesh s = s_mesh s1 -> s_k s = s_k s1 + s_k s2 -> s_ori s = "inner" -> wedge R s1 s2 = (R, Some s).
Proof. exact (wedge_of_two_orientations m W R s1 s2 s). Qed.
Print Assumptions space_wedge_of_two_orientations.

(** and otherwise a space of unknown orientation, which is from then on returned to whoever asks for the inner one *)
Theorem space_wedge_spoils m W R s1 s2 : closed W -> session m W tidy R -> live R s1 -> live R s2 -> s_cls s1 <> Diagonal -> s_cls s1 = s_cls s2 -> s_mesh s1 = s_mesh s2 -> s_ori s1 <> s_ori s2 ->
  s_k s1 + s_k s2 <= ndim (s_mesh s1) -> (forall s, live R s -> s_cls s = s_cls s1 -> s_mesh s = s_mesh s1 -> s_k s = s_k s1 + s_k s2 -> s_ori s <> "inner") ->
  exists R1 s, wedge R s1 s2 = (R1, Some s) /\ s_ori s = "unknown" /\
    forall R2, later m W anything R1 R2 -> new R2 (abbr_of (s_cls s1)) (s_k s1 + s_k s2) (Some (s_mesh s1)) (Some "inner") = (R2, Some s) /\ snd (hodge R2 s) = None /\ snd (d R2 s) = None.
Proof. exact (wedge_of_two_orientations_spoils m W R s1 s2). Qed.
Print Assumptions space_wedge_spoils.

Theorem space_wedge_history_refuted : exists R R' s s', session 2 W2 tidy R /\ later 2 W2 tidy R R' /\ live R In1 /\ live R Out1 /\ snd (wedge R In1 Out1) = Some s /\ snd (wedge R' In1 Out1) = Some s' /\ s_ori s = "unknown" /\ s_ori s' = "inner".
Proof. exact wedge_depends_on_history. Qed.
Print Assumptions space_wedge_history_refuted.

(** * texts *)

(** the text that keys matrices: class, dimensions, degree and orientation *)
Theorem space_text_key m m' W ok R s s' : closed W -> session m W ok R -> live R s -> live R s' ->
  (pure_lin_text m s = pure_lin_text m' s' <-> s_cls s = s_cls s' /\ m = m' /\ ndim (s_mesh s) = ndim (s_mesh s') /\ s_k s = s_k s' /\ s_ori s = s_ori s').
Proof. exact (text_key m m' W ok R s s'). Qed.
Print Assumptions space_text_key.

(** on one mesh it stands for the object *)
Theorem space_text_is_object m W R s s' : closed W -> session m W tidy R -> live R s -> live R s' -> s_mesh s = s_mesh s' -> (pure_lin_text m s = pure_lin_text m s' <-> s = s').
Proof. exact (key_is_object m W R s s'). Qed.
Print Assumptions space_text_is_object.

(** python ==: the same object, or scalar spaces of two meshes of one manifold *)
Theorem space_equality m W R s s' : closed W -> session m W tidy R -> live R s -> live R s' ->
  (space_eq s s' = true <-> s = s' \/ s_cls s = Lambda /\ s_cls s' = Lambda /\ s_k s = s_k s' /\ s_ori s = s_ori s' /\ s_mesh s <> s_mesh s' /\ mani_text (s_mesh s) = mani_text (s_mesh s')).
Proof. exact (space_eq_spec m W R s s'). Qed.
Print Assumptions space_equality.

Theorem space_project_to m W R s s' : closed W -> session m W tidy R -> live R s -> live R s' -> (s_cls s <> Lambda \/ s_cls s' <> Lambda \/ s_mesh s = s_mesh s') -> project_to s s' = if Nat.eq_dec (s_id s) (s_id s') then None else Some s'.
Proof. exact (project_to_spec m W R s s'). Qed.
Print Assumptions space_project_to.

(** * a session: inner 0-forms, inner 1-forms and outer 1-forms on a mesh of the plane *)
Example space_session : session 2 W2 tidy (calls 2 calls3) /\ live (calls 2 calls3) In0 /\ live (calls 2 calls3) In1 /\ live (calls 2 calls3) Out1 /\ closed W2.
Proof. exact (conj session3 (conj (proj1 live3) (conj (proj1 (proj2 live3)) (conj (proj2 (proj2 live3)) W2_closed)))). Qed.
Example space_d_example : d (calls 2 calls3) In0 = (calls 2 calls3, Some In1) /\ codifferential (calls 2 calls3) In1 = (calls 2 calls3, Some In0) /\ hodge (calls 2 calls3) In1 = (calls 2 calls3, Some Out1) /\ hodge (calls 2 calls3) Out1 = (calls 2 calls3, Some In1).
Proof. vm_compute. auto. Qed.
Example space_wedge_example : snd (wedge (calls 2 calls3) In0 In1) = Some In1 /\ snd (wedge (calls 2 calls3) In1 In0) = Some In1 /\ option_map s_k (snd (wedge (calls 2 calls3) In1 In1)) = Some 2.
Proof. vm_compute. auto. Qed.
Example space_trace_example : option_map (fun s => (s_k s, ndim (s_mesh s), mesh_text (s_mesh s))) (snd (trace (calls 2 calls3) In1)) = Some (1, 1, mesh_text Bd2) /\ boundary M2 = Some Bd2.
Proof. vm_compute. auto. Qed.
Example space_cross_example : option_map (fun s => (s_k s, s_ori s)) (snd (cross_product 2 (calls 2 calls3) In1 Out1)) = Some (0, "outer") /\ option_map (fun s => (s_k s, s_ori s)) (snd (cross_product 2 (calls 2 (calls3 ++ [CNew "Lambda" 0 (Some M2) (Some "outer")])) (Space Lambda M2 0 "outer" 3) Out1)) = Some (1, "outer").
Proof. vm_compute. auto. Qed.

