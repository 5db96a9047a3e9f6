(** Whole calls, and instances for the examples. *)
From Coq Require Import List Arith Bool Reals Lia Lra.
From Verif Require Import NlModel NlSpec NlSums TermModel TermSpec TermThms TermThms2 TermThms3.
Import ListNotations.
Local Open Scope R_scope.

Theorem generate_terms o m n a b c rule els q :
  quad_degree o a b c = Some q -> m = n -> m = 2%nat \/ m = 3%nat ->
  keys_determine o m (fst (rule q)) (snd (rule q)) (els q) ->
  (forall i e, In (i, e) (els q) -> key_of o e <> None /\ supported o m (arity o e)) ->
  exists L, generate o m n a b c rule els = Some L /\ map fst L = map fst (els q) /\
    forall p i e T, nth_error (els q) p = Some (i, e) -> nth_error L p = Some (i, T) ->
      shape T = [ndof (eA e); ndof (eB e); ndof (eC e)] /\
      forall x y z, form3 T x y z = term o (fst (rule q)) (snd (rule q)) e x y z.
Proof.
  intros Hq <- Hm Hk Hd. unfold generate. rewrite Hq, Nat.eqb_refl.
  replace ((m =? 2) || (m =? 3))%nat with true by (destruct Hm as [->| ->]; reflexivity). cbn [andb].
  destruct (pass_transparent o m (fst (rule q)) (snd (rule q)) (els q) Hk Hd) as (L & HL & HF).
  { intros i e _ Hs. apply (data_defined o m (fst (rule q)) (snd (rule q)) e) in Hs. destruct Hs as (T & ->). discriminate. }
  exists L. split; [exact HL|]. split.
  - clear HL Hk Hd. induction HF as [|x y l l' (Hxy & _) _ IH]; cbn; [reflexivity|]. rewrite IH, Hxy. reflexivity.
  - clear HL Hk Hd. induction HF as [|x y l l' (_ & Hxy) _ IH]; intros p i e T H1 H2; [destruct p; discriminate|].
    destruct p as [|p]; cbn in H1, H2; [|apply (IH p i e T H1 H2)].
    injection H1 as ->. injection H2 as ->. cbn in Hxy.
    split; [apply (data_is_term o m _ _ e T (delta 0) (delta 0) (delta 0) Hxy)|].
    intros x y z. apply (data_is_term o m _ _ e T x y z Hxy).
Qed.
Theorem generate_raises o m n a b c rule els :
  (exists d, In d [a; b; c] /\ deg_num o d = None) \/ m <> n \/ (m <> 2%nat /\ m <> 3%nat) ->
  generate o m n a b c rule els = None.
Proof.
  unfold generate, quad_degree. intros [(d & Hd & Hn)|H].
  - destruct Hd as [<-|[<-|[<-|[]]]]; rewrite Hn; [reflexivity| |]; destruct (deg_num o a); auto; destruct (deg_num o b); auto.
  - assert (E : ((m =? n) && ((m =? 2) || (m =? 3)))%nat = false).
    { destruct H as [H|(H1 & H2)].
      - rewrite (proj2 (Nat.eqb_neq _ _) H). reflexivity.
      - rewrite (proj2 (Nat.eqb_neq _ _) H1), (proj2 (Nat.eqb_neq _ _) H2). apply andb_false_r. }
    rewrite E. destruct (deg_num o a), (deg_num o b), (deg_num o c); reflexivity.
Qed.
Theorem tuples_raise o : tuples_ok o = false <-> d_of_B o = true \/ d_of_C o = true.
Proof. destruct o; cbn; split; intros H; auto; try discriminate; destruct H; discriminate. Qed.
Theorem key_raises o e : key_of o e = None <->
  etype e = OtherE \/ (etype e = CurvHexa /\ (d_of_B o = true \/ d_of_C o = true)) \/ (etype e = Quad9 /\ sig e = Obj).
Proof.
  unfold key_of. destruct (etype e), (sig e); cbn; split; intros H; try discriminate; auto;
    try (destruct H as [H|[(H & _)|(H & H')]]; discriminate);
    destruct o; cbn in *; try discriminate; auto 6; destruct H as [H|[(_ & [H|H])|(H & _)]]; discriminate.
Qed.

(** ** instances *)

(** a scalar with one dof, a vector with two dofs; one node *)
Definition scalar1 : fel := mk_fel 1 [fun _ _ => 2] 2 (fun m _ => if (m =? 0)%nat then 1 else -1) [fun _ i => if (i =? 0)%nat then 1 else 0; fun _ i => if (i =? 0)%nat then 0 else 1].
Definition vector2 : fel := mk_fel 2 [fun _ i => if (i =? 0)%nat then 1 else 0; fun _ i => if (i =? 0)%nat then 0 else 1] 1 (fun _ k => if (k =? 0)%nat then 1 else -1) [fun _ _ => 1].
Definition element1 : elem := mk_elem Rect (Str 0) None None (fun _ => 1) scalar1 vector2 vector2.
Lemma element1_data : exists T, element_data AxB_C 2 1 (fun _ => 1) element1 = Some T /\ at_ T [0; 0; 1]%nat = 2 /\ at_ T [0; 1; 0]%nat = -2.
Proof.
  eexists. split; [reflexivity|].
  cbn. unfold plus3, neg3, einsum4. cbn. split; ring.
Qed.
Lemma element1_same : same_space (eB element1) (eC element1).
Proof. split; reflexivity. Qed.

(** the rule of Gauss with two nodes and the rule of Simpson in the plane *)
Definition product_rule (n : nat) (w x : nat -> R) : qrule :=
  mk_qrule (n * n) (fun l => w (l mod n)%nat * w (l / n)%nat) (fun l => [x (l mod n)%nat; x (l / n)%nat]).
Definition gauss2 : qrule := product_rule 2 (fun _ => 1) (fun i => if (i =? 0)%nat then - sqrt (/ 3) else sqrt (/ 3)).
Definition simpson : qrule := product_rule 3 (fun i => if (i =? 1)%nat then 4 / 3 else / 3) (fun i => if (i =? 0)%nat then -1 else if (i =? 1)%nat then 0 else 1).
Lemma gauss_simpson : agree 2 3 gauss2 simpson.
Proof.
  split; [reflexivity|]. split; [reflexivity|].
  intros [|i [|j [|]]] Hl Hd; try discriminate Hl.
  assert (Hi : (i <= 3)%nat) by (apply Hd; cbn; auto). assert (Hj : (j <= 3)%nat) by (apply Hd; cbn; auto).
  assert (G : sqrt (/ 3) * sqrt (/ 3) = / 3) by (apply sqrt_sqrt; lra).
  unfold moment, gauss2, simpson, product_rule. cbn [nodes weight X]. cbn -[sqrt Rinv Rdiv pow]. set (g := sqrt (/ 3)) in *.
  assert (Z : (0:R) = g * g - / 3) by lra.
  assert (E0 : forall k, (k <= 3)%nat -> g ^ k + (- g) ^ k = / 3 * (-1) ^ k + 4 / 3 * 0 ^ k + / 3 * 1 ^ k).
  { intros k Hk. destruct k as [|[|[|[|k]]]]; try lia; cbn [pow]; try lra. }
  pose proof (E0 i Hi) as Ei. pose proof (E0 j Hj) as Ej.
  transitivity ((g ^ i + (- g) ^ i) * (g ^ j + (- g) ^ j)); [ring|]. rewrite Ei, Ej. ring.
Qed.

(** ** contents of keys, degrees, and the classes whose dictionaries are emptied *)
Lemma key_contents o e e' k : key_of o e = Some (Some k) -> key_of o e' = Some (Some k) ->
  sig e = sig e' /\ sig e <> Obj /\ (etype e = Quad9 <-> etype e' = Quad9) /\ (etype e = Quad9 -> rev_outer e = rev_outer e' /\ rev_inner e = rev_inner e').
Proof.
  unfold key_of. destruct (etype e), (etype e'), (sig e), (sig e'); try destruct (curv_hexa_ok o); intros H H'; try discriminate H; try discriminate H'; injection H as <-; injection H' as H'; subst;
    try discriminate H'; (split; [congruence|]); (split; [discriminate|]); (split; [split; congruence|]); intros E; try discriminate E; split; congruence.
Qed.
Lemma largest_num o d p : deg_num o d = Some p -> largest d p.
Proof.
  destruct d as [n|l]; cbn; [congruence|]. destruct (tuples_ok o); [|discriminate]. destruct l as [|x l]; [discriminate|]. intros H. assert (list_max (x :: l) = p) as <- by congruence.
  split; [|apply Forall_forall; apply list_max_le; lia]. clear H. generalize (x :: l) (fun H : x :: l = [] => eq_ind (x :: l) (fun l => match l with [] => False | _ => True end) I [] H).
  clear. induction l as [|x l IH]; intros N; [now elim N|]. destruct l as [|y l]; [cbn; left; lia|].
  change (list_max (x :: y :: l)) with (Nat.max x (list_max (y :: l))). destruct (Nat.max_spec x (list_max (y :: l))) as [[_ ->]|[_ ->]]; [right; apply IH; discriminate|left; reflexivity].
Qed.
Lemma largest_unique d p q : largest d p -> largest d q -> p = q.
Proof. destruct d as [n|l]; cbn; [congruence|]. intros [A B] [A' B']. specialize (B q A'). specialize (B' p A). lia. Qed.
Lemma degree_value o a b c q : quad_degree o a b c = Some q ->
  exists p, (exists d, In d [a; b; c] /\ largest d p) /\ (forall d p', In d [a; b; c] -> largest d p' -> (p' <= p)%nat) /\ q = (3 * p / 2 + 1)%nat.
Proof.
  unfold quad_degree. destruct (deg_num o a) as [x|] eqn:A; [|discriminate]. destruct (deg_num o b) as [y|] eqn:B; [|discriminate]. destruct (deg_num o c) as [z|] eqn:C; [|discriminate].
  intros H. exists (Nat.max (Nat.max x y) z). apply largest_num in A, B, C. split; [|split].
  - destruct (Nat.max_spec (Nat.max x y) z) as [[_ ->]|[_ ->]]; [exists c; cbn; auto|]. destruct (Nat.max_spec x y) as [[_ ->]|[_ ->]]; [exists b|exists a]; cbn; auto.
  - intros d p' [<-|[<-|[<-|[]]]] L; [rewrite (largest_unique _ _ _ L A)|rewrite (largest_unique _ _ _ L B)|rewrite (largest_unique _ _ _ L C)]; lia.
  - congruence.
Qed.
Lemma cleaned_iff o : cleaned o = true <-> o = AxB_C \/ o = AxB_dpC \/ o = AxB_dC.
Proof. destruct o; cbn; intuition congruence. Qed.
Lemma cleaned_three {D} (truth : op -> nat -> list (nat * deg) -> D) evs out :
  run truth evs start = Some out -> Forall (fun x => In (fst (fst (fst x))) [AxB_C; AxB_dpC; AxB_dC] -> right_array truth x) out.
Proof.
  intros H. generalize (cleaned_is_right truth evs start out (fine_start truth) H). apply Forall_impl. intros x F C. apply F. apply cleaned_iff. cbn in C. intuition.
Qed.
Lemma stale_others o : ~ In o [AxB_C; AxB_dpC; AxB_dC] ->
  exists (D : Type) (truth : op -> nat -> list (nat * deg) -> D) evs g ss T,
    run truth evs start = Some [(o, 1%nat, ss, truth o 1%nat ss); (o, g, ss, T)] /\ length ss = 3%nat /\ T = truth o 1%nat ss /\ T <> truth o g ss.
Proof. intros N. apply stale_data. apply not_true_is_false. rewrite cleaned_iff. cbn in N. intuition. Qed.
