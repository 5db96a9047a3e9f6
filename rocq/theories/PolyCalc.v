(** Proofs about the one-dimensional basis polynomials: derivatives and integrals. *)
From Coq Require Import List Arith Reals Bool Lia Lra Psatz.
From Coquelicot Require Import Coquelicot.
From Verif Require Import PolyModel PolySpec PolyProofs.
Import ListNotations.
Local Open Scope R_scope.

Lemma is_derive_total n f g x : (forall i, (i < n)%nat -> is_derive (f i) x (g i)) ->
  is_derive (fun y => total n (fun i => f i y)) x (total n g).
Proof.
  induction n as [|n IH]; intros H; cbn [total]; [apply (is_derive_const 0)|].
  apply (is_derive_plus (fun y => total n (fun i => f i y)) (f n)); [apply IH; intros; apply H; lia|apply H; lia].
Qed.
Lemma is_derive_scal_R (f : R -> R) a x l : is_derive f x l -> is_derive (fun y => a * f y) x (a * l).
Proof. intros H. apply (is_derive_scal f x a l H). Qed.
Lemma is_derive_scal_r (f : R -> R) a x l : is_derive f x l -> is_derive (fun y => f y * a) x (l * a).
Proof.
  intros H. apply (is_derive_ext (fun y => a * f y)); [intros; apply Rmult_comm|]. rewrite (Rmult_comm l a). apply is_derive_scal_R, H.
Qed.
Lemma is_derive_eq (f : R -> R) (x l l' : R) : is_derive f x l -> l = l' -> is_derive f x l'.
Proof. intros H <-. exact H. Qed.
Lemma is_derive_unique_R (f : R -> R) (x l l' : R) : is_derive f x l -> is_derive f x l' -> l = l'.
Proof. intros H H'. rewrite <- (is_derive_unique _ _ _ H). apply is_derive_unique, H'. Qed.

(** * derivatives of polynomials *)
Fixpoint dpoly (c : list R) : list R :=
  match c with [] => [] | _ :: [] => [] | _ :: r => padd r (0 :: dpoly r) end.
Lemma dpoly_length c : length (dpoly c) = (length c - 1)%nat.
Proof.
  induction c as [|a [|b r] IH]; [reflexivity|reflexivity|].
  change (dpoly (a :: b :: r)) with (padd (b :: r) (0 :: dpoly (b :: r))). rewrite padd_length. cbn [length] in *. rewrite IH. lia.
Qed.
Lemma is_derive_poly c x : is_derive (poly c) x (poly (dpoly c) x).
Proof.
  induction c as [|a r IH]; [apply (is_derive_const 0)|]. cbn [poly].
  eapply is_derive_eq.
  - apply (is_derive_plus (fun _ => a) (fun x => x * poly r x)); [apply (is_derive_const a)|].
    apply (is_derive_mult (fun x => x) (poly r) x); [apply (is_derive_id x)|exact IH|intros; apply Rmult_comm].
  - unfold plus, zero, mult, one. cbn. destruct r as [|b r]; [cbn; ring|].
    change (dpoly (a :: b :: r)) with (padd (b :: r) (0 :: dpoly (b :: r))). rewrite poly_padd. cbn [poly]. ring.
Qed.
Lemma ps_derive n f : poly_of_size n f -> exists g, poly_of_size (n - 1) g /\ forall x, is_derive f x (g x).
Proof.
  intros (c & Hc & E). exists (poly (dpoly c)). split.
  - exists (dpoly c). rewrite dpoly_length. split; [lia|reflexivity].
  - intros x. apply (is_derive_ext (poly c)); [intros; symmetry; apply E|apply is_derive_poly].
Qed.

(** * derivatives of the nodal basis at the nodes *)
Lemma ex_derive_product n f x : (forall i, (i < n)%nat -> ex_derive (f i) x) -> ex_derive (fun y => product n (fun i => f i y)) x.
Proof.
  induction n as [|n IH]; intros H; cbn [product]; [apply (ex_derive_const 1)|].
  apply (ex_derive_mult (fun y => product n (fun i => f i y)) (f n)); [apply IH; intros; apply H; lia|apply H; lia].
Qed.
Lemma ex_derive_lfactor xs i j x : ex_derive (fun y => lfactor xs i y j) x.
Proof.
  unfold lfactor. destruct (Nat.eqb i j); [apply (ex_derive_const 1)|]. auto_derive. exact I.
Qed.

Section Nodal.
Variable xs : list R.
Hypothesis Hinc : increasing xs.
Hypothesis Hlen : (1 <= length xs)%nat.
Let n := length xs.
Let p := degree xs.
Lemma p_1 : (p + 1 = length xs)%nat. Proof. unfold p, degree. lia. Qed.

Lemma offdiagonal_derivative a b : (a < n)%nat -> (b < n)%nat -> a <> b ->
  is_derive (lagrange xs b) (node xs a) (offdiagonal p xs a b).
Proof.
  intros Ha Hb Hab. unfold n in *.
  pose (G := fun x => product (length xs) (fun j => if Nat.eqb j a then 1 else lfactor xs b x j)).
  assert (EG : ex_derive G (node xs a)).
  { apply (ex_derive_product (length xs) (fun j x => if Nat.eqb j a then 1 else lfactor xs b x j)). intros j Hj.
    destruct (Nat.eqb j a); [apply (ex_derive_const 1)|apply ex_derive_lfactor]. }
  destruct EG as [dG HG].
  apply (is_derive_ext (fun x => (x - node xs a) / (node xs b - node xs a) * G x)).
  { intros x. rewrite lagrange_product, (product_out _ _ a Ha). rewrite lfactor_neq by lia. reflexivity. }
  eapply is_derive_eq.
  - apply (is_derive_mult (fun x => (x - node xs a) / (node xs b - node xs a)) G (node xs a) (1 / (node xs b - node xs a)) dG);
      [|exact HG|intros; apply Rmult_comm].
    auto_derive; [exact I|]. unfold Rdiv. ring.
  - unfold plus, mult. cbn.
    pose (A := product (length xs) (fun j => if Nat.eqb j b then 1 else xi_xj xs a j)).
    pose (B := product (length xs) (fun j => if Nat.eqb j a then 1 else xi_xj xs b j)).
    assert (HX : forall i j, (i < length xs)%nat -> (j < length xs)%nat -> xi_xj xs i j <> 0).
    { intros i j Hi Hj. unfold xi_xj. destruct (Nat.eqb_spec i j); [lra|]. apply increasing_neq; assumption. }
    assert (HB : B <> 0). { apply product_neq_0. intros i Hi. destruct (Nat.eqb i a); [lra|]. apply HX; assumption. }
    assert (EGA : G (node xs a) = A / B).
    { unfold G, A, B. rewrite <- product_div.
      - apply product_ext. intros j Hj. unfold lfactor, xi_xj. rewrite (Nat.eqb_sym b j), (Nat.eqb_sym a j).
        destruct (Nat.eqb_spec j a) as [Ea|Ea], (Nat.eqb_spec j b) as [Eb|Eb]; try (exfalso; lia); lra.
      - intros i Hi. destruct (Nat.eqb i a); [lra|apply HX; assumption]. }
    assert (Eca : c_i p xs a = (node xs a - node xs b) * A).
    { unfold c_i. rewrite np_prod_product, p_1, (product_out _ _ b Hb). f_equal. unfold xi_xj. destruct (Nat.eqb_spec a b); [lia|reflexivity]. }
    assert (Ecb : c_i p xs b = (node xs b - node xs a) * B).
    { unfold c_i. rewrite np_prod_product, p_1, (product_out _ _ a Ha). f_equal. unfold xi_xj. destruct (Nat.eqb_spec b a); [lia|reflexivity]. }
    unfold offdiagonal, c_i_div_cj, transpose. rewrite Eca, Ecb, EGA. unfold xi_xj. destruct (Nat.eqb_spec a b); [lia|].
    assert (N : node xs a - node xs b <> 0) by (apply increasing_neq; assumption).
    assert (N' : node xs b - node xs a <> 0) by (apply increasing_neq; auto).
    field. repeat split; assumption.
Qed.

Lemma lagrange_derivable j : (j < n)%nat -> exists g, poly_of_size (length xs) g /\ forall x, is_derive (lagrange xs j) x (g x).
Proof.
  intros Hj. destruct (ps_derive _ _ (ps_lagrange xs j Hj)) as (g & Hg & D). exists g. split; [eapply ps_mono; [|exact Hg]; lia|exact D].
Qed.

Lemma nodal_derivative_at a b : (a < n)%nat -> (b < n)%nat -> is_derive (lagrange xs b) (node xs a) (nodal_derivative p xs a b).
Proof.
  intros Ha Hb. unfold nodal_derivative. destruct (Nat.eqb_spec a b) as [->|Hab].
  - destruct (lagrange_derivable b Hb) as (g & _ & D). eapply is_derive_eq; [apply D|].
    (* the derivatives of all basis functions add up to the derivative of one *)
    assert (Z : is_derive (fun y => total (length xs) (fun j => lagrange xs j y)) (node xs b) 0).
    { apply (is_derive_ext (fun _ => 1)); [intros; symmetry; apply partition_of_unity_lemma; assumption|apply (is_derive_const 1)]. }
    assert (S : is_derive (fun y => total (length xs) (fun j => lagrange xs j y)) (node xs b)
                  (total (length xs) (fun j => if Nat.eqb j b then g (node xs b) else offdiagonal p xs b j))).
    { apply (is_derive_total (length xs) (fun j y => lagrange xs j y)). intros j Hj. destruct (Nat.eqb_spec j b) as [->|Hn]; [apply D|].
      apply offdiagonal_derivative; auto. }
    assert (E := is_derive_unique_R _ _ _ _ Z S).
    rewrite np_sum_total, p_1.
    assert (F : total (length xs) (fun j => if Nat.eqb j b then g (node xs b) else offdiagonal p xs b j)
                = total (length xs) (fun j => offdiagonal p xs b j) + g (node xs b)).
    { transitivity (total (length xs) (fun j => offdiagonal p xs b j) + total (length xs) (fun i => g (node xs b) * kronecker i b));
        [|rewrite (total_kronecker (length xs) (fun _ => g (node xs b)) b Hb); reflexivity]. rewrite <- total_plus.
      apply total_ext. intros j Hj. unfold kronecker, offdiagonal. rewrite (Nat.eqb_sym b j).
      destruct (Nat.eqb_spec j b) as [->|]; ring. }
    lra.
  - apply offdiagonal_derivative; assumption.
Qed.

Lemma derivative_poly_derive j x : (j < n)%nat -> is_derive (lagrange xs j) x (derivative_poly p xs j x).
Proof.
  intros Hj. destruct (lagrange_derivable j Hj) as (g & Hg & D). eapply is_derive_eq; [apply D|].
  unfold derivative_poly, transpose. rewrite np_sum_total, p_1, <- (interpolate xs g Hinc Hg x). unfold combine_basis.
  apply total_ext. intros k Hk. f_equal. apply (is_derive_unique_R (lagrange xs j) (node xs k)); [apply D|].
  apply nodal_derivative_at; assumption.
Qed.

Lemma derivatives_sum x : total (length xs) (fun j => derivative_poly p xs j x) = 0.
Proof.
  apply (is_derive_unique_R (fun y => total (length xs) (fun j => lagrange xs j y)) x).
  - apply (is_derive_total (length xs) (fun j y => lagrange xs j y)). intros j Hj. apply derivative_poly_derive, Hj.
  - apply (is_derive_ext (fun _ => 1)); [intros; symmetry; apply partition_of_unity_lemma; assumption|apply (is_derive_const 1)].
Qed.

(** * edge polynomials *)
Lemma edge_total i x : edge xs i x = - total (S i) (fun j => derivative_poly p xs j x).
Proof. unfold edge. rewrite Nat.add_1_r. apply (fold_minus (S i) (fun j => derivative_poly p xs j x)). Qed.

(** minus the sum of the first nodal polynomials is a primitive of the edge polynomial *)
Definition primitive (i : nat) (x : R) : R := - total (S i) (fun j => lagrange xs j x).
Lemma primitive_derive i x : (i < p)%nat -> is_derive (primitive i) x (edge xs i x).
Proof.
  intros Hi. rewrite edge_total. apply (is_derive_opp (fun x => total (S i) (fun j => lagrange xs j x))).
  apply (is_derive_total (S i) (fun j y => lagrange xs j y)). intros j Hj. apply derivative_poly_derive.
  unfold n. pose proof p_1. lia.
Qed.
Lemma primitive_node i k : (i < p)%nat -> (k < n)%nat -> primitive i (node xs k) = if (k <=? i)%nat then -1 else 0.
Proof.
  intros Hi Hk. pose proof p_1. unfold primitive, n in *.
  rewrite (total_ext _ _ (fun j => 1 * kronecker j k)) by (intros j Hj; rewrite lagrange_node by (assumption || lia); lra).
  destruct (Nat.leb_spec k i).
  - rewrite (total_kronecker (S i) (fun _ => 1)) by lia. lra.
  - rewrite total_0; [lra|]. intros j Hj. unfold kronecker. destruct (Nat.eqb_spec j k); [lia|lra].
Qed.
Lemma ps_edge i : (i < p)%nat -> poly_of_size (length xs - 1) (edge xs i).
Proof.
  intros Hi. pose proof p_1.
  assert (Q : poly_of_size (length xs) (primitive i)).
  { apply (ps_ext _ (fun x => (-1) * total (S i) (fun j => lagrange xs j x))); [intros; unfold primitive; ring|].
    apply ps_scal, ps_total. intros j Hj. apply ps_lagrange. lia. }
  destruct (ps_derive _ _ Q) as (g & Hg & D). apply (ps_ext _ g); [|exact Hg].
  intros x. eapply is_derive_unique_R; [apply D|apply primitive_derive, Hi].
Qed.
Lemma edge_continuous i x : (i < p)%nat -> continuous (edge xs i) x.
Proof.
  intros Hi. destruct (ps_derive _ _ (ps_edge i Hi)) as (g & _ & D). apply (ex_derive_continuous (edge xs i)). exists (g x). apply D.
Qed.

Lemma edge_integral_any i a b : (i < p)%nat -> is_RInt (edge xs i) a b (primitive i b - primitive i a).
Proof.
  intros Hi. apply (is_RInt_derive (primitive i) (edge xs i)); intros x _; [apply primitive_derive, Hi|apply edge_continuous, Hi].
Qed.
Lemma edge_integral i k : (i < p)%nat -> (k < p)%nat -> is_RInt (edge xs i) (node xs k) (node xs (S k)) (kronecker i k).
Proof.
  intros Hi Hk. pose proof p_1. assert (E := edge_integral_any i (node xs k) (node xs (S k)) Hi).
  rewrite !primitive_node in E by (unfold n; lia).
  replace (kronecker i k) with ((if (S k <=? i)%nat then -1 else 0) - (if (k <=? i)%nat then -1 else 0)); [exact E|].
  unfold kronecker. destruct (Nat.leb_spec (S k) i), (Nat.leb_spec k i), (Nat.eqb_spec i k); try lia; lra.
Qed.

(** derivative of the nodal reconstruction *)
Lemma abel m (c d : nat -> R) : total (S m) (fun j => c j * d j)
  = c m * total (S m) d - total m (fun i => (c (S i) - c i) * total (S i) d).
Proof.
  induction m as [|m IH]; [cbn; lra|].
  change (total (S (S m)) (fun j => c j * d j)) with (total (S m) (fun j => c j * d j) + c (S m) * d (S m)).
  change (total (S (S m)) d) with (total (S m) d + d (S m)).
  change (total (S m) (fun i => (c (S i) - c i) * total (S i) d)) with (total m (fun i => (c (S i) - c i) * total (S i) d) + (c (S m) - c m) * total (S m) d).
  rewrite IH. ring.
Qed.
Lemma nodal_reconstruction_derive c x :
  is_derive (combine_basis (length xs) (lagrange xs) c) x (combine_basis p (edge xs) (fun i => c (S i) - c i) x).
Proof.
  assert (P := p_1).
  eapply is_derive_eq.
  - apply (is_derive_total (length xs) (fun j y => c j * lagrange xs j y) (fun j => c j * derivative_poly p xs j x)).
    intros j Hj. apply is_derive_scal_R, derivative_poly_derive, Hj.
  - replace (length xs) with (S p) at 1 by lia. rewrite abel.
    replace (S p) with (length xs) by lia. rewrite derivatives_sum. unfold combine_basis.
    rewrite Rmult_0_r, Rminus_0_l, <- total_opp. apply total_ext. intros i _. rewrite edge_total. ring.
Qed.

(** * edge reconstruction: reduction, exactness, uniqueness *)
Lemma is_RInt_total m f a b l : (forall i, (i < m)%nat -> is_RInt (f i) a b (l i)) ->
  is_RInt (fun x => total m (fun i => f i x)) a b (total m l).
Proof.
  induction m as [|m IH]; intros H; cbn [total].
  - assert (E := is_RInt_const a b (0:R)). unfold scal in E. cbn in E. unfold mult in E. cbn in E. rewrite Rmult_0_r in E. exact E.
  - apply (is_RInt_plus (fun x => total m (fun i => f i x)) (f m)); [apply IH; intros; apply H; lia|apply H; lia].
Qed.
Lemma edge_reduction c k : (k < p)%nat -> is_RInt (combine_basis p (edge xs) c) (node xs k) (node xs (S k)) (c k).
Proof.
  intros Hk. rewrite <- (total_kronecker p c k Hk). unfold combine_basis.
  apply (is_RInt_total p (fun i x => c i * edge xs i x)). intros i Hi. apply (is_RInt_scal (edge xs i)). apply edge_integral; assumption.
Qed.

Lemma RInt_unique_R (f : R -> R) (a b l l' : R) : is_RInt f a b l -> is_RInt f a b l' -> l = l'.
Proof. intros H H'. rewrite <- (is_RInt_unique _ _ _ _ H). apply is_RInt_unique, H'. Qed.
Lemma edge_unique c d : (forall x, combine_basis p (edge xs) c x = combine_basis p (edge xs) d x) -> forall k, (k < p)%nat -> c k = d k.
Proof.
  intros E k Hk. apply (RInt_unique_R (combine_basis p (edge xs) c) (node xs k) (node xs (S k))); [apply edge_reduction, Hk|].
  apply (is_RInt_ext (combine_basis p (edge xs) d)); [intros; symmetry; apply E|]. apply edge_reduction, Hk.
Qed.

(** every polynomial of degree < p has a polynomial primitive of degree <= p *)
Fixpoint ipoly_from (m : nat) (c : list R) : list R :=
  match c with [] => [] | a :: r => a / INR (S m) :: ipoly_from (S m) r end.
Lemma ipoly_length m c : length (ipoly_from m c) = length c.
Proof. revert m. induction c as [|a r IH]; intros m; cbn; [reflexivity|]. rewrite IH. reflexivity. Qed.
(** x^(m+1) (a/(m+1) + x b/(m+2) + ...) has derivative x^m (a + x b + ...) *)
Lemma ipoly_derive m c x : is_derive (fun y => y ^ (S m) * poly (ipoly_from m c) y) x (x ^ m * poly c x).
Proof.
  revert m. induction c as [|a r IH]; intros m.
  - apply (is_derive_ext (fun _ => 0)); [intros; cbn; ring|]. cbn [poly]. rewrite Rmult_0_r. apply (is_derive_const 0).
  - cbn [ipoly_from poly].
    assert (HM : INR (S m) <> 0) by (apply not_0_INR; lia).
    apply (is_derive_ext (fun y => a / INR (S m) * y ^ S m + y ^ S (S m) * poly (ipoly_from (S m) r) y)).
    { intros y. cbn [pow]. match goal with |- ?l = ?r => change (@eq R l r) end. ring. }
    eapply is_derive_eq.
    + apply (is_derive_plus (fun y => a / INR (S m) * y ^ S m) (fun y => y ^ S (S m) * poly (ipoly_from (S m) r) y)); [|apply IH].
      apply is_derive_scal_R. apply (is_derive_pow (fun y => y) (S m) x 1). apply (is_derive_id x).
    + unfold plus. cbn [AbelianGroup.sort]. cbn -[INR pow]. cbn [pow]. field. exact HM.
Qed.
Lemma ps_primitive m f : poly_of_size m f -> exists F, poly_of_size (S m) F /\ forall x, is_derive F x (f x).
Proof.
  intros (c & Hc & E). exists (fun y => y * poly (ipoly_from 0 c) y). split.
  - exists (0 :: ipoly_from 0 c). cbn. rewrite ipoly_length. split; [lia|]. intros x. ring.
  - intros x. rewrite E. apply (is_derive_ext (fun y => y ^ 1 * poly (ipoly_from 0 c) y)); [intros; rewrite pow_1; reflexivity|].
    eapply is_derive_eq; [apply ipoly_derive|]. cbn [pow]. ring.
Qed.
Lemma edge_exact f : poly_of_size (length xs - 1) f -> forall c, (forall k, (k < p)%nat -> is_RInt f (node xs k) (node xs (S k)) (c k)) ->
  forall x, combine_basis p (edge xs) c x = f x.
Proof.
  intros Hf c Hc x. pose proof p_1.
  destruct (ps_primitive _ _ Hf) as (F & HF & D).
  assert (CF : forall y, continuous f y).
  { intros y. destruct (ps_derive _ _ Hf) as (g & _ & Dg). apply (ex_derive_continuous f). exists (g y). apply Dg. }
  assert (C : forall k, (k < p)%nat -> c k = F (node xs (S k)) - F (node xs k)).
  { intros k Hk. apply (RInt_unique_R f (node xs k) (node xs (S k))); [apply Hc, Hk|].
    apply (is_RInt_derive F f); intros; [apply D|apply CF]. }
  apply (is_derive_unique_R F x); [|apply D].
  apply (is_derive_ext (combine_basis (length xs) (lagrange xs) (fun j => F (node xs j)))).
  { intros y. apply interpolate; [assumption|]. eapply ps_mono; [|exact HF]. lia. }
  eapply is_derive_eq; [apply nodal_reconstruction_derive|]. unfold combine_basis. apply total_ext. intros i Hi. rewrite C by assumption. reflexivity.
Qed.
End Nodal.

(** * the returned matrices *)
Lemma nth_map_seq {A} (f : nat -> A) n i d : (i < n)%nat -> nth i (map f (seq 0 n)) d = f i.
Proof. intros H. rewrite (nth_indep _ d (f 0%nat)) by (rewrite map_length, seq_length; exact H). rewrite map_nth, seq_nth by exact H. reflexivity. Qed.
Lemma nth_map_pts (f : R -> R) pts c : (c < length pts)%nat -> nth c (map f pts) 0 = f (nth c pts 0).
Proof. intros H. rewrite (nth_indep _ 0 (f 0)) by (rewrite map_length; exact H). apply map_nth. Qed.
Lemma lagrange_basis_identity xs : increasing xs -> length (lagrange_basis xs xs) = length xs /\
  forall i k, (i < length xs)%nat -> (k < length xs)%nat -> nth k (nth i (lagrange_basis xs xs) []) 0 = kronecker i k.
Proof.
  intros H. unfold lagrange_basis. rewrite map_length, seq_length. split; [reflexivity|]. intros i k Hi Hk.
  rewrite nth_map_seq, nth_map_pts by assumption. apply lagrange_node; assumption.
Qed.
(** the rows of edge_basis at nodes: derivatives of minus the sum of the first nodal polynomials *)
Lemma edge_basis_entries xs pts : increasing xs -> (1 <= length xs)%nat -> length (edge_basis xs pts) = (length xs - 1)%nat /\
  forall i c, (i < length xs - 1)%nat -> (c < length pts)%nat ->
    is_derive (fun x => - total (S i) (fun j => lagrange xs j x)) (nth c pts 0) (nth c (nth i (edge_basis xs pts) []) 0).
Proof.
  intros H L. unfold edge_basis. rewrite map_length, seq_length. split; [reflexivity|]. intros i c Hi Hc.
  rewrite nth_map_seq, nth_map_pts by assumption. apply (primitive_derive xs H L i). exact Hi.
Qed.
