(** Proofs about tensor products of one-dimensional bases. *)
From Coq Require Import List Arith Reals Lia Lra.
From Coquelicot Require Import Coquelicot.
From Verif Require Import PolyModel PolySpec PolyProofs PolyCalc.
Import ListNotations.
Local Open Scope R_scope.

Notation fam := (nat -> R -> R).
Definition T2 n1 (b1 : fam) n2 (b2 : fam) (c : nat -> nat -> R) (x y : R) : R :=
  total n1 (fun i => total n2 (fun j => c i j * (b1 i x * b2 j y))).
Definition T3 n1 (b1 : fam) n2 (b2 : fam) n3 (b3 : fam) (c : nat -> nat -> nat -> R) (x y z : R) : R :=
  total n1 (fun i => total n2 (fun j => total n3 (fun k => c i j k * (b1 i x * b2 j y * b3 k z)))).

Lemma T2_x n1 b1 n2 b2 c x y : T2 n1 b1 n2 b2 c x y = combine_basis n1 b1 (fun i => combine_basis n2 b2 (c i) y) x.
Proof.
  unfold T2, combine_basis. apply total_ext. intros i _. rewrite <- total_scal_r. apply total_ext. intros j _. ring.
Qed.
Lemma T2_y n1 b1 n2 b2 c x y : T2 n1 b1 n2 b2 c x y = combine_basis n2 b2 (fun j => combine_basis n1 b1 (fun i => c i j) x) y.
Proof.
  unfold T2, combine_basis. rewrite total_swap. apply total_ext. intros i _. rewrite <- total_scal_r. apply total_ext. intros j _. ring.
Qed.
Lemma T3_x n1 b1 n2 b2 n3 b3 c x y z : T3 n1 b1 n2 b2 n3 b3 c x y z = combine_basis n1 b1 (fun i => T2 n2 b2 n3 b3 (c i) y z) x.
Proof.
  unfold T3, T2, combine_basis. apply total_ext. intros i _. rewrite <- total_scal_r. apply total_ext. intros j _.
  rewrite <- total_scal_r. apply total_ext. intros k _. ring.
Qed.
Lemma T3_y n1 b1 n2 b2 n3 b3 c x y z : T3 n1 b1 n2 b2 n3 b3 c x y z = combine_basis n2 b2 (fun j => T2 n1 b1 n3 b3 (fun i k => c i j k) x z) y.
Proof.
  unfold T3, T2, combine_basis. rewrite total_swap. apply total_ext. intros j _. rewrite <- total_scal_r. apply total_ext. intros i _.
  rewrite <- total_scal_r. apply total_ext. intros k _. ring.
Qed.
Lemma T3_z n1 b1 n2 b2 n3 b3 c x y z : T3 n1 b1 n2 b2 n3 b3 c x y z = combine_basis n3 b3 (fun k => T2 n1 b1 n2 b2 (fun i j => c i j k) x y) z.
Proof.
  unfold T3, T2, combine_basis.
  rewrite (total_ext n1 _ (fun i => total n3 (fun k => total n2 (fun j => c i j k * (b1 i x * b2 j y * b3 k z))))) by (intros; apply total_swap).
  rewrite total_swap. apply total_ext. intros k _. rewrite <- total_scal_r. apply total_ext. intros i _.
  rewrite <- total_scal_r. apply total_ext. intros j _. ring.
Qed.
Lemma comb_ext n b c d x : (forall i, (i < n)%nat -> c i = d i) -> combine_basis n b c x = combine_basis n b d x.
Proof. intros H. unfold combine_basis. apply total_ext. intros i Hi. rewrite H by assumption. reflexivity. Qed.
Lemma T2_ext n1 b1 n2 b2 c d x y : (forall i j, (i < n1)%nat -> (j < n2)%nat -> c i j = d i j) -> T2 n1 b1 n2 b2 c x y = T2 n1 b1 n2 b2 d x y.
Proof. intros H. unfold T2. apply total_ext. intros i Hi. apply total_ext. intros j Hj. rewrite H by assumption. reflexivity. Qed.
Lemma T3_ext n1 b1 n2 b2 n3 b3 c d x y z : (forall i j k, (i < n1)%nat -> (j < n2)%nat -> (k < n3)%nat -> c i j k = d i j k) ->
  T3 n1 b1 n2 b2 n3 b3 c x y z = T3 n1 b1 n2 b2 n3 b3 d x y z.
Proof.
  intros H. unfold T3. apply total_ext. intros i Hi. apply total_ext. intros j Hj. apply total_ext. intros k Hk. rewrite H by assumption. reflexivity.
Qed.
Lemma comb_minus n b c d x : combine_basis n b c x - combine_basis n b d x = combine_basis n b (fun i => c i - d i) x.
Proof. unfold combine_basis. rewrite <- total_minus. apply total_ext. intros. ring. Qed.
Lemma comb_plus n b c d x : combine_basis n b c x + combine_basis n b d x = combine_basis n b (fun i => c i + d i) x.
Proof. unfold combine_basis. rewrite <- total_plus. apply total_ext. intros. ring. Qed.
Lemma comb_opp n b c x : - combine_basis n b c x = combine_basis n b (fun i => - c i) x.
Proof. unfold combine_basis. rewrite <- total_opp. apply total_ext. intros. ring. Qed.
Lemma T2_minus n1 b1 n2 b2 c d x y : T2 n1 b1 n2 b2 c x y - T2 n1 b1 n2 b2 d x y = T2 n1 b1 n2 b2 (fun i j => c i j - d i j) x y.
Proof. rewrite !T2_x, comb_minus. apply comb_ext. intros. apply comb_minus. Qed.
Lemma T2_plus n1 b1 n2 b2 c d x y : T2 n1 b1 n2 b2 c x y + T2 n1 b1 n2 b2 d x y = T2 n1 b1 n2 b2 (fun i j => c i j + d i j) x y.
Proof. rewrite !T2_x, comb_plus. apply comb_ext. intros. apply comb_plus. Qed.
Lemma T2_opp n1 b1 n2 b2 c x y : - T2 n1 b1 n2 b2 c x y = T2 n1 b1 n2 b2 (fun i j => - c i j) x y.
Proof. rewrite !T2_x, comb_opp. apply comb_ext. intros. apply comb_opp. Qed.
Lemma T3_minus n1 b1 n2 b2 n3 b3 c d x y z : T3 n1 b1 n2 b2 n3 b3 c x y z - T3 n1 b1 n2 b2 n3 b3 d x y z = T3 n1 b1 n2 b2 n3 b3 (fun i j k => c i j k - d i j k) x y z.
Proof. rewrite !T3_x, comb_minus. apply comb_ext. intros. apply T2_minus. Qed.
Lemma T3_plus n1 b1 n2 b2 n3 b3 c d x y z : T3 n1 b1 n2 b2 n3 b3 c x y z + T3 n1 b1 n2 b2 n3 b3 d x y z = T3 n1 b1 n2 b2 n3 b3 (fun i j k => c i j k + d i j k) x y z.
Proof. rewrite !T3_x, comb_plus. apply comb_ext. intros. apply T2_plus. Qed.

(** ** partial derivatives *)
Section Axis.
Variable s : list R.
Hypothesis Hs : increasing s.
Hypothesis Ls : (1 <= length s)%nat.
Notation n := (length s).
Notation p := (degree s).

Lemma D2_x n2 b2 c x y : is_derive (fun x => T2 n (lagrange s) n2 b2 c x y) x (T2 p (edge s) n2 b2 (fun i j => c (S i) j - c i j) x y).
Proof.
  eapply is_derive_ext; [intros; symmetry; apply T2_x|]. rewrite T2_x.
  eapply is_derive_eq; [apply nodal_reconstruction_derive; assumption|]. apply comb_ext. intros. apply comb_minus.
Qed.
Lemma D2_y n1 b1 c x y : is_derive (fun y => T2 n1 b1 n (lagrange s) c x y) y (T2 n1 b1 p (edge s) (fun i j => c i (S j) - c i j) x y).
Proof.
  eapply is_derive_ext; [intros; symmetry; apply T2_y|]. rewrite T2_y.
  eapply is_derive_eq; [apply nodal_reconstruction_derive; assumption|]. apply comb_ext. intros. apply comb_minus.
Qed.
Lemma D3_x n2 b2 n3 b3 c x y z : is_derive (fun x => T3 n (lagrange s) n2 b2 n3 b3 c x y z) x (T3 p (edge s) n2 b2 n3 b3 (fun i j k => c (S i) j k - c i j k) x y z).
Proof.
  eapply is_derive_ext; [intros; symmetry; apply T3_x|]. rewrite T3_x.
  eapply is_derive_eq; [apply nodal_reconstruction_derive; assumption|]. apply comb_ext. intros. apply T2_minus.
Qed.
Lemma D3_y n1 b1 n3 b3 c x y z : is_derive (fun y => T3 n1 b1 n (lagrange s) n3 b3 c x y z) y (T3 n1 b1 p (edge s) n3 b3 (fun i j k => c i (S j) k - c i j k) x y z).
Proof.
  eapply is_derive_ext; [intros; symmetry; apply T3_y|]. rewrite T3_y.
  eapply is_derive_eq; [apply nodal_reconstruction_derive; assumption|]. apply comb_ext. intros. apply T2_minus.
Qed.
Lemma D3_z n1 b1 n2 b2 c x y z : is_derive (fun z => T3 n1 b1 n2 b2 n (lagrange s) c x y z) z (T3 n1 b1 n2 b2 p (edge s) (fun i j k => c i j (S k) - c i j k) x y z).
Proof.
  eapply is_derive_ext; [intros; symmetry; apply T3_z|]. rewrite T3_z.
  eapply is_derive_eq; [apply nodal_reconstruction_derive; assumption|]. apply comb_ext. intros. apply T2_minus.
Qed.

(** ** degrees of freedom along one axis: values at nodes, integrals between nodes *)
Lemma N_x n2 b2 c i y : (i < n)%nat -> T2 n (lagrange s) n2 b2 c (node s i) y = combine_basis n2 b2 (c i) y.
Proof. intros H. rewrite T2_x. apply nodal_values; assumption. Qed.
Lemma N_y n1 b1 c j x : (j < n)%nat -> T2 n1 b1 n (lagrange s) c x (node s j) = combine_basis n1 b1 (fun i => c i j) x.
Proof. intros H. rewrite T2_y. apply nodal_values; assumption. Qed.
Lemma N3_x n2 b2 n3 b3 c i y z : (i < n)%nat -> T3 n (lagrange s) n2 b2 n3 b3 c (node s i) y z = T2 n2 b2 n3 b3 (c i) y z.
Proof. intros H. rewrite T3_x. apply (nodal_values s (fun i => T2 n2 b2 n3 b3 (c i) y z)); assumption. Qed.
Lemma N3_y n1 b1 n3 b3 c j x z : (j < n)%nat -> T3 n1 b1 n (lagrange s) n3 b3 c x (node s j) z = T2 n1 b1 n3 b3 (fun i k => c i j k) x z.
Proof. intros H. rewrite T3_y. apply (nodal_values s (fun j => T2 n1 b1 n3 b3 (fun i k => c i j k) x z)); assumption. Qed.
Lemma N3_z n1 b1 n2 b2 c k x y : (k < n)%nat -> T3 n1 b1 n2 b2 n (lagrange s) c x y (node s k) = T2 n1 b1 n2 b2 (fun i j => c i j k) x y.
Proof. intros H. rewrite T3_z. apply (nodal_values s (fun k => T2 n1 b1 n2 b2 (fun i j => c i j k) x y)); assumption. Qed.

Lemma is_RInt_eq_fun (f g : R -> R) a b l : (forall x, f x = g x) -> is_RInt g a b l -> is_RInt f a b l.
Proof. intros H. apply is_RInt_ext. intros. symmetry. apply H. Qed.
Lemma I_1 c k : (k < p)%nat -> is_RInt (combine_basis p (edge s) c) (node s k) (node s (S k)) (c k).
Proof. intros. apply edge_reduction; assumption. Qed.
Lemma I2_x n2 b2 c i y : (i < p)%nat -> is_RInt (fun x => T2 p (edge s) n2 b2 c x y) (node s i) (node s (S i)) (combine_basis n2 b2 (c i) y).
Proof.
  intros H. eapply is_RInt_eq_fun; [intros; apply T2_x|]. apply (I_1 (fun i => combine_basis n2 b2 (c i) y)). assumption.
Qed.
Lemma I2_y n1 b1 c j x : (j < p)%nat -> is_RInt (fun y => T2 n1 b1 p (edge s) c x y) (node s j) (node s (S j)) (combine_basis n1 b1 (fun i => c i j) x).
Proof.
  intros H. eapply is_RInt_eq_fun; [intros; apply T2_y|]. apply (I_1 (fun j => combine_basis n1 b1 (fun i => c i j) x)). assumption.
Qed.
Lemma I3_x n2 b2 n3 b3 c i y z : (i < p)%nat -> is_RInt (fun x => T3 p (edge s) n2 b2 n3 b3 c x y z) (node s i) (node s (S i)) (T2 n2 b2 n3 b3 (c i) y z).
Proof.
  intros H. eapply is_RInt_eq_fun; [intros; apply T3_x|]. apply (I_1 (fun i => T2 n2 b2 n3 b3 (c i) y z)). assumption.
Qed.
Lemma I3_y n1 b1 n3 b3 c j x z : (j < p)%nat -> is_RInt (fun y => T3 n1 b1 p (edge s) n3 b3 c x y z) (node s j) (node s (S j)) (T2 n1 b1 n3 b3 (fun i k => c i j k) x z).
Proof.
  intros H. eapply is_RInt_eq_fun; [intros; apply T3_y|]. apply (I_1 (fun j => T2 n1 b1 n3 b3 (fun i k => c i j k) x z)). assumption.
Qed.
Lemma I3_z n1 b1 n2 b2 c k x y : (k < p)%nat -> is_RInt (fun z => T3 n1 b1 n2 b2 p (edge s) c x y z) (node s k) (node s (S k)) (T2 n1 b1 n2 b2 (fun i j => c i j k) x y).
Proof.
  intros H. eapply is_RInt_eq_fun; [intros; apply T3_z|]. apply (I_1 (fun k => T2 n1 b1 n2 b2 (fun i j => c i j k) x y)). assumption.
Qed.
End Axis.
