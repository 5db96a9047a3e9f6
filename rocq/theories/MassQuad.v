(** * The degree chosen for mass matrices is enough *)
From Coq Require Import String List Arith Reals Lra Lia.
From Coquelicot Require Import Coquelicot.
From Verif Require Import MappingModel MappingSpec JacobianSpec JacobianModel JacobianProofs PolyModel PolySpec NdArray LocalNumberingModel IncidenceModel TensorModel TensorSpec TensorThms ReduceModel ReduceSpec ReduceProofs ReduceForms ReduceRound3 ReduceTri MassModel MassSpec MassProofs MassThms MassPos MassExact MassWrong.
Import ListNotations.
Local Open Scope R_scope.

Lemma chosen_quadrature k n ps : (forall d, 2 * (d + k + 1) = 2 * d + n)%nat ->
  Forall2 (fun d q => forall qx wx f, length wx = length qx -> exact_rule (2 * (q + 1)) qx wx -> poly_of_size (2 * d + n) f ->
    is_RInt f (-1) 1 (rule1 qx wx (fun x _ => f x))) ps (map (fun q => q + k)%nat ps).
Proof.
  intros Hk. induction ps as [|d ps IH]; constructor; [|exact IH].
  intros qx wx f L E P. rewrite Hk in E. exact (exact1 _ qx wx f L E P).
Qed.
Lemma curved_quadrature hi ps nt : snd (quad_choice false hi ps nt) = "Gauss"%string /\
  Forall2 (fun d q => forall qx wx f, length wx = length qx -> exact_rule (2 * (q + 1)) qx wx -> poly_of_size (2 * d + 6) f ->
    is_RInt f (-1) 1 (rule1 qx wx (fun x _ => f x))) ps (fst (quad_choice false hi ps nt)).
Proof. split; [reflexivity|]. apply (chosen_quadrature 2 6). intros d. lia. Qed.
Lemma linear_quadrature ps nt : snd (quad_choice true true ps nt) = "Gauss"%string /\
  Forall2 (fun d q => forall qx wx f, length wx = length qx -> exact_rule (2 * (q + 1)) qx wx -> poly_of_size (2 * d + 4) f ->
    is_RInt f (-1) 1 (rule1 qx wx (fun x _ => f x))) ps (fst (quad_choice true true ps nt)).
Proof. split; [reflexivity|]. apply (chosen_quadrature 1 4). intros d. lia. Qed.
Lemma collocated_quadrature ps nt : quad_choice true false ps nt = (ps, nt).
Proof. reflexivity. Qed.
