(** Vocabulary of the statements about arrays of terms with three forms, independent of how the code computes. *)
From Coq Require Import List Arith Bool Reals.
From Verif Require Import NlModel NlSpec TermModel.
Import ListNotations.
Local Open Scope R_scope.

(** vectors in space *)
Notation vec := (R * R * R)%type.
Definition dot3 (a b : vec) : R :=
  let '(a1, a2, a3) := a in let '(b1, b2, b3) := b in a1 * b1 + a2 * b2 + a3 * b3.
Definition cross3 (a b : vec) : vec :=
  let '(a1, a2, a3) := a in let '(b1, b2, b3) := b in (a2 * b3 - a3 * b2, a3 * b1 - a1 * b3, a1 * b2 - a2 * b1).
(** a scalar in the plane is a vector normal to it *)
Definition in_space (v : list R) : vec :=
  match v with [w] => (0, 0, w) | [x; y] => (x, y, 0) | [x; y; z] => (x, y, z) | _ => (0, 0, 0) end.
Fixpoint dot (u v : list R) : R := match u, v with x :: u, y :: v => x * y + dot u v | _, _ => 0 end.

(** the components of the field of a form with cochain [c] at node [l] *)
Definition field (n : nat) (rs : list rmat) (c : nat -> R) (l : nat) : list R := map (fun r => rsum n (fun i => r l i * c i)) rs.
(** the cochain of the exterior derivative *)
Definition d_cochain (f : fel) (c : nat -> R) : nat -> R := fun m => rsum (ndof f) (fun k => inc f m k * c k).
Definition values (d : bool) (f : fel) (c : nat -> R) (l : nat) : list R :=
  if d then field (ndof_d f) (rms_d f) (d_cochain f c) l else field (ndof f) (rms f) c l.

(** (A x B) . C, or A B . C with a scalar A *)
Definition integrand (o : op) (A B C : list R) : R :=
  if is_cross o then dot3 (cross3 (in_space A) (in_space B)) (in_space C)
  else match A with [w] => w * dot B C | _ => 0 end.
(** the term of an element by quadrature, for fields with cochains [a], [b], [c] *)
Definition term (o : op) (nq : nat) (qw : nat -> R) (e : elem) (a b c : nat -> R) : R :=
  rsum nq (fun l => qw l * detJ e l *
    integrand o (values false (eA e) a l) (values (d_of_B o) (eB e) b l) (values (d_of_C o) (eC e) c l)).
(** what the array says of the cochains *)
Definition form3 (T : nd) (a b c : nat -> R) : R := mform (shape T) (at_ T) [a; b; c].

(** number of components of the fields in the term *)
Definition ncomp (d : bool) (f : fel) : nat := if d then length (rms_d f) else length (rms f).
Definition arity (o : op) (e : elem) : nat * nat * nat :=
  (ncomp false (eA e), ncomp (d_of_B o) (eB e), ncomp (d_of_C o) (eC e)).
Definition supported (o : op) (m : nat) (k : nat * nat * nat) : Prop :=
  if is_cross o then m = 2%nat /\ (k = (1, 2, 2) \/ k = (2, 2, 1))%nat \/ m = 3%nat /\ k = (3, 3, 3)%nat
  else m = 2%nat /\ (k = (1, 2, 2) \/ k = (1, 1, 1))%nat.

(** two forms of one space *)
Definition same_space (f g : fel) : Prop := ndof f = ndof g /\ rms f = rms g.
Definition same_d_space (f g : fel) : Prop :=
  ndof f = ndof g /\ ndof_d f = ndof_d g /\ inc f = inc g /\ rms_d f = rms_d g.
(** the form d(f) *)
Definition d_form (f : fel) (n : nat) (E : rmat) (r : list rmat) : fel := mk_fel (ndof_d f) (rms_d f) n E r.
Definition with_C (e : elem) (f : fel) : elem := mk_elem (etype e) (sig e) (rev_outer e) (rev_inner e) (detJ e) (eA e) (eB e) f.
Definition with_ABC (e : elem) (f g h : fel) : elem := mk_elem (etype e) (sig e) (rev_outer e) (rev_inner e) (detJ e) f g h.

(** polynomials in several variables: coefficients and exponents *)
Fixpoint mono (x : list R) (e : list nat) : R := match x, e with t :: x, k :: e => t ^ k * mono x e | _, _ => 1 end.
Notation poly := (list (R * list nat)).
Definition peval (p : poly) (x : list R) : R := lsum p (fun t => fst t * mono x (snd t)).
Definition degree_le (m k : nat) (p : poly) : Prop :=
  forall t, In t p -> length (snd t) = m /\ forall j, In j (snd t) -> (j <= k)%nat.
(** a rule with nodes [X] and weights; two rules give the same to all monomials of degree at most [k] in each variable *)
Record qrule := mk_qrule { nodes : nat; weight : nat -> R; X : nat -> list R }.
Definition moment (r : qrule) (e : list nat) : R := rsum (nodes r) (fun l => weight r l * mono (X r l) e).
Definition agree (m k : nat) (r s : qrule) : Prop :=
  (forall l, length (X r l) = m) /\ (forall l, length (X s l) = m) /\
  forall e, length e = m -> (forall j, In j e -> (j <= k)%nat) -> moment r e = moment s e.
(** forms whose components are polynomials on the reference element; an element with a constant Jacobian *)
Record pform := mk_pform { pn : nat; ps : list (nat -> poly); pn_d : nat; pinc : rmat; ps_d : list (nat -> poly) }.
Definition at_nodes (X : nat -> list R) (ps : list (nat -> poly)) : list rmat := map (fun p => fun l i => peval (p i) (X l)) ps.
Definition fel_at (X : nat -> list R) (f : pform) : fel := mk_fel (pn f) (at_nodes X (ps f)) (pn_d f) (pinc f) (at_nodes X (ps_d f)).
Definition affine (J : R) (X : nat -> list R) (f g h : pform) : elem :=
  mk_elem Rect Obj None None (fun _ => J) (fel_at X f) (fel_at X g) (fel_at X h).
Definition pform_degree (m k : nat) (f : pform) : Prop :=
  (forall p i, In p (ps f) -> degree_le m k (p i)) /\ (forall p i, In p (ps_d f) -> degree_le m k (p i)).

(** cross products without a derivative *)
Definition cross_undiff (o : op) : Prop := o = AxB_C \/ o = AxB_dpC.

(** runs: the addresses of the renewals; all terms have three forms; an array that was made is the one of its spaces *)
Definition renewed (evs : list event) : list (list nat) :=
  flat_map (fun ev => match ev with Renew al => [al] | _ => [] end) evs.
Definition three (evs : list event) : Prop := forall o ss, In (Term o ss) evs -> length ss = 3%nat.
Definition right_array {D} (truth : op -> nat -> list (nat * deg) -> D) (x : op * nat * list (nat * deg) * D) : Prop :=
  let '(o, g, ss, T) := x in T = truth o g ss.
(** elements with one key have one array *)
Definition keys_determine (o : op) (m nq : nat) (qw : nat -> R) (es : list (nat * elem)) : Prop :=
  forall i e j e' k, In (i, e) es -> In (j, e') es -> key_of o e = Some (Some k) -> key_of o e' = Some (Some k) ->
    element_data o m nq qw e = element_data o m nq qw e'.
(** the largest number in a degree *)
Definition largest (d : deg) (p : nat) : Prop :=
  match d with Num n => p = n | Tup l => In p l /\ forall x, In x l -> (x <= p)%nat end.
