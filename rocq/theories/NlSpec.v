(** Vocabulary of the statements about nonlinear systems, independent of how the code computes. *)
From Coq Require Import List Arith Bool ZArith Reals.
From Verif Require Import NlModel.
Import ListNotations.
Local Open Scope R_scope.

(** the multilinear form with coefficients [T]: the sum over all indices of T[i1, ..., ik] * v1[i1] * ... * vk[ik] *)
Fixpoint mform (sh : list nat) (T : list nat -> R) (vs : list (nat -> R)) : R :=
  match sh, vs with
  | n :: sh', v :: vs' => rsum n (fun i => v i * mform sh' (fun idx => T (i :: idx)) vs')
  | _, _ => T []
  end.
(** the unit vector *)
Definition delta (a : nat) : nat -> R := fun i => if (i =? a)%nat then 1 else 0.

(** the sum over a list *)
Definition lsum {X} (l : list X) (f : X -> R) : R := fold_right (fun a acc => f a + acc) 0 l.

(** what a term is: a number times an array *)
Fixpoint factor (n : nop) : R := match n with Arr _ _ _ => 1 | Mul c m _ _ => c * factor m end.
Fixpoint array (n : nop) : nat -> nd := match n with Arr d _ _ => d | Mul _ m _ _ => array m end.
Definition sign (plus : bool) : R := if plus then 1 else -1.

(** values of all forms in all elements; the cochains of the unknowns that have these values *)
Notation state := (cf -> nat -> nat -> R).
Definition cochain_of (s : nls) (X : state) (c : cf) : cochain := fun e => map (X c e) (seq 0 (nloc s (base c) e)).
Definition cochains (s : nls) (X : state) : list cochain := map (cochain_of s X) (uks s).
(** X + r * H *)
Definition move (X H : state) (r : R) : state := fun c e k => X c e k + r * H c e k.
(** only the values of one form *)
Definition only (c : cf) (H : state) : state := fun d e k => if cf_eqb d c then H d e k else 0.

Definition entry (M : option mat) (a c : nat) : R := match M with Some M => ent M a c | None => 0 end.
Definition uk (s : nls) (j : nat) : cf := nth j (uks s) (Gen 0).
(** the number of dofs of the test form of row i, and of unknown j *)
Definition nrow (s : nls) (i e : nat) : nat := nloc s (base (tests s i)) e.
Definition ncol (s : nls) (j e : nat) : nat := nloc s (base (uk s j)) e.

(** the value of a term of row [i] tested with dof [a]; [V]: the vectors of the other forms *)
Definition tested (s : nls) (i e a : nat) (V : cf -> nat -> R) (n : nop) : R :=
  factor n * mform (shape (array n e)) (at_ (array n e))
    (map (fun c => if cf_eqb c (tests s i) then delta a else V c) (corr n)).

(** A x + N(x) - b: row i, element e, dof a *)
Definition residual (s : nls) (X : state) (i e a : nat) : R :=
  rsum (n1 s) (fun j => rsum (ncol s j e) (fun k => entry (mdata (A s i j) e) a k * X (uk s j) e k))
  + lsum (terms s i) (fun t => sign (snd t) * tested s i e a (fun c => X c e) (fst t))
  - nth a (b s i e) 0.

(** a matrix times the values of the unknowns: row i, element e, dof a *)
Definition times (s : nls) (L : nat -> nat -> nat -> option mat) (H : state) (i e a : nat) : R :=
  rsum (n1 s) (fun j => rsum (ncol s j e) (fun k => entry (L i j e) a k * H (uk s j) e k)).
(** the matrix of one Newton iteration *)
Definition newton_matrix (s : nls) (X : state) (i j e : nat) : option mat :=
  match lhs s (cochains s X) i j with Some L => mdata L e | None => None end.

(** a term made by the code: arrays whose factors keep the correspondence; the forms are the test form and different
    unknowns, at least two of them; the axes of the arrays are the dofs of the forms *)
Inductive made (cs : list cf) : nop -> Prop :=
| made_arr d : made cs (Arr d cs true)
| made_mul c n : made cs n -> made cs (rmul c n).
Definition good_term (s : nls) (i : nat) (n : nop) : Prop :=
  made (corr n) n /\ NoDup (corr n) /\ In (tests s i) (corr n) /\
  (forall c, In c (corr n) -> c = tests s i \/ In c (uks s)) /\
  (3 <= length (corr n) < 14)%nat /\
  (forall e, In e (els s) -> shape (array n e) = map (fun c => nloc s (base c) e) (corr n)).
(** shapes fit, the unknowns are different copies, tests are generic forms *)
Definition good (s : nls) : Prop :=
  (0 < n1 s)%nat /\ length (uks s) = n1 s /\ NoDup (uks s) /\
  (forall c, In c (uks s) -> exists f t, c = Copy f t) /\
  (forall i, (i < n0 s)%nat -> exists f, tests s i = Gen f) /\
  (forall i j e, (i < n0 s)%nat -> (j < n1 s)%nat -> In e (els s) ->
     exists M, mdata (A s i j) e = Some M /\ rows M = nrow s i e /\ cols M = ncol s j e) /\
  (forall i e, (i < n0 s)%nat -> In e (els s) -> length (b s i e) = nrow s i e) /\
  (forall i t, (i < n0 s)%nat -> In t (terms s i) -> good_term s i (fst t)).

(** assembling: [g f e]: the global numbers of the dofs of form [f] in element [e]; the global vectors of the unknowns
    [Y c] have the local values [Y c (g e k)]; the assembled row [r] is the sum of all local rows numbered [r] *)
Definition spread (g : nat -> nat -> list nat) (Y : cf -> nat -> R) : state :=
  fun c e k => Y c (nth k (g (base c) e) 0%nat).
Definition assembled (s : nls) (g : nat -> nat -> list nat) (F : nat -> nat -> nat -> R) (i r : nat) : R :=
  lsum (els s) (fun e => rsum (nrow s i e)
    (fun a => if (nth a (g (base (tests s i)) e) 0 =? r)%nat then F i e a else 0)).
(** the entry of the assembled matrix: row [r] of block row [i], column [c] of block column [j] *)
Definition assembled_matrix (s : nls) (g : nat -> nat -> list nat) (L : nat -> nat -> nat -> option mat) (i r j c : nat) : R :=
  lsum (els s) (fun e => rsum (nrow s i e) (fun a => rsum (ncol s j e) (fun k =>
    if (nth a (g (base (tests s i)) e) 0 =? r)%nat && (nth k (g (base (uk s j)) e) 0 =? c)%nat
    then entry (L i j e) a k else 0))).
(** row [r] of block row [i] of the assembled matrix times the global vectors; [N j]: the number of global dofs of unknown j *)
Definition global_times (s : nls) (g : nat -> nat -> list nat) (N : nat -> nat) (L : nat -> nat -> nat -> option mat)
  (Z : cf -> nat -> R) (i r : nat) : R :=
  rsum (n1 s) (fun j => rsum (N j) (fun c => assembled_matrix s g L i r j c * Z (uk s j) c)).
(** all dofs of the unknowns are numbered below their number *)
Definition numbered (s : nls) (g : nat -> nat -> list nat) (N : nat -> nat) : Prop :=
  forall j e k, (j < n1 s)%nat -> In e (els s) -> (k < ncol s j e)%nat -> (nth k (g (base (uk s j)) e) 0 < N j)%nat.
(** the nonlinear part of row i *)
Definition terms_of (s : nls) (X : state) (i e a : nat) : R :=
  lsum (terms s i) (fun t => sign (snd t) * tested s i e a (fun c => X c e) (fst t)).
(** an entry of the right-hand side of a step, and of a vector made by an evaluation *)
Definition value (v : option (list R)) (a : nat) : R := match v with Some v => nth a v 0 | None => 0 end.
(** the linear part *)
Definition linear_matrix (s : nls) (i j e : nat) : option mat := mdata (A s i j) e.
