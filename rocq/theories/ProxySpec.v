(** What algebraic and matrix proxies are for: pairings of forms in terms of their coefficients,
    and what it means that coefficients solve a weak formulation or a linear system. *)
From Coq Require Import Ascii String Reals Bool Arith List.
From Verif Require Import WfModel ProxyModel.
Import ListNotations.
Local Open Scope R_scope.

(** c with the coefficients of f replaced by w *)
Definition upd (c : nat -> nat -> R) (f : nat) (w : nat -> R) : nat -> nat -> R :=
  fun g p => if (g =? f)%nat then w p else c g p.

Definition sg (s : sgn) : R := match s with Plus => 1 | Minus => -1 end.
Fixpoint sumto (n : nat) (f : nat -> R) : R := match n with O => 0 | S n => sumto n f + f n end.
Fixpoint sumlist {A} (f : A -> R) (l : list A) : R := match l with [] => 0 | x :: r => f x + sumlist f r end.

Section Meaning.
  (** Spaces and degrees of forms, d and trace of spaces, numbers of coefficients, the arrays that are
      not vectors of forms, scalar parameters, nonlinear terms as functions of the coefficients *)
  Context (space degree : nat -> nat) (d_space tr_space : nat -> nat) (size : dim -> nat)
          (mat : root -> nat -> nat -> R) (par : nat -> R) (nval : nat -> (nat -> nat -> R) -> R)
          (dual : nat -> bool).

  Definition num (f : nat) : nat := size (Sp (space f) (degree f)).

  (** Mass matrices are symmetric, EdT is the transpose of Ed, and the matrix of <b|a> that of <a|b> *)
  Definition arrays_ok : Prop :=
    (forall s d i j, mat (Mass s d) i j = mat (Mass s d) j i) /\
    (forall s d i j, mat (EdT s d) i j = mat (Ed s d) j i) /\
    (forall a b i j, mat (Wdp a b) i j = mat (Wdp b a) j i).

  Fixpoint num_value (f : scalar) : R :=
    match f with
    | One => 1
    | Par c => par c
    | Plus_ a b => num_value a + num_value b
    | Over a b => num_value a / num_value b
    end.

  (** Coefficients of f, d f, tr f *)
  Definition fcoef (c : nat -> nat -> R) (x : pform) (p : nat) : R :=
    match x with
    | Rt f | TrStar f | Dt f => c f p
    | Dr f => sumto (num f) (fun k => mat (Ed (space f) (degree f)) p k * c f k)
    | Tr_ f => sumto (num f) (fun k => mat (TrM f) p k * c f k)
    end.
  Definition fspace (x : pform) : nat :=
    match x with Rt f | TrStar f | Dt f => space f | Dr f => d_space (space f) | Tr_ f => tr_space (space f) end.
  Definition froot (x : pform) : nat := match x with Rt f | TrStar f | Dt f | Dr f | Tr_ f => f end.
  Definition fsize (x : pform) : nat := size (Sp (fspace x) (degree (froot x))).

  (** One of the forms under d, the other in its dual representation: coefficients meet directly *)
  Definition direct (x y : pform) : bool :=
    match x, y with
    | Dr _, Rt f => dual f
    | Rt f, Dr _ => dual f
    | _, _ => false
    end.
  Definition pairing (c : nat -> nat -> R) (t : pterm) : R :=
    match t with
    | PIp k x y =>
        num_value k *
        (if direct x y then sumto (fsize x) (fun p => fcoef c x p * fcoef c y p)
         else sumto (fsize x) (fun p => sumto (fsize y) (fun q =>
                fcoef c x p * mat (Mass (fspace x) (degree (froot x))) p q * fcoef c y q)))
    | PDp k (TrStar f0) (Tr_ f1) => num_value k * sumto (num f1) (fun p => c f1 p * mat (Bdp f0 f1) p 0)
    | PDp k x y =>
        num_value k * sumto (num (froot x)) (fun p => sumto (num (froot y)) (fun q =>
          c (froot x) p * mat (Wdp (froot x) (froot y)) p q * c (froot y) q))
    | PNon n _ => nval n c
    end.
  Definition side (c : nat -> nat -> R) (l : list (sgn * pterm)) : R :=
    sumlist (fun x => sg (fst x) * pairing c (snd x)) l.

  (** The coefficients c solve the equations: whatever coefficients the test forms have *)
  Definition solves (c : nat -> nat -> R) (eqs : list (list (sgn * pterm) * list (sgn * pterm) * nat)) : Prop :=
    forall l r v, In (l, r, v) eqs -> forall w, side (upd c v w) l = side (upd c v w) r.

  (** Forms whose coefficients a term depends on; how often the test form occurs in it *)
  Definition forms_in (t : pterm) : list nat :=
    match t with
    | PDp _ (TrStar _) (Tr_ f1) => [f1]
    | PIp _ x y | PDp _ x y => [froot x; froot y]
    | PNon _ l => l
    end.
  Definition once (v : nat) (t : pterm) : Prop := count_occ Nat.eq_dec (forms_in t) v = 1%nat.
  Definition linear (t : pterm) : Prop := match t with PNon _ _ => False | _ => True end.

  (* -------------------------------------------------------------- arrays *)

  Definition entry_of (c : nat -> nat -> R) (r : root) (i j : nat) : R :=
    match r with Vec f => c f i | _ => mat r i j end.
  Context (other : nat -> dim * dim).
  Definition cell (c : nat -> nat -> R) (x : root * bool) (i j : nat) : R :=
    if snd x then entry_of c (fst x) j i else entry_of c (fst x) i j.
  Definition width (x : root * bool) : nat :=
    let '(p, q) := root_shape space degree d_space tr_space other (fst x) in size (if snd x then p else q).
  (** products of arrays; the empty one is the identity *)
  Fixpoint product (c : nat -> nat -> R) (l : list (root * bool)) (i j : nat) : R :=
    match l with
    | [] => if (i =? j)%nat then 1 else 0
    | [x] => cell c x i j
    | x :: r => sumto (width x) (fun k => cell c x i k * product c r k j)
    end.
  Definition arr_value (c : nat -> nat -> R) (a : arr) (i j : nat) : R :=
    num_value (a_factor a) * product c (a_comps a) i j.
  Definition entry_value (c : nat -> nat -> R) (e : list (sgn * arr)) (i j : nat) : R :=
    sumlist (fun x => sg (fst x) * arr_value c (snd x) i j) e.

  (** row p of a block row times the vectors of the targets, the row as it is for the coefficients c0 *)
  Fixpoint row_value (c0 c : nat -> nat -> R) (row : list (list (sgn * arr))) (targets : list nat) (p : nat) : R :=
    match row, targets with
    | e :: es, f :: fs => sumto (num f) (fun k => entry_value c0 e p k * c f k) + row_value c0 c es fs p
    | _, _ => 0
    end.
  Definition block_value (c : nat -> nat -> R) (b : list (list (list (sgn * arr))) * list nat) (i p : nat) : R :=
    row_value c c (nth i (fst b) []) (snd b) p.
  (** what the proxy says row p of equation i is, left and right *)
  Definition half (c : nat -> nat -> R) (mvs : list (list (list (list (sgn * arr))) * list nat))
                  (v : list (list (sgn * arr))) (i p : nat) : R :=
    sumlist (fun b => block_value c b i p) mvs + entry_value c (nth i v []) p 0.
  Definition non_value (c : nat -> nat -> R) (l : list (sgn * nat)) : R :=
    sumlist (fun x => sg (fst x) * nval (snd x) c) l.

  (** mp.parse any number of times *)
  Fixpoint parses (tss : list (list nat)) (m : mp) : option mp :=
    match tss with
    | [] => Some m
    | ts :: r => match parse space degree d_space tr_space other ts m with Some m' => parses r m' | None => None end
    end.

  (** A x = b with A and b as they are evaluated for the coefficients c0 *)
  Definition ls_holds (c0 c : nat -> nat -> R) (l : ls) (rows : nat -> nat) : Prop :=
    forall i p, (i < length (l_b l))%nat -> (p < rows i)%nat ->
      row_value c0 c (nth i (l_A l) []) (l_x l) p
      = entry_value c0 (nth i (l_b l) []) p 0.
End Meaning.

(* ---------------------------------------------------------------- text *)

(** the characters that pure linguistic representations do not contain (config.py 331) *)
Definition legal_char (a : ascii) : Prop := a <> "{"%char /\ a <> "$"%char /\ a <> "\"%char /\ a <> "}"%char.
Fixpoint legal (s : string) : Prop :=
  match s with EmptyString => True | String a r => legal_char a /\ legal r end.

Definition names_ok (array_name : root -> string) (scalar_name : nat -> string) : Prop :=
  (forall r, legal (array_name r)) /\ (forall c, legal (scalar_name c)) /\
  (forall r q, array_name r = array_name q -> r = q) /\
  (forall c d, scalar_name c = scalar_name d -> c = d) /\
  (forall c, scalar_name c <> "1"%string).

(** What can be read again: of the factors 1, known parameters and quotients of two of them; of the
    components known arrays, vectors not transposed *)
Definition known_scalar (scalars : list nat) (f : scalar) : Prop :=
  match f with One => True | Par c => In c scalars | _ => False end.
Definition simple (scalars : list nat) (f : scalar) : Prop :=
  known_scalar scalars f \/ exists a b, f = Over a b /\ known_scalar scalars a /\ known_scalar scalars b.
Definition comp_known (arrays : list root) (c : root * bool) : Prop :=
  In (fst c) arrays /\ ~ (exists f, c = (Vec f, true)).
