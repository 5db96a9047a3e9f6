(** Model of /repo/tools/quadrature.py: Lobatto nodes and weights, custom nodes, and tensor products.
    Numbers are real numbers without rounding errors; None stands for an exception, a failing assertion, or a
    division by zero (which numpy turns into nan). *)
From Coq Require Import Reals List Arith.
Import ListNotations.
Local Open Scope R_scope.

(** ** Lobatto *)
(** scipy.special.legendre(n)(x), by the recurrence of Bonnet *)
Fixpoint legendre (n : nat) (x : R) : R :=
  match n with
  | O => 1
  | S m => match m with
           | O => x
           | S k => ((2 * INR m + 1) * x * legendre m x - INR m * legendre k x) / (INR m + 1)
           end
  end.

(** quadrature.py:312-344 *)
Definition legendre_prime (x : R) (n : nat) : option R :=
  if (n =? 0)%nat then Some 0
  else if (n =? 1)%nat then Some 1
  else if Req_EM_T (1 - x ^ 2) 0 then None
  else Some ((INR n * legendre (n - 1) x - INR n * x * legendre n x) / (1 - x ^ 2)).
(** 346-347 *)
Definition legendre_prime_lobatto (x : R) (n : nat) : option R :=
  match legendre_prime x n with Some v => Some ((1 - x ^ 2) ^ 2 * v) | None => None end.
(** 349-367 *)
Definition legendre_double_prime (x : R) (n : nat) : option R :=
  match legendre_prime x n with
  | Some v => Some ((2 * x * v - INR n * (INR n + 1) * legendre n x) * (1 - x ^ 2))
  | None => None
  end.

(** 369-405: `k` rounds are left; the warning is left out *)
Fixpoint newton (f df : R -> option R) (eps : R) (k : nat) (x : R) : option R :=
  match k with
  | O => Some x
  | S k' =>
      match f x, df x with
      | Some a, Some b =>
          if Req_EM_T b 0 then None
          else
            let x' := x - a / b in
            if Rlt_dec (Rabs (x' - x)) eps then Some x' else newton f df eps k' x'
      | _, _ => None
      end
  end.
Definition newton_method (f df : R -> option R) (x : R) (n_max : nat) (eps : R) : option R := newton f df eps (n_max - 1) x.

Fixpoint all_some {A} (l : list (option A)) : option (list A) :=
  match l with
  | [] => Some []
  | Some a :: r => match all_some r with Some t => Some (a :: t) | None => None end
  | None :: _ => None
  end.

(** 247-261; `eps` is np.finfo(float).eps * 10; 116-117: p >= 1 *)
Definition interior (eps : R) (p i : nat) : option R :=
  newton_method (fun x => legendre_prime_lobatto x p) (fun x => legendre_double_prime x p) (cos (INR i / INR p * PI)) 100 eps.
Definition weight (p : nat) (x : R) : R := 2 / (INR p * (INR p + 1) * (legendre p x) ^ 2).
Definition compute_Lobatto (eps : R) (p : nat) : option (list R * list R) :=
  if (p =? 0)%nat then None
  else
    match all_some (map (interior eps p) (seq 1 (p - 1))) with
    | Some l => let nodal_pts := 1 :: l ++ [-1] in Some (rev nodal_pts, map (weight p) nodal_pts)
    | None => None
    end.

(** ** custom nodes *)
(** math.isclose(a, b, abs_tol=t): rel_tol is 1e-9 *)
Definition isclose (a b t : R) : Prop := Rabs (a - b) <= Rmax (/ 10 ^ 9 * Rmax (Rabs a) (Rabs b)) t.
Definition isclose_dec (a b t : R) : {isclose a b t} + {~ isclose a b t} := Rle_dec _ _.
Definition tol : R := / 10 ^ 12.
Definition total (l : list R) : R := fold_left Rplus l 0.
(** 285-290: the nodes after `at`, and the last value of `current_at` *)
Fixpoint walk (at_ : R) (l : list R) : list R * R :=
  match l with
  | [] => ([], at_)
  | par :: r => let e := 2 * par in let w := walk (at_ + e) r in ((at_ + e) :: fst w, snd w)
  end.
(** nodes[-1] = 1 *)
Definition set_last (l : list R) (v : R) : list R := removelast l ++ [v].
(** 272-295; the numbers after 'CUS-NODES@' are given *)
Definition cus_nodes (edge_partition : list R) : option (list R) :=
  if isclose_dec (total edge_partition) 1 tol then
    let w := walk (-1) edge_partition in
    if isclose_dec (snd w) 1 tol then Some (set_last (-1 :: fst w) 1) else None
  else None.
(** 297-310; np.testing.assert_almost_equal: abs(a - b) < 1.5 * 10 ** -7 *)
Definition almost_equal (a b : R) : Prop := Rabs (b - a) < 15 / 10 ^ 8.
Definition almost_equal_dec (a b : R) : {almost_equal a b} + {~ almost_equal a b} := Rlt_dec _ _.
Definition node_distribution (nodes : list R) : option (list R) :=
  match nodes with
  | [] => None
  | x :: _ => if almost_equal_dec x (-1) then if almost_equal_dec (last nodes 0) 1 then Some nodes else None else None
  end.

(** ** tensor products *)
(** one axis: nodes and weights *)
Notation axis := (list R * list R)%type.
(** the indices of an array of shape `dims` in the order 'F': the first index runs first *)
Fixpoint indices (dims : list nat) : list (list nat) :=
  match dims with
  | [] => [[]]
  | n :: r => flat_map (fun t => map (fun i => i :: t) (seq 0 n)) (indices r)
  end.
Definition ravel_F {A} (dims : list nat) (a : list nat -> A) : list A := map a (indices dims).
(** 221-226: np.tensordot(temp_weights, weights_i, axes=0), from the first axis on *)
Fixpoint tensor (acc : R) (axes : list axis) (I : list nat) : R :=
  match axes, I with
  | ax :: r, i :: t => tensor (acc * nth i (snd ax) 0) r t
  | _, _ => acc
  end.
Definition temp_weights (axes : list axis) (I : list nat) : R :=
  match axes, I with
  | ax :: r, i :: t => tensor (nth i (snd ax) 0) r t
  | _, _ => 0
  end.
(** 227: np.meshgrid(..., indexing='ij') *)
Definition meshgrid (axes : list axis) (k : nat) (I : list nat) : R := nth (nth k I 0%nat) (fst (nth k axes ([], []))) 0.
Definition shape (axes : list axis) : list nat := map (fun ax => length (fst ax)) axes.
(** 208-245: quad_ndim_ravel: the coordinates of all nodes, and the weights *)
Definition quad_ndim_ravel (axes : list axis) : list (list R) * list R :=
  match axes with
  | [ax] => ([fst ax], snd ax)
  | _ => (map (fun k => ravel_F (shape axes) (meshgrid axes k)) (seq 0 (length axes)), ravel_F (shape axes) (temp_weights axes))
  end.
(** 149-169 *)
Definition quad_weights_ravel (axes : list axis) : list R :=
  match axes with
  | [ax] => snd ax
  | _ => ravel_F (map (fun ax => length (snd ax)) axes) (temp_weights axes)
  end.

(** ** arguments *)
(** 20-38: an order is an int, a tuple or a list; a category a str, a tuple or a list *)
Inductive order := PInt (p : nat) | PTuple (l : list nat) | PList (l : list nat).
Inductive categories (C : Type) := CStr (c : C) | CTuple (l : list C) | CList (l : list C).
Arguments CStr {C} c. Arguments CTuple {C} l. Arguments CList {C} l.
(** `key in _cache_quad_` raises TypeError for a list *)
Definition hashable {C} (p : order) (c : categories C) : bool :=
  match p, c with PList _, _ => false | _, CList _ => false | _, _ => true end.
(** the orders and categories that `Quadrature` gets *)
Definition quadrature {C} (p : order) (c : categories C) : option (list nat * list C) :=
  if hashable p c then
    match p with
    | PInt n => match c with CStr s => Some ([n], [s]) | _ => None end
    | PTuple l | PList l =>
        match c with
        | CStr s => Some (l, map (fun _ => s) l)
        | CTuple s | CList s => if (length s =? length l)%nat then Some (l, s) else None
        end
    end
  else None.
