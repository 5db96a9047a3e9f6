(** What a continuous global numbering is, without reference to the numbering loops. *)
From Coq Require Import Arith List ZArith Relations.
From Verif Require Import NdArray MeshSpec IncidenceSpec.
Import ListNotations.

(** the map of neighbours: [mp e (2*a)] is across the minus side of axis [a], [mp e (2*a+1)]
    across the plus side *)
Definition emap := nat -> nat -> option nat.
Definition consistent (ndim N : nat) (mp : emap) : Prop :=
  (forall e a s m, e < N -> a < ndim -> s < 2 -> mp e (2 * a + s) = Some m -> m < N) /\
  (forall a e m, a < ndim -> e < N -> m < N -> (mp e (2 * a + 1) = Some m <-> mp m (2 * a) = Some e)).
Definition no_self (ndim N : nat) (mp : emap) : Prop :=
  forall e a, e < N -> a < ndim -> mp e (2 * a + 1) <> Some e.

(** a position is an element and a local dof.  Local dof (c, ix) of a form of degrees [degs]
    lies on the plus side of axis a iff its index along a is the degree of that axis; there
    it touches the dof with index 0 of the neighbour *)
Definition touch (ln : option (list arr)) (degs : list nat) (N : nat) (mp : emap) (x y : nat * nat) : Prop :=
  exists a p c ix, fst x < N /\ nth_error degs a = Some p /\ mp (fst x) (2 * a + 1) = Some (fst y) /\
    num ln c ix (snd x) /\ nth_error ix a = Some p /\ num ln c (set_at a 0 ix) (snd y).
(** the dofs that a continuous form shares *)
Definition shared ln degs N mp : nat * nat -> nat * nat -> Prop := clos_refl_sym_trans _ (touch ln degs N mp).

Definition gm_at (gm : list (list Z)) (x : nat * nat) (v : Z) : Prop :=
  exists row, nth_error gm (fst x) = Some row /\ nth_error row (snd x) = Some v.

(** [gm] numbers the [nd] dofs of [N] elements by 0..M-1, equal exactly for related positions *)
Definition numbers (gm : list (list Z)) (N nd : nat) (same : nat * nat -> nat * nat -> Prop) : Prop :=
  length gm = N /\ Forall (fun row => length row = nd) gm /\
  exists M, (forall x v, gm_at gm x v -> (0 <= v < Z.of_nat M)%Z) /\
            (forall k, (0 <= k < Z.of_nat M)%Z -> exists x, gm_at gm x k) /\
            (forall x y v w, gm_at gm x v -> gm_at gm y w -> (v = w <-> same x y)).

(** ** vertices of 2-D meshes.  Corner c of an element: bit a of c tells the side (0 minus,
    1 plus) of axis a.  Crossing the side of axis a at a corner leads to the same vertex as a
    corner of the neighbour. *)
Definition corner_bit (a c : nat) : nat := (c / 2 ^ a) mod 2.
Definition flip (a c : nat) : nat := if corner_bit a c =? 0 then c + 2 ^ a else c - 2 ^ a.
Definition cross (mp : emap) (a : nat) (x : nat * nat) : option (nat * nat) :=
  match mp (fst x) (2 * a + corner_bit a (snd x)) with
  | Some m => Some (m, flip a (snd x))
  | None => None
  end.
Fixpoint turn (mp : emap) (axes : list nat) (x : nat * nat) : option (nat * nat) :=
  match axes with
  | [] => Some x
  | a :: r => match cross mp a x with Some y => turn mp r y | None => None end
  end.
(** going around a vertex through four sides leads back to the start: no vertex inside the
    mesh has more than four elements around it *)
Definition regular_vertices (N : nat) (mp : emap) : Prop :=
  forall e c x, e < N -> c < 4 -> turn mp [1; 0; 1; 0] (e, c) = Some x -> x = (e, c).

(** ** conditions on the regions of a mesh; [M] is the map of regions, the row of a region
    holds its neighbours through x-, x+, y-, y+, .. *)
Definition region_map (M : list (list (option nat))) : emap := fun R s =>
  match nth_error M R with
  | Some row => match nth_error row s with Some o => o | None => None end
  | None => None
  end.
(** no region that is its own neighbour along an axis with one element *)
Definition no_thin_periodic (diss : list (list nat)) (M : list (list (option nat))) : Prop :=
  forall R dis a, nth_error diss R = Some dis -> nth_error dis a = Some 1 -> region_map M R (2 * a + 1) <> Some R.
