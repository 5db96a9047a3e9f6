(** What a periodic slice is: a torus cut into equal boxes. *)
From Coq Require Import Arith ZArith QArith List Bool.
From Verif Require Import LocalNumberingModel UnModel UnSpec PslModel.
Import ListNotations.
Local Open Scope nat_scope.

(** numbers that differ by a multiple of the period *)
Definition modulo (period a b : Q) : Prop := exists z : Z, (a - b == inject_Z z * period)%Q.
(** the coordinates of a corner of a box *)
Definition first3 (t : Q * Q * Q) : Q := fst (fst t).
Definition second3 (t : Q * Q * Q) : Q := snd (fst t).
Definition third3 (t : Q * Q * Q) : Q := snd t.
Definition corner_at (c : Q * Q * Q -> Q) (b : brick) (h : bool) : Q := (c (b_origin b) + (if h then c (b_delta b) else 0))%Q.
(** the label of a corner; x first, z last *)
Definition corner_label (b : brick) (hx hy hz : bool) : option nat :=
  nth_error (b_map b) (Nat.b2n hx + 2 * Nat.b2n hy + 4 * Nat.b2n hz).
Definition inside (strict : bool) (b : brick) (x y z : Q) : Prop :=
  let le p q := if strict then (p < q)%Q else (p <= q)%Q in
  (le (corner_at first3 b false) x /\ le x (corner_at first3 b true)) /\
  (le (corner_at second3 b false) y /\ le y (corner_at second3 b true)) /\
  (le (corner_at third3 b false) z /\ le z (corner_at third3 b true)).

(** all the boxes together form a periodic grid of K p cells in a direction; the place of local index i of box a *)
Definition fine (K p a i : nat) : nat := (a * p + i) mod (K * p).
(** the local dofs of k-forms: the number of the local dof [c; i; j; k] (component c) *)
Definition dof_of (k px py pz : nat) (s : list nat) : option nat :=
  in_arrays (match k with
             | 0 => ln_m3n3k0 px py pz | 1 => ln_m3n3k1 px py pz | 2 => ln_m3n3k2 px py pz | _ => ln_m3n3k3 px py pz end) s.
Definition components (k : nat) : nat := match k with 1 | 2 => 3 | _ => 1 end.
(** g numbers the dofs of k-forms on the torus of Kx x Ky x Kz boxes with 0 .. M-1: two local dofs have the
    same number exactly if they belong to the same component and sit at the same place of the periodic grid *)
Record torus_numbers (k Kx Ky Kz px py pz : nat) (g : list (nat * list nat)) (M : nat) : Prop := {
  tn_names : map fst g = seq 0 (Kx * Ky * Kz);
  tn_total : forall a b c s d, a < Kx -> b < Ky -> c < Kz -> dof_of k px py pz s = Some d ->
    exists n, number_at g (a + b * Kx + c * (Kx * Ky)) d n /\ n < M;
  tn_same : forall a b c a' b' c' q i j l q' i' j' l' d d' n n',
    a < Kx -> b < Ky -> c < Kz -> a' < Kx -> b' < Ky -> c' < Kz ->
    dof_of k px py pz [q; i; j; l] = Some d -> dof_of k px py pz [q'; i'; j'; l'] = Some d' ->
    number_at g (a + b * Kx + c * (Kx * Ky)) d n -> number_at g (a' + b' * Kx + c' * (Kx * Ky)) d' n' ->
    (n = n' <-> q = q' /\ fine Kx px a i = fine Kx px a' i' /\ fine Ky py b j = fine Ky py b' j' /\ fine Kz pz c l = fine Kz pz c' l');
  tn_count : M = components k * ((Kx * px) * (Ky * py) * (Kz * pz)) }.
(** at most one direction has a single element *)
Definition distinct_edges (Kx Ky Kz : nat) : Prop := ~ (Kx = 1 /\ Ky = 1) /\ ~ (Ky = 1 /\ Kz = 1) /\ ~ (Kx = 1 /\ Kz = 1).
