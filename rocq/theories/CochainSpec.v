(** Vocabulary for C66. *)
From Coq Require Import List ZArith Reals Bool Arith.
From Verif Require Import CochainModel.
Import ListNotations.

(** the newest time is the largest time that has a cochain *)
Definition newest_right {C} (s : store C) : Prop :=
  match newest s with
  | None => times_of s = []
  | Some t => In t (times_of s) /\ forall u, In u (times_of s) -> (u <= t)%Z
  end.
(** what was last set for the time t *)
Fixpoint last_set {C} (os : list (op C)) (t : Z) : option C :=
  match os with
  | [] => None
  | o :: r => match last_set r t with
              | Some c => Some c
              | None => match o with Set_ _ u c => if Z.eq_dec u t then Some c else None | _ => None end
              end
  end.
Fixpoint py_last_set {C} (os : list (py_op C)) (t : Z) : option C :=
  match os with
  | [] => None
  | o :: r => match py_last_set r t with
              | Some c => Some c
              | None => match o with PySet _ u c => if Z.eq_dec u t then Some c else None | _ => None end
              end
  end.
(** the newest cochain is not taken away by its time *)
Fixpoint careful {C} (os : list (op C)) (s : store C) : Prop :=
  match os with
  | [] => True
  | o :: r => match o with CleanAt t => newest s <> Some t | _ => True end /\ match do_op o s with None => True | Some s' => careful r s' end
  end.
(** calls with arguments that are accepted *)
Definition accepted {C} (o : op C) : Prop :=
  match o with Set_ (Some k) _ _ => (2 <= k)%nat | CleanLast k => (1 <= k)%nat | _ => True end.
Definition within {C} (n : nat) (o : op C) : Prop := match o with Set_ None _ _ => False | Set_ (Some k) _ _ => (k <= n)%nat | _ => True end.
(** u is one of the k largest of l *)
Definition among_largest (k : nat) (l : list Z) (u : Z) : Prop := In u l /\ (length (filter (fun v => (u <? v)%Z) l) < k)%nat.
(** consecutive times *)
Definition consecutive (l : list Z) (a b : Z) : Prop := In a l /\ In b l /\ (a < b)%Z /\ forall u, In u l -> (u <= a \/ b <= u)%Z.
(** r is on the chord from (a, u) to (b, v) *)
Definition on_chord (a b t : Z) (u v r : list R) : Prop :=
  length r = length u /\ forall i, (i < length u)%nat -> ((nth i r 0 - nth i u 0) * (IZR b - IZR a) = (nth i v 0 - nth i u 0) * (IZR t - IZR a))%R.
Definition uniform (s : store (list R)) (n : nat) : Prop := forall t c, In (t, c) (tcd s) -> length c = n.

(** all elements of a mesh on several ranks *)
Definition elements {Sg V} (ranks : list (rank_mesh Sg * store (list (nat * V)))) : list (nat * Sg) := concat (map (fun r => composition (fst r)) ranks).
(** the coefficients of the element e at time t, wherever it is *)
Definition value_at {Sg V} (ranks : list (rank_mesh Sg * store (list (nat * V)))) (t : Z) (e : nat) (v : V) : Prop :=
  exists m s c, In (m, s) ranks /\ get_cochain (Some t) s = Some c /\ In (e, v) c.
(** a rank whose form lives on all its elements, and whose cochains have exactly one entry for each of them *)
Definition whole {Sg} (m : rank_mesh Sg) : Prop := map fst (composition m) = gm m.
Definition complete {Sg V} (m : rank_mesh Sg) (s : store (list (nat * V))) : Prop := forall t c, get_cochain (Some t) s = Some c -> map fst c = map fst (composition m).
(** the meshes and cochains of all ranks fit together *)
Definition consistent {Sg V} (ranks : list (rank_mesh Sg * store (list (nat * V)))) : Prop :=
  ranks <> [] /\ NoDup (map fst (elements ranks)) /\ (forall m s, In (m, s) ranks -> complete m s /\ NoDup (times_of s)) /\
  (forall m s m' s', In (m, s) ranks -> In (m', s') ranks -> times_of s = times_of s').
