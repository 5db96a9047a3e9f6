(** Model of the memory behind find_local_dofs_on_face__m3n3k2.

    /repo/msehtt/static/space/find/local_dofs_on_face/Lambda/m3n3k2.py 24-64
    /repo/msehtt/static/space/local_numbering/Lambda/ln_m3n3k2.py 16-39
    One degree (px, py, pz); both caches are keyed by the degree.  The three
    arrays of the local numbering are made once and kept; a slice of them is a
    view, [-=] writes through it.  ravel('F') gives a view or a copy depending
    on the layout of the slice; this is the unknown [shares]. *)
From Coq Require Import Arith List Bool ZArith.
From Verif Require Import NdArray LocalNumberingModel FaceModel.
Import ListNotations.
Local Open Scope Z_scope.

(** an entry of one of the arrays: number of the array and index *)
Notation addr := (nat * list nat)%type.
Definition addr_eqb (a b : addr) : bool := Nat.eqb (fst a) (fst b) && (if list_eq_dec Nat.eq_dec (snd a) (snd b) then true else false).

(** a value in the cache of faces *)
Inductive cached := View (l : list addr) | Copy (l : list Z).
Record memory := mk_mem { m_at : addr -> Z; m_cache : list ((nat * bool) * cached) }.

Definition read (st : memory) (c : cached) : list Z := match c with View l => map (m_at st) l | Copy l => l end.
Definition lookup (st : memory) (f : nat) (cw : bool) : option cached :=
  option_map snd (find (fun e => Nat.eqb (fst (fst e)) f && Bool.eqb (snd (fst e)) cw) (m_cache st)).
Definition put (st : memory) (f : nat) (cw : bool) (c : cached) : memory := mk_mem (m_at st) (((f, cw), c) :: m_cache st).
(** view -= z *)
Definition subtract (st : memory) (l : list addr) (z : Z) : memory :=
  mk_mem (fun a => if existsb (addr_eqb a) l then m_at st a - z else m_at st a) (m_cache st).

Section Degree.
Variables px py pz : nat.
(** whether ravel('F') of the slice at the face is a view *)
Variable shares : nat -> bool.
Definition shape_of (c : nat) : list nat := match c with 0%nat => [px + 1; py; pz] | 1%nat => [px; py + 1; pz] | _ => [px; py; pz + 1] end%nat.
Definition first_of (c : nat) : nat := match c with 0%nat => 0 | 1%nat => (px + 1) * py * pz | _ => (px + 1) * py * pz + px * (py + 1) * pz end%nat.
(** the arrays when made *)
Definition fresh : memory :=
  mk_mem (fun a => match aget (mk_arr (first_of (fst a)) (shape_of (fst a))) (snd a) with Some r => Z.of_nat r | None => 0 end) [].
(** np.max(a), raises if there are no entries *)
Definition np_max (st : memory) (c : nat) : option Z :=
  match map (fun ix => m_at st (c, ix)) (indices (shape_of c)) with [] => None | z :: r => Some (fold_left Z.max r z) end.
(** 31-44; the views: component = axis *)
Definition view_of (f : nat) : option (nat * list addr) :=
  match face_place f with
  | Some (ax, sd) =>
      match nth ax (shape_of ax) 0%nat with
      | O => None
      | S n => Some (ax, map (fun ix => (ax, insert ax (match sd with Low => 0%nat | High => n end) ix)) (indices (remove ax (shape_of ax))))
      end
  | None => None
  end.
(** the returned array in Fortran order, with the component if component_wise *)
Definition find_face (st : memory) (f : nat) (cw : bool) : option (memory * cached) :=
  match lookup st f cw with
  | Some c => Some (st, c)
  | None =>
    match view_of f with
    | None => None
    | Some (ax, v) =>
      if cw then
        match ax with
        | 0%nat => Some (put st f cw (View v), View v)
        | 1%nat =>
            match np_max st 0 with
            | Some m => let st' := subtract st v (m + 1) in Some (put st' f cw (View v), View v)
            | None => None
            end
        | _ =>
            match np_max st 0, np_max st 1 with
            | Some m, Some n => let st' := subtract st v ((m + 1) + (n + 1)) in Some (put st' f cw (View v), View v)
            | _, _ => None
            end
        end
      else let c := if shares f then View v else Copy (map (m_at st) v) in Some (put st f cw c, c)
    end
  end.
(** a sequence of calls; the values as read right after each call *)
Fixpoint calls (st : memory) (l : list (nat * bool)) : option (memory * list (list Z)) :=
  match l with
  | [] => Some (st, [])
  | (f, cw) :: r =>
      match find_face st f cw with
      | Some (st', c) => match calls st' r with Some (st'', vs) => Some (st'', read st' c :: vs) | None => None end
      | None => None
      end
  end.
End Degree.
