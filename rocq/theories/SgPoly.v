(** Polygons of the plane.

    Cites /repo/tools/miscellaneous/geometries/m2n2.py.  A polygon is the list of its vertices; caches of edges and
    paths return what was computed.  [path] stands for matplotlib's Path(...).contains_point and is any function. *)
From Coq Require Import Reals Bool List Arith.
From Verif Require Import SgModel.
Import ListNotations.
Local Open Scope R_scope.

(** Polygon2.edges (583-597) *)
Definition edge (v : list pt) (i : nat) : option seg :=
  if (i <? length v)%nat then
    if (i <? length v - 1)%nat then new_seg (nth i v (mkPt 0 0)) (nth (i + 1) v (mkPt 0 0))
    else new_seg (nth (length v - 1) v (mkPt 0 0)) (nth 0 v (mkPt 0 0))
  else None.

(** whether_point_in_polygon (794-825): the loop over the edges, [k] of them left *)
Fixpoint edges_loop (v : list pt) (p : pt) (k i : nat) : option bool :=
  match k with
  | O => Some false
  | S k' => match edge v i with
            | None => None
            | Some e => if on_seg p e then Some true else edges_loop v p k' (i + 1)
            end
  end.
Definition in_poly (path : list pt -> pt -> bool) (v : list pt) (p : pt) : option bool :=
  match edges_loop v p (length v) 0 with
  | None => None
  | Some true => Some true
  | Some false => Some (path v p)
  end.

(** Polygon2.__eq__ (635-648) *)
Fixpoint all_eq (v w : list pt) : bool :=
  match v, w with
  | p :: v', q :: w' => if pt_eq p q then all_eq v' w' else false
  | _, _ => true
  end.
Definition poly_eq (v w : list pt) : bool := if (length v =? length w)%nat then all_eq v w else false.

(** Polygon2.whether_contain__input__as_a_part_of_same_type (711-734), geo a polygon *)
Fixpoint all_in (path : list pt -> pt -> bool) (v w : list pt) : option bool :=
  match w with
  | [] => Some true
  | p :: w' => match in_poly path v p with
               | None => None
               | Some true => all_in path v w'
               | Some false => Some false
               end
  end.
Definition poly_contain (path : list pt -> pt -> bool) (v w : list pt) : option bool :=
  if poly_eq v w then Some true else all_in path v w.
