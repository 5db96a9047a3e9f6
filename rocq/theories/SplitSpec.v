(** What is wanted of split meshes.  Sides, corners and areas are given here directly; the mappings of the elements are those of C59. *)
From Coq Require Import List Arith ZArith Reals String Bool.
From Verif Require Import MappingModel SplitModel.
Import List ListNotations.
Local Open Scope R_scope.

(** ** corners, in the order of the map *)
Definition flat (p : pt2) : pt3 := (fst p, snd p, 0).
Definition box_corners (o d : pt3) : list pt3 :=
  let '(x, y, z) := o in let '(a, b, c) := d in
  [(x, y, z); (x + a, y, z); (x, y + b, z); (x + a, y + b, z); (x, y, z + c); (x + a, y, z + c); (x, y + b, z + c); (x + a, y + b, z + c)].
Definition corners (s : shape) : list pt3 :=
  match s with
  | Triangle P | Quad P => map flat P
  | Rect o d => map flat [o; (fst o + fst d, snd o); (fst o, snd o + snd d); (fst o + fst d, snd o + snd d)]
  | Hex o d => box_corners o d
  | Voxel P => P
  | Curved f _ => map flat [f (-1) (-1); f 1 (-1); f 1 1; f (-1) 1]
  | Other => []
  end.
(** straight elements; the eight points of a voxel are those of a box *)
Definition straight (s : shape) : Prop :=
  match s with
  | Triangle P => length P = 3%nat
  | Quad P => length P = 4%nat
  | Rect _ _ | Hex _ _ => True
  | Voxel P => exists o d, P = box_corners o d
  | Curved _ _ | Other => False
  end.
(** the nodes have positions, and every element has its corners there *)
Definition placed (pos : Z -> pt3) (mesh : list (list element)) : Prop :=
  forall e s m, In (e, s, m) (concat mesh) -> straight s /\ corners s = map pos m.
Definition nodes_of (mesh : list (list element)) : list Z := concat (map snd (concat mesh)).

(** ** plane elements: the nodes in cyclic order and the sides, each run through for t from -1 to 1 *)
Definition segment (p q : pt2) (t : R) : pt2 := ((1 - t) / 2 * fst p + (1 + t) / 2 * fst q, (1 - t) / 2 * snd p + (1 + t) / 2 * snd q).
Definition around (f : R -> R -> pt2) : list (R -> pt2) := [fun t => f t (-1); fun t => f 1 t; fun t => f (- t) 1; fun t => f (-1) (- t)].
Definition sides (s : shape) : list (R -> pt2) :=
  match s with
  | Triangle [A; B; C] => [segment A B; segment B C; segment C A]
  | Quad P => around (quad9 P)
  | Rect o d => around (ortho_rect (fst o) (snd o) (fst d) (snd d))
  | Curved f _ => around f
  | _ => []
  end.
Definition cycle {N} (s : shape) (m : list N) : list N :=
  match s, m with Rect _ _, [a; b; d; c] => [a; b; c; d] | _, _ => m end.
Definition ends {N} (c : list N) : list (N * N) := match c with [] => [] | a :: r => combine c (r ++ [a]) end.
Definition edges {N} (s : shape) (m : list N) : list (N * N * (R -> pt2)) := combine (ends (cycle s m)) (sides s).

(** plane elements with as many different nodes as corners *)
Definition sound {N} (s : shape) (m : list N) : Prop :=
  NoDup m /\ match s with
             | Triangle P => length P = 3%nat /\ length m = 3%nat
             | Quad P => length P = 4%nat /\ length m = 4%nat
             | Rect _ _ | Curved _ _ => length m = 4%nat
             | _ => False
             end.
(** elements with a common edge (same two nodes) have the same side there, run through in the same or the opposite direction;
    no two elements have the same corners *)
Definition conforming {N} (els : list (shape * list N)) : Prop :=
  Forall (fun q => sound (fst q) (snd q)) els /\
  NoDup (map (fun q => cycle (fst q) (snd q)) els) /\
  forall q q' a b g a' b' g', In q els -> In q' els -> In (a, b, g) (edges (fst q) (snd q)) -> In (a', b', g') (edges (fst q') (snd q')) ->
    (a = a' -> b = b' -> forall t, g t = g' t) /\ (a = b' -> b = a' -> forall t, g t = g' (- t)).
Definition plane_elements {X N : Type} (es : list (X * shape * list N)) : list (shape * list N) := map (fun q => (snd (fst q), snd q)) es.

(** ** areas *)
Definition det2 (J : mat) : R := J 0%nat 0%nat * J 1%nat 1%nat - J 0%nat 1%nat * J 1%nat 0%nat.
(** twice the signed area of a polygon *)
Definition cross (p q : pt2) : R := fst p * snd q - snd p * fst q.
Definition area2 (P : list pt2) : R := fold_right Rplus 0 (map (fun e => cross (fst e) (snd e)) (ends P)).

(** sum over the sides of elements of a quantity that changes sign with the direction *)
Definition antisymmetric {N} (w : N -> N -> R) : Prop := forall a b, w a b = - w b a.
Definition around_sum {N} (w : N -> N -> R) (c : list N) : R := fold_right Rplus 0 (map (fun e => w (fst e) (snd e)) (ends c)).

(** areas and volumes *)
Definition measure (s : shape) : R :=
  match s with
  | Triangle P | Quad P => area2 P / 2
  | Rect _ d => fst d * snd d
  | Hex _ (a, b, c) => a * b * c
  | Voxel ((x0, y0, z0) :: (x1, _, _) :: (_, y2, _) :: _ :: (_, _, z4) :: _) => (x1 - x0) * (y2 - y0) * (z4 - z0)
  | _ => 0
  end.
Definition total (es : list shape) : R := fold_right Rplus 0 (map measure es).
Definition shapes {X N : Type} (es : list (X * shape * list N)) : list shape := map (fun q => snd (fst q)) es.
(** the mappings preserve the orientation everywhere in the element *)
Definition oriented (s : shape) : Prop :=
  match s with
  | Triangle P => 0 < area2 P
  | Quad P => forall xi et, -1 <= xi <= 1 -> -1 <= et <= 1 -> 0 < det2 (quad9_J P xi et)
  | Rect _ d => 0 < fst d * snd d
  | Curved _ J => forall xi et, -1 <= xi <= 1 -> -1 <= et <= 1 -> 0 < det2 (J xi et)
  | Hex _ _ | Voxel _ => 0 < measure s
  | Other => True
  end.
(** the region of a plane element; the triangle as convex hull of its corners *)
Definition in_region (s : shape) (p : pt2) : Prop :=
  match s with
  | Triangle [A; B; C] => exists a b c, 0 <= a /\ 0 <= b /\ 0 <= c /\ a + b + c = 1 /\
      p = (a * fst A + b * fst B + c * fst C, a * snd A + b * snd B + c * snd C)
  | Quad P => exists xi et, -1 <= xi <= 1 /\ -1 <= et <= 1 /\ p = quad9 P xi et
  | Rect o d => exists xi et, -1 <= xi <= 1 /\ -1 <= et <= 1 /\ p = ortho_rect (fst o) (snd o) (fst d) (snd d) xi et
  | Curved f _ => exists xi et, -1 <= xi <= 1 /\ -1 <= et <= 1 /\ p = f xi et
  | _ => False
  end.

(** ** several times *)
Fixpoint iterate (k : nat) (mesh : list (list element)) : option (list (list element)) :=
  match k with O => Some mesh | S j => match split_mesh mesh with Some mesh' => iterate j mesh' | None => None end end.

(** ** where nodes are: new ones at the mean of the nodes they are made of *)
Definition mean (l : list pt3) : pt3 :=
  let n := INR (length l) in
  let s (f : pt3 -> R) := fold_right Rplus 0 (map f l) / n in
  (s (fun p => fst (fst p)), s (fun p => snd (fst p)), s (fun p => snd p)).
Definition node_pos (pos : Z -> pt3) (n : node) : pt3 := match n with Int z => pos z | Tup l => mean (map pos l) end.

(** ** names: what is appended to the name of the parent *)
Definition tags (s : shape) : list string :=
  match s with
  | Triangle _ => [":5>0"; ":5>1"; ":5>2"]
  | Quad _ => [":9>0"; ":9>1"; ":9>2"; ":9>3"]
  | Rect _ _ => [":or>0"; ":or>1"; ":or>2"; ":or>3"]
  | Hex _ _ | Voxel _ => [":oH>0"; ":oH>1"; ":oH>2"; ":oH>3"; ":oH>4"; ":oH>5"; ":oH>6"; ":oH>7"]
  | Curved _ _ => [":UCQ>0"; ":UCQ>1"; ":UCQ>2"; ":UCQ>3"]
  | Other => []
  end%string.
Definition name (q : element) : string := fst (fst q).
Definition child_names (r : list element) : list string := flat_map (fun q => map (append (name q)) (tags (snd (fst q)))) r.
(** elements that can be split *)
Definition splittable (q : element) : Prop :=
  let '(_, s, m) := q in sound s m \/ (straight s /\ length m = length (corners s)).

(** ** faces of boxes, four nodes each as a square is numbered: first row, second row *)
Definition faces {N} (m : list N) : list (list N) :=
  match m with
  | [a; b; c; d; e; f; g; h] => [[a; b; c; d]; [e; f; g; h]; [a; b; e; f]; [c; d; g; h]; [a; c; e; g]; [b; d; f; h]]
  | _ => []
  end.
(** the same square, numbered from another corner or in the other direction *)
Definition turns {N} (F : list N) : list (list N) :=
  match F with
  | [p; q; r; t] => [[p; q; r; t]; [q; p; t; r]; [r; t; p; q]; [t; r; q; p]; [p; r; q; t]; [q; t; p; r]; [r; p; t; q]; [t; q; r; p]]
  | _ => []
  end.
Definition is_box (s : shape) : Prop := match s with Hex _ _ | Voxel _ => True | _ => False end.
