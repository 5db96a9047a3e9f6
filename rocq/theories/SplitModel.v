(** Model of the splitting of elements (`ts`) of msehtt great meshes.
    msehtt/static/mesh/great/main.py 642-662, 877-1375, 1440-1456, 1565-1665.
    None stands for an exception.  Coordinates are real numbers.  The three dicts of a rank (types, parameters, maps) are one
    list of elements in their order; the name of an element is the string str(e_index); the ranks are a list. *)
From Coq Require Import List Arith ZArith Reals String Bool.
From Verif Require Import MappingModel.
Import List ListNotations.
Local Open Scope R_scope.

(** element types with their parameters: vtk 5, 9, 'orthogonal rectangle', 'orthogonal hexahedron', vtk 11, 'unique curvilinear quad';
    all others *)
Inductive shape :=
| Triangle (P : list pt2)
| Quad (P : list pt2)
| Rect (origin delta : pt2)
| Hex (origin delta : pt3)
| Voxel (P : list pt3)
| Curved (f : R -> R -> pt2) (J : R -> R -> mat)
| Other.

(** nodes while splitting: integers or tuples of integers *)
Inductive node := Int (n : Z) | Tup (l : list Z).

(** list.sort() of node numbers *)
Fixpoint zinsert (x : Z) (l : list Z) : list Z :=
  match l with [] => [x] | y :: r => if (x <=? y)%Z then x :: l else y :: zinsert x r end.
Fixpoint zsort (l : list Z) : list Z := match l with [] => [] | x :: r => zinsert x (zsort r) end.
Definition pair_ (a b : Z) : node := Tup (zsort [a; b]).
Definition quad_ (a b c d : Z) : node := Tup (zsort [a; b; c; d]).

Definition add2 (p q : pt2) : pt2 := (fst p + fst q, snd p + snd q).
Definition half2 (p q : pt2) : pt2 := ((fst p + fst q) / 2, (snd p + snd q) / 2).

(** main.py 921-958 *)
Definition split_triangle (A B C : pt2) (n0 n1 n2 : Z) : list (string * shape * list node) :=
  let D := ((fst A + fst B + fst C) / 3, (snd A + snd B + snd C) / 3) in
  let E := half2 A B in
  let F := half2 C B in
  let G := half2 A C in
  let m01 := pair_ n0 n1 in let m12 := pair_ n1 n2 in let m02 := pair_ n0 n2 in
  let m012 := Tup [n0; n1; n2] in
  [(":5>0"%string, Quad [A; E; D; G], [Int n0; m01; m012; m02]);
   (":5>1"%string, Quad [B; F; D; E], [Int n1; m12; m012; m01]);
   (":5>2"%string, Quad [C; G; D; F], [Int n2; m02; m012; m12])].

(** the maps of the four children of a quadrilateral: main.py 984-1010, 1038-1064, 1313-1341 *)
Definition quad_maps (n0 n1 n2 n3 : Z) : list (list node) :=
  let m01 := pair_ n0 n1 in let m12 := pair_ n1 n2 in let m23 := pair_ n2 n3 in let m30 := pair_ n3 n0 in
  let c := Tup [n0; n1; n2; n3] in
  [[Int n0; m01; c; m30]; [m01; Int n1; m12; c]; [c; m12; Int n2; m23]; [m30; c; m23; Int n3]].
(** the parameters: main.py 970-983, 1006-1009, 1026-1037, 1060-1063 *)
Definition quad_paras (A B C D : pt2) : list (list pt2) :=
  let E := ((fst A + fst B + fst C + fst D) / 4, (snd A + snd B + snd C + snd D) / 4) in
  let F := half2 A B in
  let G := half2 B C in
  let H := half2 C D in
  let J := half2 D A in
  [[A; F; E; J]; [F; B; G; E]; [E; G; C; H]; [J; E; H; D]].
Definition four (suffix : string) (ss : list shape) (ms : list (list node)) : list (string * shape * list node) :=
  map (fun p => (append suffix (fst (fst p)), snd (fst p), snd p)) (combine (combine ["0"; "1"; "2"; "3"]%string ss) ms).

(** main.py 960-1011 *)
Definition split_quad (A B C D : pt2) (n0 n1 n2 n3 : Z) :=
  four ":9>" (map Quad (quad_paras A B C D)) (quad_maps n0 n1 n2 n3).
(** main.py 1013-1068; the map is unpacked as _0_, _1_, _3_, _2_ *)
Definition split_rect (o d : pt2) (n0 n1 n3 n2 : Z) :=
  let A := o in
  let C := (fst o + fst d, snd o + snd d) in
  let B := (fst o + fst d, snd o) in
  let D := (fst o, snd o + snd d) in
  four ":or>" (map Quad (quad_paras A B C D)) (quad_maps n0 n1 n2 n3).
(** main.py 1297-1341 and ___TSH_UCQ___ 1565-1665: the mappings NW, SW, SE, NE and their matrices *)
Definition split_curved (f : R -> R -> pt2) (J : R -> R -> mat) (n0 n1 n2 n3 : Z) :=
  let part o0 o1 := Curved (in_element2 f o0 o1 1 1) (in_element2_J J o0 o1 1 1) in
  four ":UCQ>" [part (-1) (-1); part 0 (-1); part 0 0; part (-1) 0] (quad_maps n0 n1 n2 n3).

(** main.py 1070-1295.  The points are written as in the code; [mx], [my] are the middles *)
Definition split_box (o d : pt3) (nA nB nD nC nK nL nM nN : Z) : list (string * shape * list node) :=
  let '(ox, oy, oz) := o in
  let '(dx, dy, dz) := d in
  let level z :=
    let A := (ox, oy) in let C := (ox + dx, oy + dy) in let B := (ox + dx, oy) in let D := (ox, oy + dy) in
    let at_z (p : pt2) : pt3 := (fst p, snd p, z) in
    (at_z A, at_z B, at_z C, at_z D,
     at_z ((fst A + fst B + fst C + fst D) / 4, (snd A + snd B + snd C + snd D) / 4),
     (at_z (half2 A B), at_z (half2 B C), at_z (half2 C D), at_z (half2 D A))) in
  let '(U, X, a, W, V, (Z_, i, oo, Y)) := level (oz + dz / 2) in
  let '(A, B, C, D, E, (F, G, H, J)) := level oz in
  let '(K, L, N_, M, T, (Rr, Q, S_, P)) := level (oz + dz) in
  let lA := Int nA in let lB := Int nB in let lC := Int nC in let lD := Int nD in
  let lK := Int nK in let lL := Int nL in let lM := Int nM in let lN := Int nN in
  let lE := quad_ nA nB nC nD in let lF := pair_ nA nB in let lG := pair_ nB nC in let lH := pair_ nD nC in let lJ := pair_ nA nD in
  let lT := quad_ nK nL nM nN in let lR := pair_ nK nL in let lQ := pair_ nL nN in let lS := pair_ nM nN in let lP := pair_ nK nM in
  let lU := pair_ nA nK in let lX := pair_ nB nL in let lW := pair_ nD nM in let la := pair_ nC nN in
  let lZ := quad_ nA nB nK nL in let lY := quad_ nA nD nK nM in let lI := quad_ nB nC nL nN in let lO := quad_ nD nC nM nN in
  let lV := Tup [nA; nB; nC; nD; nK; nL; nM; nN] in
  [(":oH>0"%string, Voxel [A; F; J; E; U; Z_; Y; V], [lA; lF; lJ; lE; lU; lZ; lY; lV]);
   (":oH>1"%string, Voxel [F; B; E; G; Z_; X; V; i], [lF; lB; lE; lG; lZ; lX; lV; lI]);
   (":oH>2"%string, Voxel [J; E; D; H; Y; V; W; oo], [lJ; lE; lD; lH; lY; lV; lW; lO]);
   (":oH>3"%string, Voxel [E; G; H; C; V; i; oo; a], [lE; lG; lH; lC; lV; lI; lO; la]);
   (":oH>4"%string, Voxel [U; Z_; Y; V; K; Rr; P; T], [lU; lZ; lY; lV; lK; lR; lP; lT]);
   (":oH>5"%string, Voxel [Z_; X; V; i; Rr; L; T; Q], [lZ; lX; lV; lI; lR; lL; lT; lQ]);
   (":oH>6"%string, Voxel [Y; V; W; oo; P; T; M; S_], [lY; lV; lW; lO; lP; lT; lM; lS]);
   (":oH>7"%string, Voxel [V; i; oo; a; T; Q; S_; N_], [lV; lI; lO; la; lT; lQ; lS; lN])].

(** main.py 1112-1122 *)
Definition voxel_box (P : list pt3) : option (pt3 * pt3) :=
  match P with
  | (x0, y0, z0) :: (x1, _, _) :: (_, y2, _) :: _ :: (_, _, z4) :: _ => Some ((x0, y0, z0), (x1 - x0, y2 - y0, z4 - z0))
  | _ => None
  end.

(** main.py 917-1346: one element; unpacking a list of a wrong length raises *)
Definition split_one (s : shape) (m : list Z) : option (list (string * shape * list node)) :=
  match s, m with
  | Triangle [A; B; C], [n0; n1; n2] => Some (split_triangle A B C n0 n1 n2)
  | Quad [A; B; C; D], [n0; n1; n2; n3] => Some (split_quad A B C D n0 n1 n2 n3)
  | Rect o d, [n0; n1; n3; n2] => Some (split_rect o d n0 n1 n3 n2)
  | Hex o d, [nA; nB; nD; nC; nK; nL; nM; nN] => Some (split_box o d nA nB nD nC nK nL nM nN)
  | Voxel P, [nA; nB; nD; nC; nK; nL; nM; nN] =>
      match voxel_box P with Some (o, d) => Some (split_box o d nA nB nD nC nK nL nM nN) | None => None end
  | Curved f J, [n0; n1; n2; n3] => Some (split_curved f J n0 n1 n2 n3)
  | _, _ => None
  end.

Notation element := (string * shape * list Z)%type.
Notation labelled := (string * shape * list node)%type.

Fixpoint split_all (es : list element) : option (list labelled) :=
  match es with
  | [] => Some []
  | (e, s, m) :: r =>
    match split_one s m, split_all r with
    | Some c, Some t => Some (map (fun q => let '(x, s', m') := q in (append e x, s', m')) c ++ t)
    | _, _ => None
    end
  end.

(** ** numbering of the new nodes: main.py 1348-1386 *)
Definition ints (ns : list node) : list Z := flat_map (fun n => match n with Int z => [z] | Tup _ => [] end) ns.
Definition zmax (l : list Z) : option Z := match l with [] => None | x :: r => Some (fold_left Z.max r x) end.
Definition zlist_eqb (a b : list Z) : bool := if list_eq_dec Z.eq_dec a b then true else false.
Fixpoint lookup (p : list (list Z * Z)) (t : list Z) : option Z :=
  match p with [] => None | (u, z) :: r => if zlist_eqb t u then Some z else lookup r t end.
(** the pool and the next number *)
Definition enter (a : list (list Z * Z) * Z) (n : node) : list (list Z * Z) * Z :=
  match n with
  | Int _ => a
  | Tup t => match lookup (fst a) t with Some _ => a | None => (fst a ++ [(t, snd a)], (snd a + 1)%Z) end
  end.
Definition renumber1 (p : list (list Z * Z)) (n : node) : option Z := match n with Int z => Some z | Tup t => lookup p t end.
Fixpoint sequence {A} (l : list (option A)) : option (list A) :=
  match l with [] => Some [] | None :: _ => None | Some x :: r => match sequence r with Some t => Some (x :: t) | None => None end end.
Definition renumber_element (p : list (list Z * Z)) (q : labelled) : option element :=
  match sequence (map (renumber1 p) (snd q)) with Some m => Some (fst q, m) | None => None end.

(** ___ts___ (main.py 911-1386), all ranks *)
Definition split_mesh (mesh : list (list element)) : option (list (list element)) :=
  match sequence (map split_all mesh) with
  | None => None
  | Some ls =>
    let ns := concat (map snd (concat ls)) in
    match zmax (ints ns) with
    | None => None
    | Some mx =>
      let p := fst (fold_left enter ns ([], (mx + 1)%Z)) in
      sequence (map (fun r => sequence (map (renumber_element p) r)) ls)
    end
  end.

(** ** _parse_ts_ (main.py 877-909) and ts (1440-1456) *)
Fixpoint info_put {A} (d : list (nat * A)) (k : nat) (v : A) : list (nat * A) :=
  match d with [] => [(k, v)] | (k', v') :: r => if (k =? k')%nat then (k', v) :: r else (k', v') :: info_put r k v end.
Fixpoint info_get {A} (d : list (nat * A)) (k : nat) : option A :=
  match d with [] => None | (k', v) :: r => if (k =? k')%nat then Some v else info_get r k end.
(** 880-893: ts_renumbering[i] for i = max_ts - j, j < max_ts; another key raises KeyError *)
Definition renumber_info {A} (d : list (nat * A)) : option (list (nat * A)) :=
  match d with
  | [] => Some []
  | _ =>
    let mx := list_max (map fst d) in
    option_map (fun l => fold_left (fun acc kv => info_put acc (fst kv) (snd kv)) l [])
      (sequence (map (fun kv : nat * A => if (1 <=? fst kv)%nat && (fst kv <=? mx)%nat then Some ((mx - fst kv)%nat, snd kv) else None) d))
  end.
Fixpoint parse_ts (ts : nat) (info : list (nat * list (list element))) (mesh : list (list element))
  : option (list (list element) * list (nat * list (list element))) :=
  match ts with
  | O => match renumber_info info with Some i => Some (mesh, i) | None => None end
  | S k =>
    match split_mesh mesh with
    | None => None
    | Some mesh' => parse_ts k (info_put info ts mesh) mesh'
    end
  end.
