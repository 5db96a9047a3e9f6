(** Model of tools/dds/region_wise_structured.py: data sets given region by region on structured arrays of nodes.
    Numbers are rationals (Qc): the floats of the code are rationals, their rounding errors are left out, and so is the
    sign of the float zero.  A raised exception is None.  Names of regions are integers (dictionary keys, sorted by <).
    Left out: plotting, files, interpolation (scipy), norm (a square root), tensors. *)
From Coq Require Import List ZArith QArith Qcanon Bool.
Import ListNotations.
Local Open Scope Qc_scope.

Definition half : Qc := Q2Qc (1 # 2).
Definition qc_of (z : Z) : Qc := Q2Qc (inject_Z z).
Definition qleb (a b : Qc) : bool := if Qclt_le_dec b a then false else true.
Definition absq (a : Qc) : Qc := if Qclt_le_dec a 0 then - a else a.

(* ------------------------------------------------------------------ stream functions *)

(** a region of a 2d vector: name, last indices of the two axes (arrays have shape (l0 + 1, l1 + 1)), x, y, u, v;
    arrays without entries (they raise in x[0, 0]) are left out *)
Notation arr := (nat -> nat -> Qc).
Record region := mkr { name : Z; l0 : nat; l1 : nat; X : arr; Y : arr; U : arr; V : arr }.

(** the increment from node (a, b) to node (c, d), e.g. lines 824-840 *)
Definition inc (r : region) (a b c d : nat) : Qc :=
  let dx := X r c d - X r a b in
  let dy := Y r c d - Y r a b in
  let mu := (U r a b + U r c d) * half in
  let mv := (V r a b + V r c d) * half in
  mu * dy + - mv * dx.

(** the loops over sf: along the first axis in column j, along the second axis in row 0, and the loops backwards:
    [back0 r j s k] is the value after k steps from the last node of column j *)
Fixpoint along0 (r : region) (j : nat) (s : Qc) (i : nat) : Qc :=
  match i with O => s | S i => along0 r j s i + inc r i j (S i) j end.
Fixpoint along1 (r : region) (s : Qc) (j : nat) : Qc :=
  match j with O => s | S j => along1 r s j + inc r 0 j 0 (S j) end.
Fixpoint back0 (r : region) (j : nat) (s : Qc) (k : nat) : Qc :=
  match k with O => s | S k => back0 r j s k + inc r (l0 r - k) j (l0 r - S k) j end.
Fixpoint back1 (r : region) (s : Qc) (k : nat) : Qc :=
  match k with O => s | S k => back1 r s k + inc r 0 (l1 r - k) 0 (l1 r - S k) end.

(** _compute_sf_in_2d_region_ (812-1024), one branch per starting corner *)
Inductive corner := MM | PM | MP | PP.
Definition sf_mm (r : region) (s : Qc) : arr := fun i j => along0 r j (along1 r s j) i.
Definition sf_pm (r : region) (s : Qc) : arr :=
  fun i j => if Nat.eqb j 0 then back0 r 0 s (l0 r - i) else along0 r j (along1 r (back0 r 0 s (l0 r)) j) i.
Definition sf_mp (r : region) (s : Qc) : arr := sf_mm r (back1 r s (l1 r)).
Definition sf_pp (r : region) (s : Qc) : arr := sf_mp r (back0 r (l1 r) s (l0 r)).
Definition region_sf (r : region) (c : corner) (s : Qc) : arr :=
  match c with MM => sf_mm r s | PM => sf_pm r s | MP => sf_mp r s | PP => sf_pp r s end.

(** '%.7f' % x: the sign is written whenever x < 0, the rest is rounded, ties to even *)
Definition ten7 : Z := 10000000.
Definition fmt7 (x : Qc) : bool * Z :=
  let n := Qnum x in
  let d := Zpos (Qden x) in
  let z := (Z.abs n * ten7)%Z in
  let q := (z / d)%Z in
  let m := (2 * (z mod d))%Z in
  ((n <? 0)%Z, if (m <? d)%Z then q else if (d <? m)%Z then (q + 1)%Z else if Z.even q then q else (q + 1)%Z).
Notation pkey := ((bool * Z) * (bool * Z))%type.
Definition key (x y : Qc) : pkey := (fmt7 x, fmt7 y).
Definition pkey_eq_dec (a b : pkey) : {a = b} + {a <> b}.
Proof. repeat decide equality. Defined.

Definition corner_ij (r : region) (c : corner) : nat * nat :=
  match c with MM => (0, 0) | PM => (l0 r, 0) | MP => (0, l1 r) | PP => (l0 r, l1 r) end%nat.
Definition corner_key (r : region) (c : corner) : pkey :=
  let (i, j) := corner_ij r c in key (X r i j) (Y r i j).
(** the corner pool: a dictionary, newest entries first *)
Notation pool := (list (pkey * Qc)).
Definition get (p : pool) (k : pkey) : option Qc :=
  match find (fun x => if pkey_eq_dec (fst x) k then true else false) p with Some x => Some (snd x) | None => None end.
(** _renew_starting_point_2d_ (781-799) *)
Definition start_of (p : pool) (r : region) : option (corner * Qc) :=
  match get p (corner_key r MM) with
  | Some s => Some (MM, s)
  | None =>
      match get p (corner_key r PM) with
      | Some s => Some (PM, s)
      | None =>
          match get p (corner_key r MP) with
          | Some s => Some (MP, s)
          | None => match get p (corner_key r PP) with Some s => Some (PP, s) | None => None end
          end
      end
  end.
(** _find_corner_xy_sf_ (802-810); in the dictionary display later keys win *)
Definition corner_values (r : region) (f : arr) : pool :=
  map (fun c => (corner_key r c, let (i, j) := corner_ij r c in f i j)) [PP; MP; PM; MM].

Notation sfs := (list (Z * arr)).
Definition done (d : sfs) (n : Z) : bool := existsb (fun x => Z.eqb (fst x) n) d.
Record state := mks { sf_dict : sfs; corners : pool; empty_pool : bool; is_full : bool }.
(** one turn of the loop of streamfunction (722-752) *)
Definition visit (st : state) (r : region) : state :=
  if done (sf_dict st) (name r) then st
  else
    match (if empty_pool st then Some (MM, 0) else start_of (corners st) r) with
    | Some (c, s) =>
        let f := region_sf r c s in
        mks (sf_dict st ++ [(name r, f)]) (corner_values r f ++ corners st) false (is_full st)
    | None => mks (sf_dict st) (corners st) (empty_pool st) false
    end.
(** element_range.sort() *)
Fixpoint insert (r : region) (l : list region) : list region :=
  match l with [] => [r] | x :: l => if (name r <=? name x)%Z then r :: x :: l else x :: insert r l end.
Definition sort (l : list region) : list region := fold_right insert [] l.
(** streamfunction and its recursive calls (684-778); [fuel] bounds the number of calls, which is at most that of the regions *)
Fixpoint rounds (fuel : nat) (rs : list region) (d : sfs) (p : pool) (e : bool) : option sfs :=
  match fuel with
  | O => None
  | S fuel =>
      let st := fold_left visit rs (mks d p e true) in
      if Nat.ltb (length d) (length (sf_dict st)) then
        if is_full st then Some (sf_dict st) else rounds fuel rs (sf_dict st) (corners st) false
      else None
  end.
Definition streamfunction (rs : list region) (start : option (Qc * Qc * Qc)) (shift : Qc) : option sfs :=
  let r := match start with
           | None => rounds (S (length rs)) (sort rs) [] [] true
           | Some (x, y, s) => rounds (S (length rs)) (sort rs) [] [(key x y, s)] false
           end in
  match r with
  | Some d => Some (map (fun x => (fst x, fun i j => snd x i j + shift)) d)
  | None => None
  end.

(* ------------------------------------------------------------------ operations *)

(** a data set: per region its name, the shape of its arrays, coordinates and values (arrays in one order of their nodes);
    dictionaries of regions per component are kept together by region *)
Record block := mkb { bname : Z; shape : list nat; coo : list (list Qc); val : list (list Qc) }.
Notation dds := (list block).

(** np.allclose(a, b): |a - b| <= 1e-8 + 1e-5 |b| *)
Definition atol : Qc := Q2Qc (1 # 100000000).
Definition rtol : Qc := Q2Qc (1 # 100000).
Fixpoint allb2 {A B} (f : A -> B -> bool) (l : list A) (m : list B) : bool :=
  match l, m with
  | [], [] => true
  | a :: l, b :: m => f a b && allb2 f l m
  | _, _ => false
  end.
Definition close (a b : Qc) : bool := qleb (absq (a - b)) (atol + rtol * absq b).
Definition allclose (a b : list Qc) : bool := allb2 close a b.
Definition find_block (d : dds) (n : Z) : option block := find (fun b => Z.eqb (bname b) n) d.
(** ___check_coo_equality___ (79-104) and the values' shapes; the regions of the two sets are the same *)
Definition same_regions (a b : dds) : bool :=
  forallb (fun x => existsb (fun y => Z.eqb (bname x) (bname y)) b) a &&
  forallb (fun y => existsb (fun x => Z.eqb (bname x) (bname y)) a) b.
Definition same_coo (a b : block) : bool := allb2 allclose (coo a) (coo b).
Fixpoint map2 {A B C} (f : A -> B -> C) (l : list A) (m : list B) : list C :=
  match l, m with a :: l, b :: m => f a b :: map2 f l m | _, _ => [] end.
Fixpoint traverse {A B} (f : A -> option B) (l : list A) : option (list B) :=
  match l with
  | [] => Some []
  | a :: l => match f a, traverse f l with Some b, Some r => Some (b :: r) | _, _ => None end
  end.
(** an operation on the values of two sets with the same coordinates and number of components: __sub__ (466-487),
    __add__ (499-520), dot (544-558), cross_product (612-641); the result has the coordinates of the first *)
Definition binary (op : list (list Qc) -> list (list Qc) -> option (list (list Qc))) (a b : dds) : option dds :=
  if same_regions a b then
    traverse (fun x => match find_block b (bname x) with
                       | Some y => if same_coo x y && Nat.eqb (length (val x)) (length (val y)) then
                                     match op (val x) (val y) with Some v => Some (mkb (bname x) (shape x) (coo x) v) | None => None end
                                   else None
                       | None => None
                       end) a
  else None.
Definition sub : dds -> dds -> option dds := binary (fun v w => Some (map2 (map2 Qcminus) v w)).
Definition add : dds -> dds -> option dds := binary (fun v w => Some (map2 (map2 Qcplus) v w)).
Fixpoint dot_values (v w : list (list Qc)) : option (list Qc) :=
  match v, w with
  | [a], [b] => Some (map2 Qcmult a b)
  | a :: v, b :: w => match dot_values v w with Some s => Some (map2 Qcplus (map2 Qcmult a b) s) | None => None end
  | _, _ => None
  end.
Definition dot : dds -> dds -> option dds :=
  binary (fun v w => match dot_values v w with Some s => Some [s] | None => None end).
(** wx v - wy u, for two components in two coordinates *)
Definition cross (a b : dds) : option dds :=
  if forallb (fun x => Nat.eqb (length (coo x)) 2) a then
    binary (fun v w => match v, w with
                       | [a0; a1], [b0; b1] => Some [map2 Qcminus (map2 Qcmult a0 b1) (map2 Qcmult a1 b0)]
                       | _, _ => None
                       end) a b
  else None.
(** one set and a number: __sub__ (489-495), __add__ (522-528), __rmul__ (532-542), square (598-606) *)
Definition unary (f : Qc -> Qc) (a : dds) : dds := map (fun x => mkb (bname x) (shape x) (coo x) (map (map f) (val x))) a.
Definition sub_num (a : dds) (c : Qc) : dds := unary (fun v => v - c) a.
Definition add_num (a : dds) (c : Qc) : dds := unary (fun v => v + c) a.
Definition rmul (c : Qc) (a : dds) : dds := unary (fun v => c * v) a.
Definition square (a : dds) : dds := unary (fun v => v ^ 2) a.

(** np.max; of no entries it raises *)
Definition maxq (a b : Qc) : Qc := if qleb a b then b else a.
Definition minq (a b : Qc) : Qc := if qleb a b then a else b.
Definition fold1 (f : Qc -> Qc -> Qc) (l : list Qc) : option Qc :=
  match l with [] => None | a :: l => Some (fold_left f l a) end.
Definition component (i : nat) (b : block) : list Qc := nth i (val b) [].
(** maximum (168-184), component i *)
Definition maximum (a : dds) (i : nat) : option Qc :=
  match traverse (fun b => fold1 maxq (map absq (component i b))) a with
  | Some l => fold1 maxq l
  | None => None
  end.
(** L2_norm (186-211): the square of the norm of component i; dh divides by shape[0] for every coordinate *)
Definition sumq (l : list Qc) : Qc := fold_left Qcplus l 0.
Definition extent (l : list Qc) : option Qc :=
  match fold1 maxq l, fold1 minq l with Some a, Some b => Some (a - b) | _, _ => None end.
Definition cell (b : block) : option Qc :=
  match traverse (fun c => match extent c with Some e => Some (e / qc_of (Z.of_nat (hd O (shape b)))) | None => None end) (coo b) with
  | Some h => Some (fold_left Qcmult h 1)
  | None => None
  end.
Definition l2_square (a : dds) (i : nat) : option Qc :=
  match traverse (fun b => match cell b with
                           | Some vol => Some (sumq (map (fun v => v ^ 2 * vol) (component i b)))
                           | None => None
                           end) a with
  | Some l => Some (sumq l)
  | None => None
  end.
