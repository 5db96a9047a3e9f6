(** Model of the global numberings of msehtt, for meshes given by vertex labels:
    /repo/msehtt/static/space/gathering_matrix/Lambda/GM_m2n2k0.py, GM_m2n2k1.py, GM_m2n2k2.py,
    GM_m3n3k0.py, GM_m3n3k1.py, GM_m3n3k2.py, GM_m3n3k3.py.

    Every element function walks through a fixed sequence of places (a corner, an edge, a face, the
    inside) and fills a slice of the numbering array at each.  The sequence of an element is a list
    of [visit]s below; the rules of one visit are common to all the functions.
    Simplified: the dictionaries of nodes, edges and faces are one dictionary, its keys are the
    tuples of vertex labels and differ in length; the degrees are positive
    (elements/types/base.py:395, 407); the memo by (mesh, degree) is not modelled here. *)
From Coq Require Import Arith List Bool Lia.
From Verif Require Import NdArray Dict GmModel.
Import ListNotations.

(** ** arrays and slices *)
Notation slot := (list nat).                 (* component :: multi-index *)
Inductive axis := First | Last | All | Inn | But.     (* 0, -1, :, 1:-1, :-1 *)
Definition ax_list (n : nat) (a : axis) : list nat :=
  match a with
  | First => [0]
  | Last => [n - 1]
  | All => seq 0 n
  | Inn => seq 1 (n - 2)
  | But => seq 0 (n - 1)
  end.
Definition ax_dim (n : nat) (a : axis) : list nat :=
  match a with
  | First | Last => []
  | _ => [length (ax_list n a)]
  end.
(** the multi-indices of a slice, the first index fastest *)
Fixpoint cart (axs : list (list nat)) : list (list nat) :=
  match axs with
  | [] => [[]]
  | ax :: r => flat_map (fun ix => map (fun i => i :: ix) ax) (cart r)
  end.
Record slice := { s_slots : list slot; s_dims : list nat }.
(** [array_c[a1, a2, ...]] for an array of the given shape *)
Definition sl (c : nat) (sh : list nat) (axs : list axis) : slice :=
  {| s_slots := map (cons c) (cart (map (fun na => ax_list (fst na) (snd na)) (combine sh axs)));
     s_dims := flat_map (fun na => ax_dim (fst na) (snd na)) (combine sh axs) |}.
(** an integer array: its shape and its entries in F order; a number has the shape [] *)
Record vals := { v_dims : list nat; v_data : list nat }.
(** numpy broadcasting between arrays of equal rank, or of a number *)
Fixpoint fits (src tgt : list nat) : bool :=
  match src, tgt with
  | [], [] => true
  | a :: s, b :: t => ((a =? b) || (a =? 1)) && fits s t
  | _, _ => false
  end.
Fixpoint bc_index (src ix : list nat) : list nat :=
  match src, ix with
  | a :: s, i :: r => (if a =? 1 then 0 else i) :: bc_index s r
  | _, _ => []
  end.
(** the entries, in F order, that [array[slice] = v] writes; None is a ValueError *)
Definition spread (v : vals) (tgt : list nat) : option (list nat) :=
  match v_dims v with
  | [] => match v_data v with [x] => Some (repeat x (prodl tgt)) | _ => None end
  | src => if fits src tgt
           then obind (indices tgt)
                  (fun ix => match ravelF src (bc_index src ix) with Some r => nth_error (v_data v) r | None => None end)
           else None
  end.

(** ** visits *)
Inductive visit :=
| VNode (a : nat) (s : slice)                        (* the corner map_[a] *)
| VEdge (turn : bool) (a b n : nat) (s : slice)      (* the edge (map_[a], map_[b]) with n dofs; [turn]: looks for the reversed edge too *)
| VFace (f : list nat) (sh : list nat) (s : slice)   (* a face with a grid of dofs *)
| VPair (f : list nat) (sh1 sh2 : list nat) (s1 s2 : slice)   (* a face with two grids of dofs, kept as one row of numbers *)
| VIn (sh : list nat) (s : slice).                   (* the inside *)

Record state := { pool : dict (list nat) vals; cur : nat }.
Definition st0 := {| pool := []; cur := 0 |}.
Definition pget := get sig_eqb (V := vals).
(** [np.arange(current, current + n).reshape(sh, order='F')], [current += n] *)
Definition arange (sh : list nat) (st : state) : vals * state :=
  ({| v_dims := sh; v_data := seq (cur st) (prodl sh) |}, {| pool := pool st; cur := cur st + prodl sh |}).
Definition keep (k : list nat) (vst : vals * state) : vals * state :=
  (fst vst, {| pool := put sig_eqb (pool (snd vst)) k (fst vst); cur := cur (snd vst) |}).
(** GM_m2n2k0.py:91-97; a number is taken from the pool, or it is the next one.  GM_m3n3k0.py:189-195 for edges etc. *)
Definition fetch (k sh : list nat) (st : state) : vals * state :=
  match pget (pool st) k with
  | Some v => (v, st)
  | None => keep k (arange sh st)
  end.
(** GM_m2n2k0.py:101-111: an edge is also found reversed, then its numbers are reversed *)
Definition turned (v : vals) := {| v_dims := v_dims v; v_data := rev (v_data v) |}.
Definition fetch_turn (a b n : nat) (st : state) : vals * state :=
  match pget (pool st) [a; b] with
  | Some v => (v, st)
  | None => match pget (pool st) [b; a] with
            | Some v => (turned v, st)
            | None => keep [a; b] (arange [n] st)
            end
  end.
(** the writes to the array of an element, the most recent first *)
Notation writes := (list (slot * nat)).
Fixpoint slot_look (w : writes) (s : slot) : option nat :=
  match w with
  | [] => None
  | (s', v) :: r => if sig_eqb s s' then Some v else slot_look r s
  end.
Definition put_slice (s : slice) (v : vals) (w : writes) : option writes :=
  match spread v (s_dims s) with
  | Some xs => Some (combine (s_slots s) xs ++ w)
  | None => None
  end.
Definition corners (m : list nat) (ix : list nat) : option (list nat) := obind ix (nth_error m).
(** GM_m3n3k1.py:210-211: [number[:n].reshape(sh1)], [number[n:].reshape(sh2)] *)
Definition put_pair (sh1 sh2 : list nat) (s1 s2 : slice) (v : vals) (w : writes) : option writes :=
  if length (v_data v) =? prodl sh1 + prodl sh2 then
    match put_slice s1 {| v_dims := sh1; v_data := firstn (prodl sh1) (v_data v) |} w with
    | Some w1 => put_slice s2 {| v_dims := sh2; v_data := skipn (prodl sh1) (v_data v) |} w1
    | None => None
    end
  else None.
Definition with_state (st : state) (w : option writes) : option (writes * state) := option_map (fun x => (x, st)) w.
Definition do_visit (m : list nat) (x : visit) (wst : writes * state) : option (writes * state) :=
  let (w, st) := wst in
  match x with
  | VNode a s => match nth_error m a with
                 | Some c => let (v, st') := fetch [c] [] st in with_state st' (put_slice s v w)
                 | None => None
                 end
  | VEdge turn a b n s =>
      match nth_error m a, nth_error m b with
      | Some c, Some d =>
          let (v, st') := if turn then fetch_turn c d n st else fetch [c; d] [n] st in
          with_state st' (put_slice s v w)
      | _, _ => None
      end
  | VFace f sh s => match corners m f with
                    | Some k => let (v, st') := fetch k sh st in with_state st' (put_slice s v w)
                    | None => None
                    end
  | VPair f sh1 sh2 s1 s2 =>
      match corners m f with
      | Some k => let (v, st') := fetch k [prodl sh1 + prodl sh2] st in with_state st' (put_pair sh1 sh2 s1 s2 v w)
      | None => None
      end
  | VIn sh s => let (v, st') := arange sh st in with_state st' (put_slice s v w)
  end.
Fixpoint do_visits (m : list nat) (xs : list visit) (wst : writes * state) : option (writes * state) :=
  match xs with
  | [] => Some wst
  | x :: r => match do_visit m x wst with Some wst' => do_visits m r wst' | None => None end
  end.
(** the visits of an element, and its entries in the order of the row of the gathering matrix *)
Record program := { p_visits : list visit; p_out : list slot }.
(** the array starts with -1; [assert -1 not in numbering] *)
Definition element (m : list nat) (pr : program) (st : state) : option (list nat * state) :=
  match do_visits m (p_visits pr) ([], st) with
  | Some (w, st') => match obind (p_out pr) (slot_look w) with
                     | Some row => Some (row, st')
                     | None => None
                     end
  | None => None
  end.

(** ** the 2-D element functions *)
Inductive etype := E5 | ECurvTri | EMsepyTri | E9 | ECurvQuad | EMsepyQuad | ERect | EHex11 | EOrthHex | EMsepyHex.
Definition whole (c : nat) (sh : list nat) : list slot := s_slots (sl c sh (repeat All (length sh))).

Section Plane.
  Context (px py : nat).
  (** GM_m2n2k0.py:83-190 *)
  Definition quad0 : program :=
    let sh := [px + 1; py + 1] in
    {| p_visits :=
         [ VNode 0 (sl 0 sh [First; First]);
           VEdge true 0 1 (px - 1) (sl 0 sh [Inn; First]);
           VNode 1 (sl 0 sh [Last; First]);
           VEdge true 0 2 (py - 1) (sl 0 sh [First; Inn]);
           VIn [px - 1; py - 1] (sl 0 sh [Inn; Inn]);
           VEdge true 1 3 (py - 1) (sl 0 sh [Last; Inn]);
           VNode 2 (sl 0 sh [First; Last]);
           VEdge true 2 3 (px - 1) (sl 0 sh [Inn; Last]);
           VNode 3 (sl 0 sh [Last; Last]) ];
       p_out := whole 0 sh |}.
  (** 196-303 *)
  Definition quad9_0 : program :=
    let sh := [px + 1; py + 1] in
    {| p_visits :=
         [ VNode 0 (sl 0 sh [First; First]);
           VEdge true 0 1 (px - 1) (sl 0 sh [Inn; First]);
           VNode 1 (sl 0 sh [Last; First]);
           VEdge true 0 3 (py - 1) (sl 0 sh [First; Inn]);
           VIn [px - 1; py - 1] (sl 0 sh [Inn; Inn]);
           VEdge true 1 2 (py - 1) (sl 0 sh [Last; Inn]);
           VNode 3 (sl 0 sh [First; Last]);
           VEdge true 3 2 (px - 1) (sl 0 sh [Inn; Last]);
           VNode 2 (sl 0 sh [Last; Last]) ];
       p_out := whole 0 sh |}.
  (** 309-434: the row is [numbering[0, 0]] followed by [numbering[1:, :].ravel('F')] *)
  Definition tri0 : program :=
    let sh := [px + 1; py + 1] in
    {| p_visits :=
         [ VNode 0 (sl 0 sh [First; All]);
           VEdge true 0 1 (px - 1) (sl 0 sh [Inn; First]);
           VNode 1 (sl 0 sh [Last; First]);
           VIn [px - 1; py - 1] (sl 0 sh [Inn; Inn]);
           VEdge true 1 2 (py - 1) (sl 0 sh [Last; Inn]);
           VEdge true 0 2 (px - 1) (sl 0 sh [Inn; Last]);
           VNode 2 (sl 0 sh [Last; Last]) ];
       p_out := [0; 0; 0] :: map (cons 0) (cart [seq 1 px; seq 0 (py + 1)]) |}.
  (** 32-58 *)
  Definition prog_k0 (t : etype) : option program :=
    match t with
    | EMsepyQuad | ERect => Some quad0
    | E5 | ECurvTri | EMsepyTri => if px =? py then Some tri0 else None
    | E9 | ECurvQuad => Some quad9_0
    | _ => None
    end.

  (** GM_m2n2k1.py:125-197: the array of dy is component 0, the one of dx component 1 *)
  Definition quad1o : program :=
    let dy := [px + 1; py] in let dx := [px; py + 1] in
    {| p_visits :=
         [ VEdge true 0 2 py (sl 0 dy [First; All]);
           VIn [px - 1; py] (sl 0 dy [Inn; All]);
           VEdge true 1 3 py (sl 0 dy [Last; All]);
           VEdge true 0 1 px (sl 1 dx [All; First]);
           VIn [px; py - 1] (sl 1 dx [All; Inn]);
           VEdge true 2 3 px (sl 1 dx [All; Last]) ];
       p_out := whole 0 dy ++ whole 1 dx |}.
  (** 200-272 *)
  Definition quad9_1o : program :=
    let dy := [px + 1; py] in let dx := [px; py + 1] in
    {| p_visits :=
         [ VEdge true 0 3 py (sl 0 dy [First; All]);
           VIn [px - 1; py] (sl 0 dy [Inn; All]);
           VEdge true 1 2 py (sl 0 dy [Last; All]);
           VEdge true 0 1 px (sl 1 dx [All; First]);
           VIn [px; py - 1] (sl 1 dx [All; Inn]);
           VEdge true 3 2 px (sl 1 dx [All; Last]) ];
       p_out := whole 0 dy ++ whole 1 dx |}.
  (** 275-371 *)
  Definition tri1o : program :=
    let dy := [px; py] in let dx := [px; py + 1] in
    {| p_visits :=
         [ VIn [px - 1; py] (sl 0 dy [But; All]);
           VEdge true 1 2 py (sl 0 dy [Last; All]);
           VEdge true 0 1 px (sl 1 dx [All; First]);
           VIn [px; py - 1] (sl 1 dx [All; Inn]);
           VEdge true 0 2 px (sl 1 dx [All; Last]) ];
       p_out := whole 0 dy ++ whole 1 dx |}.
  (** 56-87 *)
  Definition prog_k1o (t : etype) : option program :=
    match t with
    | EMsepyQuad | ERect => Some quad1o
    | E5 | ECurvTri | EMsepyTri => Some tri1o
    | E9 | ECurvQuad => Some quad9_1o
    | _ => None
    end.
  (** 489-561: the array of dx is component 0, the one of dy component 1 *)
  Definition quad1i : program :=
    let dx := [px; py + 1] in let dy := [px + 1; py] in
    {| p_visits :=
         [ VEdge true 0 1 px (sl 0 dx [All; First]);
           VIn [px; py - 1] (sl 0 dx [All; Inn]);
           VEdge true 2 3 px (sl 0 dx [All; Last]);
           VEdge true 0 2 py (sl 1 dy [First; All]);
           VIn [px - 1; py] (sl 1 dy [Inn; All]);
           VEdge true 1 3 py (sl 1 dy [Last; All]) ];
       p_out := whole 0 dx ++ whole 1 dy |}.
  (** 564-636 *)
  Definition quad9_1i : program :=
    let dx := [px; py + 1] in let dy := [px + 1; py] in
    {| p_visits :=
         [ VEdge true 0 1 px (sl 0 dx [All; First]);
           VIn [px; py - 1] (sl 0 dx [All; Inn]);
           VEdge true 3 2 px (sl 0 dx [All; Last]);
           VEdge true 0 3 py (sl 1 dy [First; All]);
           VIn [px - 1; py] (sl 1 dy [Inn; All]);
           VEdge true 1 2 py (sl 1 dy [Last; All]) ];
       p_out := whole 0 dx ++ whole 1 dy |}.
  (** 639-730 *)
  Definition tri1i : program :=
    let dx := [px; py + 1] in let dy := [px; py] in
    {| p_visits :=
         [ VEdge true 0 1 px (sl 0 dx [All; First]);
           VIn [px; py - 1] (sl 0 dx [All; Inn]);
           VEdge true 0 2 px (sl 0 dx [All; Last]);
           VIn [px - 1; py] (sl 1 dy [But; All]);
           VEdge true 1 2 py (sl 1 dy [Last; All]) ];
       p_out := whole 0 dx ++ whole 1 dy |}.
  (** 419-450 *)
  Definition prog_k1i (t : etype) : option program :=
    match t with
    | EMsepyQuad | ERect => Some quad1i
    | E5 | ECurvTri | EMsepyTri => Some tri1i
    | E9 | ECurvQuad => Some quad9_1i
    | _ => None
    end.
  (** GM_m2n2k2.py:67-73 *)
  Definition quad2 : program :=
    {| p_visits := [ VIn [px; py] (sl 0 [px; py] [All; All]) ]; p_out := whole 0 [px; py] |}.
  (** 26-42 *)
  Definition prog_k2 (t : etype) : option program :=
    match t with
    | E5 | E9 | EMsepyQuad | ERect | EMsepyTri | ECurvQuad => Some quad2
    | _ => None
    end.
End Plane.

(** ** the 3-D element functions; element_face_topology_mismatch is False *)
Section Space.
  Context (px py pz : nat).
  (** GM_m3n3k0.py:76-378 *)
  Definition hex0 : program :=
    let sh := [px + 1; py + 1; pz + 1] in
    {| p_visits :=
         [ VNode 0 (sl 0 sh [First; First; First]);
           VNode 1 (sl 0 sh [Last; First; First]);
           VNode 2 (sl 0 sh [First; Last; First]);
           VNode 3 (sl 0 sh [Last; Last; First]);
           VNode 4 (sl 0 sh [First; First; Last]);
           VNode 5 (sl 0 sh [Last; First; Last]);
           VNode 6 (sl 0 sh [First; Last; Last]);
           VNode 7 (sl 0 sh [Last; Last; Last]);
           VEdge false 0 1 (px - 1) (sl 0 sh [Inn; First; First]);
           VEdge false 2 3 (px - 1) (sl 0 sh [Inn; Last; First]);
           VEdge false 4 5 (px - 1) (sl 0 sh [Inn; First; Last]);
           VEdge false 6 7 (px - 1) (sl 0 sh [Inn; Last; Last]);
           VEdge false 0 2 (py - 1) (sl 0 sh [First; Inn; First]);
           VEdge false 1 3 (py - 1) (sl 0 sh [Last; Inn; First]);
           VEdge false 4 6 (py - 1) (sl 0 sh [First; Inn; Last]);
           VEdge false 5 7 (py - 1) (sl 0 sh [Last; Inn; Last]);
           VEdge false 0 4 (pz - 1) (sl 0 sh [First; First; Inn]);
           VEdge false 1 5 (pz - 1) (sl 0 sh [Last; First; Inn]);
           VEdge false 2 6 (pz - 1) (sl 0 sh [First; Last; Inn]);
           VEdge false 3 7 (pz - 1) (sl 0 sh [Last; Last; Inn]);
           VFace [0; 2; 4; 6] [py - 1; pz - 1] (sl 0 sh [First; Inn; Inn]);
           VFace [1; 3; 5; 7] [py - 1; pz - 1] (sl 0 sh [Last; Inn; Inn]);
           VFace [0; 1; 4; 5] [px - 1; pz - 1] (sl 0 sh [Inn; First; Inn]);
           VFace [2; 3; 6; 7] [px - 1; pz - 1] (sl 0 sh [Inn; Last; Inn]);
           VFace [0; 1; 2; 3] [px - 1; py - 1] (sl 0 sh [Inn; Inn; First]);
           VFace [4; 5; 6; 7] [px - 1; py - 1] (sl 0 sh [Inn; Inn; Last]);
           VIn [px - 1; py - 1; pz - 1] (sl 0 sh [Inn; Inn; Inn]) ];
       p_out := whole 0 sh |}.
  (** GM_m3n3k1.py:75-303 *)
  Definition hex1 : program :=
    let dx := [px; py + 1; pz + 1] in let dy := [px + 1; py; pz + 1] in let dz := [px + 1; py + 1; pz] in
    {| p_visits :=
         [ VEdge false 0 1 px (sl 0 dx [All; First; First]);
           VEdge false 2 3 px (sl 0 dx [All; Last; First]);
           VEdge false 4 5 px (sl 0 dx [All; First; Last]);
           VEdge false 6 7 px (sl 0 dx [All; Last; Last]);
           VEdge false 0 2 py (sl 1 dy [First; All; First]);
           VEdge false 1 3 py (sl 1 dy [Last; All; First]);
           VEdge false 4 6 py (sl 1 dy [First; All; Last]);
           VEdge false 5 7 py (sl 1 dy [Last; All; Last]);
           VEdge false 0 4 pz (sl 2 dz [First; First; All]);
           VEdge false 1 5 pz (sl 2 dz [Last; First; All]);
           VEdge false 2 6 pz (sl 2 dz [First; Last; All]);
           VEdge false 3 7 pz (sl 2 dz [Last; Last; All]);
           VPair [0; 2; 4; 6] [py; pz - 1] [py - 1; pz] (sl 1 dy [First; All; Inn]) (sl 2 dz [First; Inn; All]);
           VPair [1; 3; 5; 7] [py; pz - 1] [py - 1; pz] (sl 1 dy [Last; All; Inn]) (sl 2 dz [Last; Inn; All]);
           VPair [0; 1; 4; 5] [px; pz - 1] [px - 1; pz] (sl 0 dx [All; First; Inn]) (sl 2 dz [Inn; First; All]);
           VPair [2; 3; 6; 7] [px; pz - 1] [px - 1; pz] (sl 0 dx [All; Last; Inn]) (sl 2 dz [Inn; Last; All]);
           VPair [0; 1; 2; 3] [px; py - 1] [px - 1; py] (sl 0 dx [All; Inn; First]) (sl 1 dy [Inn; All; First]);
           VPair [4; 5; 6; 7] [px; py - 1] [px - 1; py] (sl 0 dx [All; Inn; Last]) (sl 1 dy [Inn; All; Last]);
           VIn [px; py - 1; pz - 1] (sl 0 dx [All; Inn; Inn]);
           VIn [px - 1; py; pz - 1] (sl 1 dy [Inn; All; Inn]);
           VIn [px - 1; py - 1; pz] (sl 2 dz [Inn; Inn; All]) ];
       p_out := whole 0 dx ++ whole 1 dy ++ whole 2 dz |}.
  (** GM_m3n3k2.py:75-168 *)
  Definition hex2 : program :=
    let yz := [px + 1; py; pz] in let zx := [px; py + 1; pz] in let xy := [px; py; pz + 1] in
    {| p_visits :=
         [ VFace [0; 2; 4; 6] [py; pz] (sl 0 yz [First; All; All]);
           VFace [1; 3; 5; 7] [py; pz] (sl 0 yz [Last; All; All]);
           VFace [0; 1; 4; 5] [px; pz] (sl 1 zx [All; First; All]);
           VFace [2; 3; 6; 7] [px; pz] (sl 1 zx [All; Last; All]);
           VFace [0; 1; 2; 3] [px; py] (sl 2 xy [All; All; First]);
           VFace [4; 5; 6; 7] [px; py] (sl 2 xy [All; All; Last]);
           VIn [px - 1; py; pz] (sl 0 yz [Inn; All; All]);
           VIn [px; py - 1; pz] (sl 1 zx [All; Inn; All]);
           VIn [px; py; pz - 1] (sl 2 xy [All; All; Inn]) ];
       p_out := whole 0 yz ++ whole 1 zx ++ whole 2 xy |}.
  (** GM_m3n3k3.py *)
  Definition hex3 : program :=
    {| p_visits := [ VIn [px; py; pz] (sl 0 [px; py; pz] [All; All; All]) ]; p_out := whole 0 [px; py; pz] |}.
  Definition is_hex (t : etype) : bool := match t with EHex11 | EOrthHex | EMsepyHex => true | _ => false end.
  Definition prog_hex (k : nat) (t : etype) : option program :=
    if is_hex t then
      match k with 0 => Some hex0 | 1 => Some hex1 | 2 => Some hex2 | 3 => Some hex3 | _ => None end
    else None.
End Space.

(** ** the mesh *)
(** an element: its type, its vertex labels, whether it belongs to the mesh portion
    ([e in tpm.composition.global_element_range]); elements outside get None, which becomes the empty row
    (tools/gathering_matrix.py:184-185) *)
Record elem := { e_type : etype; e_map : list nat; e_in : bool }.
(** GM_m2n2k0.py:24-61: the elements one after another *)
Fixpoint number_mesh (prog : etype -> option program) (es : list (nat * elem)) (st : state)
  : option (dict nat (list nat) * state) :=
  match es with
  | [] => Some ([], st)
  | (e, x) :: r =>
      match (if e_in x
             then match prog (e_type x) with Some pr => element (e_map x) pr st | None => None end
             else Some ([], st)) with
      | Some (row, st1) => match number_mesh prog r st1 with
                           | Some (g, st2) => Some ((e, row) :: g, st2)
                           | None => None
                           end
      | None => None
      end
  end.
(** 64-71: the rows of the elements of a rank; KeyError if an element is not in the map *)
Definition for_ranks (g : dict nat (list nat)) (ranks : list (list nat)) : option dgm :=
  obind ranks (fun es => obind es (fun e => option_map (pair e) (nget g e))).
Definition gathering (prog : etype -> option program) (es : list (nat * elem)) (ranks : list (list nat)) : option dgm :=
  match number_mesh prog es st0 with Some (g, _) => for_ranks g ranks | None => None end.
