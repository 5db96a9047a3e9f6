(** Model of local matrices and vectors, their assembling and customizations:
    /repo/msehtt/tools/matrix/static/{local,global_}.py, /repo/msehtt/tools/vector/static/local.py,
    /repo/msehtt/tools/linear_system/static/local/{main,customize}.py.
    Numbers are exact rationals.  A matrix (vector) of all ranks is the list over the ranks of the
    dictionaries element -> data visible through [__getitem__]; the caches behind [__getitem__] are
    in LmCacheModel.v. *)
From Coq Require Import List Arith ZArith QArith Qcanon Bool Lia.
From Verif Require Import Dict GmModel QSums.
Import ListNotations.
Local Open Scope nat_scope.

(** ** sparse matrices: csr or csc, stored as (minor index, value) per major line, i.e.
    [indices[indptr[j]:indptr[j+1]]] and [data[indptr[j]:indptr[j+1]]] *)
Inductive fmt := CSR | CSC.
Record smat := { sm_fmt : fmt; sm_nr : nat; sm_nc : nat; sm_lines : list (list (nat * Qc)) }.
Definition line_at (ln : list (nat * Qc)) (c : nat) : Qc := qsum (map snd (filter (fun iv => fst iv =? c) ln)).
Definition line_has (ln : list (nat * Qc)) (c : nat) : bool := existsb (fun iv => fst iv =? c) ln.
(** the value and whether it is stored *)
Definition sm_at (m : smat) (r c : nat) : Qc :=
  match sm_fmt m with CSR => line_at (nth r (sm_lines m) []) c | CSC => line_at (nth c (sm_lines m) []) r end.
Definition sm_has (m : smat) (r c : nat) : bool :=
  match sm_fmt m with CSR => line_has (nth r (sm_lines m) []) c | CSC => line_has (nth c (sm_lines m) []) r end.
(** [tolil()]: rows with increasing columns, duplicates summed, stored zeros kept *)
Definition to_rows (m : smat) : list (list (nat * Qc)) :=
  map (fun r => map (fun c => (c, sm_at m r c)) (filter (sm_has m r) (seq 0 (sm_nc m)))) (seq 0 (sm_nr m)).

Notation lmat := (dict nat smat).            (* one rank *)
Notation lvec := (dict nat (list Qc)).
Notation triple := (nat * nat * Qc)%type.

(** ** assembling a matrix, local.py 690-784 *)
(** 729-730 [data[np.abs(data) < threshold] = 0.] *)
Definition qabs (v : Qc) : Qc := if Qclt_le_dec v 0 then (- v)%Qc else v.
Definition cut_small (t : option Qc) (v : Qc) : Qc :=
  match t with Some t => if Qclt_le_dec (qabs v) t then 0%Qc else v | None => v end.
(** 736-749: line [j] of csc and of csr *)
Definition line_triples (t : option Qc) (f : fmt) (gr gc : list nat) (j : nat) (ln : list (nat * Qc)) : option (list triple) :=
  obind ln (fun iv => match f with
                      | CSC => match nth_error gr (fst iv), nth_error gc j with Some r, Some c => Some (r, c, cut_small t (snd iv)) | _, _ => None end
                      | CSR => match nth_error gr j, nth_error gc (fst iv) with Some r, Some c => Some (r, c, cut_small t (snd iv)) | _, _ => None end
                      end).
Definition elem_triples (t : option Qc) (gr gc : list nat) (m : smat) : option (list triple) :=
  option_map (@concat _) (obind (combine (seq 0 (length (sm_lines m))) (sm_lines m))
    (fun jl => line_triples t (sm_fmt m) gr gc (fst jl) (snd jl))).
(** 721-753 *)
Definition rank_triples (t : option Qc) (gr gc : rgm) (M : lmat) : option (list triple) :=
  option_map (@concat _) (obind (keys gr) (fun e =>
    match nget gr e, nget gc e, nget M e with Some a, Some b, Some m => elem_triples t a b m | _, _, _ => None end)).
Definition assemble_matrix (t : option Qc) (gr gc : dgm) (Ms : list lmat) : option (list (list triple)) :=
  obind (combine (combine gr gc) Ms) (fun x => rank_triples t (fst (fst x)) (snd (fst x)) (snd x)).
(** [SPA_MATRIX((DAT, (ROW, COL)))] sums duplicates; global_.py 101-106 [value_at]: sum over the ranks *)
Definition entry (ts : list triple) (r c : nat) : Qc :=
  qsum (map snd (filter (fun x => (fst (fst x) =? r) && (snd (fst x) =? c)) ts)).
Definition value_at (A : list (list triple)) (r c : nat) : Qc := qsum (map (fun ts => entry ts r c) A).

(** ** assembling a vector, vector/static/local.py 32-40, [v[gm[i]] += self[i]]: numpy reads
    all places, adds, and writes all places *)
Definition add_at (v : list Qc) (ix : list nat) (d : list Qc) : option (list Qc) :=
  match obind ix (nth_error v) with
  | Some old => if length d =? length ix then set_all ix (map (fun ab => (fst ab + snd ab)%Qc) (combine old d)) v else None
  | None => None
  end.
Definition rank_vector (n : nat) (g : rgm) (b : lvec) : option (list Qc) :=
  fold_left (fun acc e => match acc, nget g e, nget b e with Some v, Some ix, Some d => add_at v ix d | _, _, _ => None end)
    (keys g) (Some (repeat 0%Qc n)).
Definition assemble_vector (g : dgm) (bs : list lvec) : option (list (list Qc)) :=
  obind (combine g bs) (fun gb => rank_vector (num_dofs g) (fst gb) (snd gb)).
(** global_distributed.py 69-75: the vector is the sum over the ranks *)
Definition vec_at (V : list (list Qc)) (r : nat) : Qc := qsum (map (fun v => nth r v 0%Qc) V).

(** ** customizations *)
Fixpoint set_nth {A} (n : nat) (v : A) (l : list A) : list A :=
  match n, l with _, [] => [] | 0, _ :: r => v :: r | S m, a :: r => a :: set_nth m v r end.
(** [data = ...tolil(); data[l, :] = 0] and, if [one], [data[l, l] = 1]; [tocsr()] *)
Definition set_row (l : nat) (one : bool) (m : smat) : option smat :=
  if (l <? sm_nr m) && (negb one || (l <? sm_nc m))
  then Some {| sm_fmt := CSR; sm_nr := sm_nr m; sm_nc := sm_nc m; sm_lines := set_nth l (if one then [(l, 1%Qc)] else []) (to_rows m) |}
  else None.
Definition set_row_at (one : bool) (M : lmat) (e l : nat) : option lmat :=
  match nget M e with Some m => option_map (nput M e) (set_row l one m) | None => None end.
(** 422-428, 456-461 *)
Definition norm_dof (n : nat) (i : Z) : option nat :=
  let i := (if i <? 0 then i + Z.of_nat n else i)%Z in
  if ((0 <=? i) && (i <? Z.of_nat n))%Z then Some (Z.to_nat i) else None.
(** 429-434 [zero_row]; also 486-491 *)
Fixpoint zero_places (pl : list (nat * nat)) (M : lmat) : option lmat :=
  match pl with
  | [] => Some M
  | (e, l) :: r => match set_row_at false M e l with Some M' => zero_places r M' | None => None end
  end.
(** 472-485: the first place in the representative element gets the one *)
Fixpoint identify_places (e0 : nat) (rep : bool) (pl : list (nat * nat)) (M : lmat) : option lmat :=
  match pl with
  | [] => Some M
  | (e, l) :: r =>
      if (e =? e0) && rep
      then match set_row_at true M e l with Some M' => identify_places e0 false r M' | None => None end
      else match set_row_at false M e l with Some M' => identify_places e0 rep r M' | None => None end
  end.
(** gathering_matrix.py 473-481 *)
Definition num_locations (g : dgm) (i : nat) : nat := fold_right Nat.add 0 (map (fun r => length (locate r i)) g).
(** 436-491 in rank [k] *)
Definition identify_row_rank (g : dgm) (k i : nat) (M : lmat) : option lmat :=
  let pl := locate (nth k g []) i in
  if num_locations g i =? 1
  then match pl with [(e, l)] => set_row_at true M e l | _ => Some M end
  else match representative g i with
       | Some (rk, e) => if k =? rk then identify_places e true pl M else zero_places pl M
       | None => None
       end.
Definition identify_row (g : dgm) (Ms : list lmat) (i : Z) : option (list lmat) :=
  match norm_dof (num_dofs g) i with
  | Some d => obind (combine (seq 0 (length Ms)) Ms) (fun kM => identify_row_rank g (fst kM) d (snd kM))
  | None => None
  end.
Definition zero_row (g : dgm) (Ms : list lmat) (i : Z) : option (list lmat) :=
  match norm_dof (num_dofs g) i with
  | Some d => obind (combine (seq 0 (length Ms)) Ms) (fun kM => zero_places (locate (nth (fst kM) g []) d) (snd kM))
  | None => None
  end.
(** 534-542 *)
Fixpoint identify_rows (g : dgm) (Ms : list lmat) (ds : list Z) : option (list lmat) :=
  match ds with [] => Some Ms | i :: r => match identify_row g Ms i with Some Ms' => identify_rows g Ms' r | None => None end end.
Fixpoint zero_rows (g : dgm) (Ms : list lmat) (ds : list Z) : option (list lmat) :=
  match ds with [] => Some Ms | i :: r => match zero_row g Ms i with Some Ms' => zero_rows g Ms' r | None => None end end.

(** a history of customisations of one matrix: (true, i) identifies row i, (false, i) zeroes it *)
Fixpoint customise (g : dgm) (Ms : list lmat) (ops : list (bool * Z)) : option (list lmat) :=
  match ops with
  | [] => Some Ms
  | (o, i) :: r => match (if o then identify_row g Ms i else zero_row g Ms i) with Some Ms' => customise g Ms' r | None => None end
  end.

(** vector/static/local.py 302-350 [set_value] *)
Definition set_at (b : lvec) (e l : nat) (v : Qc) : option lvec :=
  match nget b e with Some d => option_map (nput b e) (setnth l v d) | None => None end.
Fixpoint zero_values (pl : list (nat * nat)) (b : lvec) : option lvec :=
  match pl with
  | [] => Some b
  | (e, l) :: r => match set_at b e l 0%Qc with Some b' => zero_values r b' | None => None end
  end.
Fixpoint value_places (e0 : nat) (rep : bool) (v : Qc) (pl : list (nat * nat)) (b : lvec) : option lvec :=
  match pl with
  | [] => Some b
  | (e, l) :: r =>
      if (e =? e0) && rep
      then match set_at b e l v with Some b' => value_places e0 false v r b' | None => None end
      else match set_at b e l 0%Qc with Some b' => value_places e0 rep v r b' | None => None end
  end.
Definition set_value_rank (g : dgm) (k i : nat) (v : Qc) (b : lvec) : option lvec :=
  let pl := locate (nth k g []) i in
  if num_locations g i =? 1
  then match pl with [(e, l)] => set_at b e l v | _ => Some b end
  else match representative g i with
       | Some (rk, e) => if k =? rk then value_places e true v pl b else zero_values pl b
       | None => None
       end.
Definition set_value (g : dgm) (bs : list lvec) (i : Z) (v : Qc) : option (list lvec) :=
  match norm_dof (num_dofs g) i with
  | Some d => obind (combine (seq 0 (length bs)) bs) (fun kb => set_value_rank g (fst kb) d v (snd kb))
  | None => None
  end.
(** 352-361 *)
Fixpoint set_values (g : dgm) (bs : list lvec) (ds : list Z) (vs : list Qc) : option (list lvec) :=
  match ds, vs with
  | [], [] => Some bs
  | i :: r, v :: s => match set_value g bs i v with Some bs' => set_values g bs' r s | None => None end
  | _, _ => None
  end.
(** linear_system/static/local/customize.py 17-22 [set_dof], called for a list of dofs *)
Fixpoint set_dofs (gr : dgm) (Ms : list lmat) (bs : list lvec) (ds : list Z) (vs : list Qc) : option (list lmat * list lvec) :=
  match ds, vs with
  | [], [] => Some (Ms, bs)
  | i :: r, v :: s => match identify_row gr Ms i, set_value gr bs i v with
                      | Some Ms', Some bs' => set_dofs gr Ms' bs' r s
                      | _, _ => None
                      end
  | _, _ => None
  end.

(** ** blocks: local.py 587-613 and scipy's [bmat] *)
(** the height (width) of a block row (column): all blocks there must agree and one must exist *)
Fixpoint extent (f : smat -> nat) (l : list (option smat)) : option nat :=
  match l with
  | [] => None
  | None :: r => extent f r
  | Some m :: r => match extent f r with
                   | Some n => if n =? f m then Some n else None
                   | None => if forallb (fun o => match o with None => true | _ => false end) r then Some (f m) else None
                   end
  end.
Definition column {A} (j : nat) (rows : list (list A)) : option (list A) := obind rows (fun r => nth_error r j).
(** one line of a block row: the lines of the blocks, shifted *)
Fixpoint block_line (r : nat) (off : nat) (bs : list (option smat)) (ws : list nat) : list (nat * Qc) :=
  match bs, ws with
  | b :: bs', w :: ws' =>
      match b with Some m => map (fun iv => (off + fst iv, snd iv)) (nth r (to_rows m) []) | None => [] end
      ++ block_line r (off + w) bs' ws'
  | _, _ => []
  end.
Definition block_lines (h : nat) (bs : list (option smat)) (ws : list nat) : list (list (nat * Qc)) :=
  map (fun r => block_line r 0 bs ws) (seq 0 h).
Definition sp_bmat (B : list (list (option smat))) : option smat :=
  match B with
  | [] => None
  | b0 :: _ =>
      if forallb (fun b => length b =? length b0) B then
        match obind B (extent sm_nr), obind (seq 0 (length b0)) (fun j => match column j B with Some c => extent sm_nc c | None => None end) with
        | Some hs, Some ws => Some {| sm_fmt := CSR; sm_nr := fold_right Nat.add 0 hs; sm_nc := fold_right Nat.add 0 ws;
                                      sm_lines := concat (map (fun hb => block_lines (fst hb) (snd hb) ws) (combine hs B)) |}
        | _, _ => None
        end
      else None
  end.
(** the local matrix of the blocks in one rank: [es] the elements, blocks are dictionaries *)
Definition bmat_rank (es : list nat) (B : list (list (option lmat))) : option lmat :=
  obind es (fun e =>
    match obind B (fun row => obind row (fun b => match b with
                                                  | None => Some None
                                                  | Some M => option_map Some (nget M e)
                                                  end)) with
    | Some Be => option_map (pair e) (sp_bmat Be)
    | None => None
    end).
(** all ranks: rank [k] of every block *)
Definition at_rank {A} (k : nat) (b : option (list A)) : option (option A) :=
  match b with None => Some None | Some l => option_map Some (nth_error l k) end.
Definition bmat (cg : dgm) (B : list (list (option (list lmat)))) : option (list lmat) :=
  obind (combine (seq 0 (length cg)) cg) (fun kg =>
    match obind B (fun row => obind row (at_rank (fst kg))) with
    | Some Bk => bmat_rank (keys (snd kg)) Bk
    | None => None
    end).

(** vector/static/local.py 391-437 [concatenate]: a missing block is zero *)
Definition concat_rank (es : list nat) (gs : list rgm) (bs : list (option lvec)) : option lvec :=
  obind es (fun e => option_map (fun parts => (e, concat parts))
    (obind (combine gs bs) (fun gb => match snd gb with
                                      | Some b => nget b e
                                      | None => option_map (fun ix => repeat 0%Qc (length ix)) (nget (fst gb) e)
                                      end))).
Definition concatenate (cg : dgm) (gms : list dgm) (bs : list (option (list lvec))) : option (list lvec) :=
  obind (combine (seq 0 (length cg)) cg) (fun kg =>
    match by_rank (fst kg) gms, obind bs (at_rank (fst kg)) with
    | Some gs, Some bk => concat_rank (keys (snd kg)) gs bk
    | _, _ => None
    end).

(** linear_system/static/local/customize.py 53-88 [apply_essential_bc] of unknown [i]: dofs and values
    as found there; a missing block or right hand side raises *)
Definition essential_row (g : dgm) (i : nat) (row : list (option (list lmat))) (ds : list Z) : option (list (option (list lmat))) :=
  obind (combine (seq 0 (length row)) row) (fun jb =>
    match snd jb with
    | Some Ms => option_map Some (if i =? fst jb then identify_rows g Ms ds else zero_rows g Ms ds)
    | None => None
    end).
Definition apply_essential_bc (gms : list dgm) (B : list (list (option (list lmat)))) (b : list (option (list lvec)))
    (i : nat) (ds : list Z) (vs : list Qc) : option (list (list (option (list lmat))) * list (option (list lvec))) :=
  match nth_error gms i, nth_error B i, nth_error b i with
  | Some g, Some row, Some (Some bi) =>
      match essential_row g i row ds, set_values g bi ds vs with
      | Some row', Some bi' => Some (set_nth i row' B, set_nth i (Some bi') b)
      | _, _ => None
      end
  | _, _, _ => None
  end.

(** ** global_.py *)
(** 193-202 [diagonal] and 204-210, global_distributed.py 81-87: the Jacobi preconditioner *)
Definition jacobi_diag (n : nat) (A : list (list triple)) : list Qc :=
  map (fun i => let d := value_at A i i in if Qclt_le_dec d 1 then (/ 1)%Qc else (/ d)%Qc) (seq 0 n).
Definition scale_rows (D : list Qc) (A : list (list triple)) : list (list triple) :=
  map (map (fun x => (fst (fst x), snd (fst x), (nth (fst (fst x)) D 0 * snd x)%Qc))) A.
Definition scale_vec (D : list Qc) (V : list (list Qc)) : list (list Qc) :=
  map (fun v => map (fun dv => (fst dv * snd dv)%Qc) (combine D v)) V.

(** 212-243 [___find_essential_rows___] *)
Definition stored_cols (ts : list triple) (r : nat) : list nat :=
  nodup Nat.eq_dec (map (fun x => snd (fst x)) (filter (fun x => fst (fst x) =? r) ts)).
Definition looks_essential (ts : list triple) (r : nat) : bool :=
  match stored_cols ts r with
  | [c] => (c =? r) && (if Qc_eq_dec (entry ts r c) 1 then true else false)
  | _ => false
  end.
(** 224-239: reported by exactly one rank *)
Definition essential_rows (n : nat) (A : list (list triple)) : list nat :=
  filter (fun r => length (filter (fun ts => looks_essential ts r) A) =? 1) (seq 0 n).
