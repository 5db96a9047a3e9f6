(** Model of the objects behind [MseHttStaticLocalMatrix.__getitem__] in one rank:
    /repo/msehtt/tools/matrix/static/local.py.  Data arrays live in a heap, since assembling with a
    threshold writes into them (730) and a transposed matrix shares the data of its operand (271).
    The element-wise operations (-a, other * a, inv, a + b, a @ b, scipy's bmat) are arbitrary functions
    whose results are new arrays. *)
From Coq Require Import List Arith String QArith Qcanon Bool.
From Verif Require Import Dict GmModel QSums LmModel.
Import ListNotations.
Local Open Scope string_scope.
Local Open Scope nat_scope.

(** a matrix: an array in the heap, seen as it is or transposed *)
Notation ref := (nat * bool)%type.
Definition tr (m : smat) : smat :=
  {| sm_fmt := match sm_fmt m with CSR => CSC | CSC => CSR end; sm_nr := sm_nc m; sm_nc := sm_nr m; sm_lines := sm_lines m |}.
Definition view (flip : bool) (m : smat) : smat := if flip then tr m else m.
Definition deref (h : list smat) (r : ref) : option smat := option_map (view (snd r)) (nth_error h (fst r)).

(** 37-100: data and cache keys.  [KData]: a dictionary (an element without data has the zero matrix of
    its shape, 146), [KCall]: a function making a new matrix; both with their key of an element (83-114). *)
Inductive kind :=
  | KData (key : nat -> string) (d : dict nat ref) (shape : nat -> nat * nat)
  | KCall (key : nat -> string) (f : nat -> smat)
  | KUn (f : smat -> smat) (s : nat)                   (* 246-263 inv, neg; 284-304 other * *)
  | KTr (s : nat)                                      (* 266-282 *)
  | KBin (dot : bool) (f : smat -> smat -> smat) (a b : nat)   (* 306-332 + with a dot in the key; 345-371 @ without *)
  | KBlk (f : list smat -> smat) (b : nat) (bs : list nat).    (* 618-667: the blocks that are not None *)
Record obj := { o_kind : kind; o_cache : dict string ref; o_cust : dict nat ref }.
Record lstate := { objs : list obj; heap : list smat }.
Definition empty_lstate : lstate := {| objs := []; heap := [] |}.

(** ** cache keys *)
(** ['unique' in key] *)
Fixpoint contains (p s : string) : bool :=
  prefix p s || match s with EmptyString => false | String _ r => contains p r end.
Definition is_unique (k : string) : bool := String.eqb k "unique".
Definition customised (st : lstate) (i e : nat) : bool :=
  match nth_error (objs st) i with Some o => has Nat.eqb (o_cust o) e | None => false end.
(** 641-664: the loop over the blocks *)
Fixpoint blk_key (key : nat -> string) (cust : nat -> bool) (bs : list nat) (acc : list string) : string :=
  match bs with
  | [] => String.concat "." (rev acc)
  | b :: r => if cust b then "unique" else if is_unique (key b) then "unique" else blk_key key cust r (key b :: acc)
  end.
(** [n]: recursion depth; operands are made before *)
Fixpoint key_of (n : nat) (st : lstate) (i e : nat) : string :=
  match n with
  | 0 => "unique"
  | S n =>
      match option_map o_kind (nth_error (objs st) i) with
      | Some (KData k _ _) => k e
      | Some (KCall k _) => k e
      | Some (KUn _ s) => key_of n st s e
      | Some (KTr s) => key_of n st s e
      | Some (KBin dot _ a b) =>
          let k1 := key_of n st a e in let k2 := key_of n st b e in
          if is_unique k1 || is_unique k2 then "unique" else (k1 ++ (if dot then "." else "") ++ k2)%string
      | Some (KBlk _ b bs) => blk_key (fun j => key_of n st j e) (fun j => customised st j e) (b :: bs) []
      | None => "unique"
      end
  end.

(** ** reading *)
Definition alloc (st : lstate) (m : smat) : lstate * ref := ({| objs := objs st; heap := heap st ++ [m] |}, (List.length (heap st), false)).
Definition update (st : lstate) (i : nat) (f : obj -> obj) : lstate :=
  {| objs := match nth_error (objs st) i with Some o => set_nth i (f o) (objs st) | None => objs st end; heap := heap st |}.
Definition sput {V} (d : dict string V) k v := put String.eqb d k v.
Definition zero_mat (s : nat * nat) : smat := {| sm_fmt := CSC; sm_nr := fst s; sm_nc := snd s; sm_lines := repeat [] (snd s) |}.
(** several reads one after another *)
Fixpoint reads (rd : lstate -> nat -> option (lstate * ref)) (st : lstate) (bs : list nat) : option (lstate * list ref) :=
  match bs with
  | [] => Some (st, [])
  | b :: r => match rd st b with
              | Some (st1, x) => match reads rd st1 r with Some (st2, xs) => Some (st2, x :: xs) | None => None end
              | None => None
              end
  end.
Definition made (st : lstate) (m : option smat) : option (lstate * ref) := option_map (alloc st) m.
(** 132-149 [_get_meta_data] *)
Definition meta (rd : lstate -> nat -> option (lstate * ref)) (st : lstate) (k : kind) (e : nat) : option (lstate * ref) :=
  match k with
  | KData _ d shape => match get Nat.eqb d e with Some r => Some (st, r) | None => Some (alloc st (zero_mat (shape e))) end
  | KCall _ f => Some (alloc st (f e))
  | KUn f s => match rd st s with Some (st1, r) => made st1 (option_map f (deref (heap st1) r)) | None => None end
  | KTr s => match rd st s with Some (st1, r) => Some (st1, (fst r, negb (snd r))) | None => None end
  | KBin _ f a b =>
      match rd st a with
      | Some (st1, r1) => match rd st1 b with
                          | Some (st2, r2) => made st2 (match deref (heap st2) r1, deref (heap st2) r2 with Some x, Some y => Some (f x y) | _, _ => None end)
                          | None => None
                          end
      | None => None
      end
  | KBlk f b bs =>
      match reads rd st (b :: bs) with
      | Some (st1, rs) => made st1 (option_map f (obind rs (deref (heap st1))))
      | None => None
      end
  end.
(** 151-172 [__getitem__] *)
Fixpoint read (n : nat) (st : lstate) (e i : nat) : option (lstate * ref) :=
  match n with
  | 0 => None
  | S n =>
      match nth_error (objs st) i with
      | None => None
      | Some o =>
          match get Nat.eqb (o_cust o) e with
          | Some r => Some (st, r)
          | None =>
              let k := key_of (S n) st i e in
              if contains "unique" k then meta (fun st => read n st e) st (o_kind o) e
              else match get String.eqb (o_cache o) k with
                   | Some r => Some (st, r)
                   | None =>
                       match meta (fun st => read n st e) st (o_kind o) e with
                       | Some (st1, r) => Some (update st1 i (fun o => {| o_kind := o_kind o; o_cache := sput (o_cache o) k r; o_cust := o_cust o |}), r)
                       | None => None
                       end
                   end
          end
      end
  end.
Definition getitem (st : lstate) (i e : nat) : option (lstate * ref) := read (S i) st e i.

(** ** assembling: the data read, 711-732; [t] the threshold *)
Definition cut_mat (t : Qc) (m : smat) : smat :=
  {| sm_fmt := sm_fmt m; sm_nr := sm_nr m; sm_nc := sm_nc m; sm_lines := map (map (fun iv => (fst iv, cut_small (Some t) (snd iv)))) (sm_lines m) |}.
Definition cut_in_place (t : option Qc) (h : list smat) (r : ref) : list smat :=
  match t, nth_error h (fst r) with Some t, Some m => set_nth (fst r) (cut_mat t m) h | _, _ => h end.
Fixpoint assemble_reads (t : option Qc) (st : lstate) (i : nat) (es : list nat) : option (lstate * list smat) :=
  match es with
  | [] => Some (st, [])
  | e :: r =>
      match getitem st i e with
      | Some (st1, x) =>
          let st2 := {| objs := objs st1; heap := cut_in_place t (heap st1) x |} in
          match deref (heap st2) x, assemble_reads t st2 i r with
          | Some m, Some (st3, ms) => Some (st3, m :: ms)
          | _, _ => None
          end
      | None => None
      end
  end.

(** ** a program *)
Inductive lop :=
  | LNew (k : kind)
  | LHold (m : smat)                     (* the caller makes an array, to be used in dictionaries *)
  | LRead (i e : nat)
  | LCust (i e : nat) (f : smat -> smat) (* 429-434 and 466-491: [self._mat[e].tolil()], changed, [.tocsr()] *)
  | LClear (i : nat)                     (* 404-412 *)
  | LAssemble (i : nat) (t : option Qc).
Definition operands (k : kind) : list nat :=
  match k with KData _ _ _ | KCall _ _ => [] | KUn _ s | KTr s => [s] | KBin _ _ a b => [a; b] | KBlk _ b bs => b :: bs end.
Definition kind_ok (st : lstate) (k : kind) : bool :=
  forallb (fun j => j <? List.length (objs st)) (operands k) &&
  match k with KData _ d _ => forallb (fun er => fst (snd er) <? List.length (heap st)) d | _ => true end.
(** [es]: the elements of the rank *)
Definition lstep (es : list nat) (st : lstate) (op : lop) : option lstate :=
  match op with
  | LNew k => if kind_ok st k then Some {| objs := objs st ++ [{| o_kind := k; o_cache := []; o_cust := [] |}]; heap := heap st |} else None
  | LHold m => Some (fst (alloc st m))
  | LRead i e => if existsb (Nat.eqb e) es then option_map fst (getitem st i e) else None
  | LCust i e f =>
      if existsb (Nat.eqb e) es then
        match getitem st i e with
        | Some (st1, r) =>
            match deref (heap st1) r with
            | Some m => let (st2, r') := alloc st1 (f m) in
                        Some (update st2 i (fun o => {| o_kind := o_kind o; o_cache := o_cache o; o_cust := nput (o_cust o) e r' |}))
            | None => None
            end
        | None => None
        end
      else None
  | LClear i => Some (update st i (fun o => {| o_kind := o_kind o; o_cache := o_cache o; o_cust := [] |}))
  | LAssemble i t => option_map fst (assemble_reads t st i es)
  end.
Fixpoint lrun (es : list nat) (st : lstate) (ops : list lop) : option lstate :=
  match ops with [] => Some st | op :: r => match lstep es st op with Some st' => lrun es st' r | None => None end end.

(** 697-709: the key of the cache of assembled matrices, [format + cache + str(threshold)] *)
Definition assembled_key (format cache threshold : string) : string := (format ++ cache ++ threshold)%string.
