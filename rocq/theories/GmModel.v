(** Model of the gathering matrices of msehtt: /repo/msehtt/tools/gathering_matrix.py
    One rank holds a dictionary element -> numbering; a gathering matrix is the list of
    the dictionaries of all ranks.  The collectives [COMM.gather], [allgather],
    [allreduce], [scatter] are functions of this list. *)
From Coq Require Import List Arith ZArith Bool Lia.
From Verif Require Import Dict.
Import ListNotations.

Notation rgm := (dict nat (list nat)).
Notation dgm := (list rgm).
Notation nget := (get Nat.eqb).
Notation nput := (put Nat.eqb).

Fixpoint obind {A B} (l : list A) (f : A -> option B) : option (list B) :=
  match l with
  | [] => Some []
  | a :: r => match f a, obind r f with Some b, Some s => Some (b :: s) | _, _ => None end
  end.

(** 150-206 [_num_global_dofs]: the largest number plus one *)
Definition num_dofs (g : dgm) : nat := list_max (map S (concat (map snd (concat g)))).

(** ** chaining, 22-88 *)
(** 38-42 [ALL_GM[i].update(_)] over the ranks *)
Definition all_of (g : dgm) : rgm := fold_left (update_with Nat.eqb) g [].

Notation key := (nat * nat)%type.
Notation pool := (dict key nat).
(** 50-51, 59-66: [pool_dict], [current] *)
Fixpoint number_keys (ks : list key) (st : pool * nat) : list nat * (pool * nat) :=
  match ks with
  | [] => ([], st)
  | k :: r =>
      let (p, cur) := st in
      match get npair_eqb p k with
      | Some v => let (vs, st') := number_keys r st in (v :: vs, st')
      | None => let (vs, st') := number_keys r (put npair_eqb p k cur, S cur) in (cur :: vs, st')
      end
  end.
(** 56-58: [for i in range(num_variables): numbering = ALL_GM[i][e]], a missing element is a KeyError *)
Definition row_keys (alls : list rgm) (e : nat) : option (list key) :=
  option_map (@concat _)
    (obind (combine (seq 0 (length alls)) alls) (fun ia => option_map (map (pair (fst ia))) (nget (snd ia) e))).
Fixpoint chain_elements (alls : list rgm) (es : list nat) (st : pool * nat) : option (rgm * (pool * nat)) :=
  match es with
  | [] => Some ([], st)
  | e :: r => match row_keys alls e with
              | Some ks => let (vs, st1) := number_keys ks st in
                           match chain_elements alls r st1 with
                           | Some (g, st2) => Some ((e, vs) :: g, st2)
                           | None => None
                           end
              | None => None
              end
  end.
Fixpoint chain_ranks (alls : list rgm) (rks : list (list nat)) (st : pool * nat) : option (dgm * (pool * nat)) :=
  match rks with
  | [] => Some ([], st)
  | es :: r => match chain_elements alls es st with
               | Some (g, st1) => match chain_ranks alls r st1 with
                                  | Some (gs, st2) => Some (g :: gs, st2)
                                  | None => None
                                  end
               | None => None
               end
  end.
(** 22-72 *)
Definition chain_method_0 (gms : list dgm) : option dgm :=
  match gms with
  | [] => None
  | g0 :: _ =>
      match chain_ranks (map all_of gms) (map keys g0) ([], 0) with
      | Some (cgm, (_, cur)) =>
          if cur =? fold_right Nat.add 0 (map num_dofs gms) then Some cgm else None
      | None => None
      end
  end.
(** 75-88: [dict.keys() ==] compares sets; every rank checks its own *)
Definition same_keys (a b : rgm) : bool :=
  forallb (has Nat.eqb b) (keys a) && forallb (has Nat.eqb a) (keys b).
Fixpoint same_keys_ranks (a b : dgm) : bool :=
  match a, b with
  | [], [] => true
  | x :: a', y :: b' => same_keys x y && same_keys_ranks a' b'
  | _, _ => false
  end.
Definition chaining (gms : list dgm) : option dgm :=
  match gms with
  | g0 :: _ :: _ => if forallb (fun g => same_keys_ranks g g0) gms then chain_method_0 gms else None
  | _ => None
  end.
(** 115-124: a list of one is this one *)
Definition chain (gms : list dgm) : option dgm :=
  match gms with
  | [] => None
  | [g] => Some g
  | _ => chaining gms
  end.

(** ** the cache of chained numberings, 9, 91-124: the key is the string made of the addresses of
    the root matrices ([_signature = self.__repr__()]).  The state is the heap of living matrices
    and the cache; an address is given again once its matrix is gone, which is possible when
    nothing refers to it *)
Record gobj := { o_sig : list nat; o_members : list nat; o_gm : dgm }.   (* members by identity *)
Record gstate := { heap : dict nat gobj; next : nat; chains : dict (list nat) dgm }.
Definition g_init := {| heap := []; next := 0; chains := [] |}.
Fixpoint sig_eqb (a b : list nat) : bool :=
  match a, b with [], [] => true | x :: a', y :: b' => (x =? y) && sig_eqb a' b' | _, _ => false end.
Inductive gop :=
  | ONew (address : nat) (g : dgm)     (* 97-101 a matrix from a dictionary *)
  | OChain (members : list nat)        (* 103-124 *)
  | ODel (i : nat).                    (* the last name of a matrix goes *)
Definition is_root_at (a : nat) (o : gobj) : bool :=
  match o_members o with [] => sig_eqb (o_sig o) [a] | _ => false end.
(** 152-172: all ranks contain different elements *)
Fixpoint distinct (l : list nat) : bool :=
  match l with [] => true | a :: r => negb (existsb (Nat.eqb a) r) && distinct r end.
Definition g_add (st : gstate) (o : gobj) (c : dict (list nat) dgm) : gstate :=
  {| heap := heap st ++ [(next st, o)]; next := S (next st); chains := c |}.
Definition g_step (st : gstate) (op : gop) : option gstate :=
  match op with
  | ONew a g =>
      if existsb (is_root_at a) (map snd (heap st)) then None       (* no two living at one address *)
      else if distinct (concat (map keys g)) then
        Some (g_add st {| o_sig := [a]; o_members := []; o_gm := g |} (chains st))
      else None
  | OChain ids =>
      match obind ids (nget (heap st)) with
      | Some os =>
          let sig := flat_map o_sig os in
          match os with
          | [] => None
          | [o] => Some (g_add st {| o_sig := sig; o_members := ids; o_gm := o_gm o |} (chains st))
          | _ => match get sig_eqb (chains st) sig with
                 | Some c => Some (g_add st {| o_sig := sig; o_members := ids; o_gm := c |} (chains st))
                 | None => match chaining (map o_gm os) with
                           | Some c => Some (g_add st {| o_sig := sig; o_members := ids; o_gm := c |} (put sig_eqb (chains st) sig c))
                           | None => None
                           end
                 end
          end
      | None => None
      end
  | ODel i =>
      if existsb (fun o => existsb (Nat.eqb i) (o_members o)) (map snd (heap st)) then None
      else Some {| heap := filter (fun io => negb (fst io =? i)) (heap st); next := next st; chains := chains st |}
  end.
Fixpoint g_run (st : gstate) (ops : list gop) : option gstate :=
  match ops with [] => Some st | op :: r => match g_step st op with Some st' => g_run st' r | None => None end end.

(** ** sharing a global vector with the elements and back *)
Section Data.
  Context {A : Type} (zero : A).
  Notation edata := (list (dict nat (list A))).     (* ranks -> element -> data *)
  Fixpoint setnth (n : nat) (v : A) (l : list A) : option (list A) :=
    match n, l with
    | _, [] => None
    | 0, _ :: r => Some (v :: r)
    | S m, a :: r => option_map (cons a) (setnth m v r)
    end.
  (** [vec[gm] = dt]: one after the other, the last wins *)
  Fixpoint set_all (ix : list nat) (vs : list A) (l : list A) : option (list A) :=
    match ix, vs with
    | [], [] => Some l
    | i :: ix', v :: vs' => match setnth i v l with Some l' => set_all ix' vs' l' | None => None end
    | _, _ => None
    end.
  (** 483-505 [assemble], mode replace *)
  Fixpoint assemble_rank (g : rgm) (data : dict nat (list A)) (vec : list A) : option (list A) :=
    match g with
    | [] => Some vec
    | (e, nums) :: r => match nget data e with
                        | Some dt => match set_all nums dt vec with Some v => assemble_rank r data v | None => None end
                        | None => None
                        end
    end.
  Fixpoint assemble_ranks (g : dgm) (data : edata) (vec : list A) : option (list A) :=
    match g, data with
    | [], [] => Some vec
    | x :: g', y :: d' => match assemble_rank x y vec with Some v => assemble_ranks g' d' v | None => None end
    | _, _ => None
    end.
  Definition assemble (g : dgm) (data : edata) : option (list A) :=
    assemble_ranks g data (repeat zero (num_dofs g)).

  (** [V[gm[e]]] for all elements (565-571, and the update of unknowns) *)
  Definition share (es : list nat) (g : rgm) (V : list A) : option (dict nat (list A)) :=
    obind es (fun e => match nget g e with
                       | Some nums => option_map (pair e) (obind nums (nth_error V))
                       | None => None
                       end).
  (** 507-527 [split]: one dictionary per member *)
  Fixpoint cut (ns : list nat) (vs : list A) : option (list (list A)) :=
    match ns with
    | [] => match vs with [] => Some [] | _ => None end
    | n :: r => if n <=? length vs then option_map (cons (firstn n vs)) (cut r (skipn n vs)) else None
    end.
  Fixpoint add_parts (e : nat) (parts : list (list A)) (xs : list (dict nat (list A))) : list (dict nat (list A)) :=
    match parts, xs with
    | p :: ps, x :: xr => nput x e p :: add_parts e ps xr
    | _, _ => xs
    end.
  Definition split_rank (gms : list rgm) (cg : rgm) (data : dict nat (list A)) : option (list (dict nat (list A))) :=
    fold_left (fun acc e => match acc, nget data e, obind gms (fun g => option_map (@length nat) (nget g e)) with
                            | Some xs, Some vs, Some ns => option_map (fun parts => add_parts e parts xs) (cut ns vs)
                            | _, _, _ => None
                            end) (keys cg) (Some (map (fun _ => []) gms)).
  (** 549-582 [_merge_msehtt_gathered_global_vectors] *)
  Definition merge_rank (gms : list rgm) (cg : rgm) (Vs : list (list A)) : option (dict nat (list A)) :=
    match obind (combine gms Vs) (fun gV => share (keys cg) (fst gV) (snd gV)) with
    | Some ds => obind (keys cg) (fun e => option_map (fun parts => (e, concat parts)) (obind ds (fun d => nget d e)))
    | None => None
    end.
  (** the dictionaries of rank k of all members *)
  Definition by_rank (k : nat) (gms : list dgm) : option (list rgm) := obind gms (fun g => nth_error g k).
  Definition merge (gms : list dgm) (cgm : dgm) (Vs : list (list A)) : option (list A) :=
    if (length Vs =? length gms) && forallb (fun gV => length (snd gV) =? num_dofs (fst gV)) (combine gms Vs)
    then match obind (combine (seq 0 (length cgm)) cgm)
                 (fun kc => match by_rank (fst kc) gms with Some gs => merge_rank gs (snd kc) Vs | None => None end) with
         | Some data => assemble cgm data
         | None => None
         end
    else None.
  (** share, then split: the parts of all ranks *)
  Definition split (gms : list dgm) (cgm : dgm) (data : edata) : option (list (list (dict nat (list A)))) :=
    obind (combine (seq 0 (length cgm)) (combine cgm data))
      (fun kcd => match by_rank (fst kcd) gms with
                  | Some gs => split_rank gs (fst (snd kcd)) (snd (snd kcd))
                  | None => None
                  end).
  (** a global vector of the chain given back to the members: shared with the elements, split, and
      assembled by each member (the update of the unknowns after a solve) *)
  Definition share_ranks (g : dgm) (V : list A) : option edata := obind g (fun r => share (keys r) r V).
  Definition unmerge (gms : list dgm) (cgm : dgm) (V : list A) : option (list (list A)) :=
    match share_ranks cgm V with
    | Some data => match split gms cgm data with
                   | Some parts => obind (combine (seq 0 (length gms)) gms)
                       (fun ig => match obind parts (fun xs => nth_error xs (fst ig)) with
                                  | Some d => assemble (snd ig) d
                                  | None => None
                                  end)
                   | None => None
                   end
    | None => None
    end.
End Data.

(** ** places of global dofs, 367-430; one rank *)
Fixpoint where_eq (d : nat) (k : nat) (row : list nat) : list nat :=
  match row with [] => [] | x :: r => if x =? d then k :: where_eq d (S k) r else where_eq d (S k) r end.
(** 414-424 *)
Definition locate (g : rgm) (d : nat) : list (nat * nat) :=
  flat_map (fun er => map (pair (fst er)) (where_eq d 0 (snd er))) g.

Notation locs := (list (nat * nat)).
Record find_state := { fs_cache : dict Z locs; fs_key : Z; fs_total : option (dict Z locs) }.
Definition fs_init := {| fs_cache := []; fs_key := (-1)%Z; fs_total := None |}.
Notation zget := (get Z.eqb).
Notation zput := (put Z.eqb).

(** 408-426: the loop over the dofs; stops at the first negative one *)
Fixpoint find_loop (g : rgm) (ds : list Z) (c out : dict Z locs) : bool * dict Z locs * dict Z locs :=
  match ds with
  | [] => (true, c, out)
  | d :: r => match zget c d with
              | Some l => find_loop g r c (zput out d l)
              | None => if (d <? 0)%Z then (false, c, out)
                        else let l := locate g (Z.to_nat d) in find_loop g r (zput c d l) (zput out d l)
              end
  end.
(** [h] is python's hash of tuples of integers *)
Definition find_list (h : list Z -> Z) (g : rgm) (st : find_state) (ds : list Z) : option (dict Z locs) * find_state :=
  if (h ds =? fs_key st)%Z then (fs_total st, st)
  else match find_loop g ds (fs_cache st) [] with
       | (true, c, out) => (Some out, {| fs_cache := c; fs_key := h ds; fs_total := Some out |})
       | (false, c, _) => (None, {| fs_cache := c; fs_key := fs_key st; fs_total := fs_total st |})
       end.
Inductive query := QInt (d : Z) | QList (ds : list Z).
(** [n] is [num_global_dofs] *)
Definition find (h : list Z -> Z) (n : nat) (g : rgm) (st : find_state) (q : query) : option (dict Z locs) * find_state :=
  match q with
  | QList ds => find_list h g st ds
  | QInt d => let d := (if d <? 0 then d + Z.of_nat n else d)%Z in
              match zget (fs_cache st) d with
              | Some l => (Some [(d, l)], st)
              | None => find_list h g st [d]
              end
  end.
Definition finds (h : list Z -> Z) (n : nat) (g : rgm) (qs : list query) (st : find_state) : find_state :=
  fold_left (fun st q => snd (find h n g st q)) qs st.

(** 432-471 [find_representative_location], all ranks: (rank, element).  The places come
    from [find_rank_locations_of_global_dofs], here directly from [locate] *)
Fixpoint first_some {A} (l : list (option A)) : option A :=
  match l with [] => None | Some a :: _ => Some a | None :: r => first_some r end.
Fixpoint index_of {A} (f : A -> bool) (k : nat) (l : list A) : option nat :=
  match l with [] => None | a :: r => if f a then Some k else index_of f (S k) r end.
Definition representative (g : dgm) (d : nat) : option (nat * nat) :=
  let places := map (fun r => locate r d) g in
  match first_some (map (fun l => option_map fst (hd_error l)) places) with
  | Some e => option_map (fun k => (k, e)) (index_of (fun l => existsb (fun ei => fst ei =? e) l) 0 places)
  | None => None
  end.

(** 310-327 [find_global_numbering_of_ith_composition_local_dof] *)
Definition ith_local_rank (gms : list rgm) (cg : rgm) (i e l : nat) : option nat :=
  match nget cg e with
  | None => Some 0
  | Some row => match obind (firstn i gms) (fun g => option_map (@length nat) (nget g e)) with
                | Some ns => nth_error row (fold_right Nat.add 0 ns + l)
                | None => None
                end
  end.
Definition ith_local (gms : list dgm) (cgm : dgm) (i e l : nat) : option nat :=
  match obind (combine (seq 0 (length cgm)) cgm)
          (fun kc => match by_rank (fst kc) gms with Some gs => ith_local_rank gs (snd kc) i e l | None => None end) with
  | Some ns => Some (fold_right Nat.add 0 ns)
  | None => None
  end.
(** 297-308 [find_global_numbering_of_ith_composition_global_dof]: the pair is (rank, element),
    it is taken for (element, local dof) *)
Definition ith_global (gms : list dgm) (cgm : dgm) (i d : nat) : option nat :=
  match nth_error gms i with
  | Some g => match representative g d with
              | Some (e, l) => ith_local gms cgm i e l
              | None => None
              end
  | None => None
  end.

(** 252-295 [__eq__] of matrices with different signatures, one rank: [np.all(a == b)] with numpy
    broadcasting of two one dimensional arrays; arrays that cannot be broadcast raise *)
Definition all_eq (a b : list nat) : option bool :=
  if length a =? length b then Some (forallb (fun xy => fst xy =? snd xy) (combine a b))
  else if length a =? 1 then Some (forallb (fun y => hd 0 a =? y) b)
  else if length b =? 1 then Some (forallb (fun x => x =? hd 0 b) a)
  else None.
Fixpoint eq_loop (es : rgm) (o : rgm) : option bool :=
  match es with
  | [] => Some true
  | (e, row) :: r => match nget o e with
                     | None => Some false
                     | Some row' => match all_eq row row' with
                                    | Some true => eq_loop r o
                                    | Some false => Some false
                                    | None => None
                                    end
                     end
  end.
Definition eq_rank (s o : rgm) : option bool := if length s =? length o then eq_loop s o else Some false.
(** the reduction over the ranks *)
Definition eq_gm (s o : dgm) : option bool :=
  option_map (forallb id) (obind (combine s o) (fun so => eq_rank (fst so) (snd so))).
