(** * Arrays of terms with three forms: /repo/msehtt/static/form/addons/nop_data_computer/
    trilinear_AxB_ip_C.py, trilinear_AxB_ip_dC.py, trilinear_AxB_dp_C.py, trilinear_ABC.py, trilinear_AB_ip_dC.py,
    trilinear_AdB_ip_C.py, trilinear_AdB_ip_dC.py, log_A_ip_B.py; the caches of these arrays and
    /repo/msehtt/adaptive/main.py (current_base).
    None stands for an exception.  Floating-point numbers are real numbers. *)
From Coq Require Import List Arith Bool Reals.
From Verif Require Import NlModel.
Import ListNotations.
Local Open Scope R_scope.

(** the classes; AxB_dp_C inherits everything but its dictionary from AxB_ip_C (trilinear_AxB_dp_C.py 10-32) *)
Inductive op := AxB_C | AxB_dpC | AxB_dC | T_ABC | AB_dC | AdB_C | AdB_dC.

(** rm[c][e][l, i]: row l is a quadrature node, column i a local dof *)
Notation rmat := (nat -> nat -> R).
(** what a form offers in one element at the quadrature nodes: number of local dofs, reconstruction matrices of the
    components, number of local dofs of d(f), incidence matrix, reconstruction matrices of d(f) *)
Record fel := mk_fel { ndof : nat; rms : list rmat; ndof_d : nat; inc : rmat; rms_d : list rmat }.

(** trilinear_AxB_ip_dC.py 90-99: rmc @ ei for every component *)
Definition matmul (n : nat) (r : rmat) (E : rmat) : rmat := fun l k => rsum n (fun m => r l m * E m k).
Definition comps (d : bool) (f : fel) : list rmat :=
  if d then map (fun r => matmul (ndof_d f) r (inc f)) (rms_d f) else rms f.
(** trilinear_AB_ip_dC.py 86-98, trilinear_AdB_ip_C.py 86-98, trilinear_AdB_ip_dC.py 86-107 *)
Definition d_of_B (o : op) : bool := match o with AdB_C | AdB_dC => true | _ => false end.
Definition d_of_C (o : op) : bool := match o with AxB_dC | AB_dC | AdB_dC => true | _ => false end.
Definition is_cross (o : op) : bool := match o with AxB_C | AxB_dpC | AxB_dC => true | _ => false end.

(** np.einsum('li, lj, lk, l -> ijk', x, y, z, qw_ravel * detJ); [w]: qw_ravel * detJ *)
Definition einsum4 (nq : nat) (x y z : rmat) (w : nat -> R) : nat -> nat -> nat -> R :=
  fun i j k => rsum nq (fun l => x l i * y l j * z l k * w l).
Definition plus3 (f g : nat -> nat -> nat -> R) i j k := f i j k + g i j k.
Definition minus3 (f g : nat -> nat -> nat -> R) i j k := f i j k - g i j k.
Definition neg3 (f : nat -> nat -> nat -> R) i j k := - f i j k.

(** trilinear_AxB_ip_C.py 133-193, trilinear_AxB_ip_dC.py 137-201: the indicator is (m, lengths) *)
Definition cross_data (m nq : nat) (w : nat -> R) (rA rB rC : list rmat) : option (nat -> nat -> nat -> R) :=
  match m, rA, rB, rC with
  | 2%nat, [x], [u; v], [a; b] => Some (plus3 (neg3 (einsum4 nq x v a w)) (einsum4 nq x u b w))
  | 2%nat, [wx; wy], [u; v], [c] => Some (minus3 (einsum4 nq wx v c w) (einsum4 nq wy u c w))
  | 3%nat, [wx; wy; wz], [u; v; w'], [a; b; c] =>
      Some (plus3 (plus3 (minus3 (einsum4 nq wy w' a w) (einsum4 nq wz v a w))
                         (minus3 (einsum4 nq wz u b w) (einsum4 nq wx w' b w)))
                  (minus3 (einsum4 nq wx v c w) (einsum4 nq wy u c w)))
  | _, _, _, _ => None
  end.
(** trilinear_ABC.py 136-161, trilinear_AB_ip_dC.py 136-166, trilinear_AdB_ip_C.py 137-167, trilinear_AdB_ip_dC.py 146-177 *)
Definition dot_data (m nq : nat) (w : nat -> R) (rA rB rC : list rmat) : option (nat -> nat -> nat -> R) :=
  match m, rA, rB, rC with
  | 2%nat, [x], [u; v], [a; b] => Some (plus3 (einsum4 nq x u a w) (einsum4 nq x v b w))
  | 2%nat, [a], [b], [c] => Some (einsum4 nq a b c w)
  | _, _, _, _ => None
  end.

(** metric_signature: a string (numbered) or another object; dof_reverse_info of 'm2n2k1_outer' and 'm2n2k1_inner' *)
Inductive etyp := Rect | CurvQuad | Hexa | Quad9 | CurvHexa | OtherE.
Inductive signature := Str (s : nat) | Obj.
Record elem := mk_elem {
  etype : etyp; sig : signature; rev_outer : option (list nat); rev_inner : option (list nat);
  detJ : nat -> R; eA : fel; eB : fel; eC : fel }.

Definition to_nd (sh : list nat) (f : nat -> nat -> nat -> R) : nd :=
  mk_nd sh (fun ix => match ix with [i; j; k] => f i j k | _ => 0 end).
(** the array of one element; in python the lengths in the indicator are those of the lists of all elements *)
Definition element_data (o : op) (m nq : nat) (qw : nat -> R) (e : elem) : option nd :=
  let w := fun l => qw l * detJ e l in
  option_map (to_nd [ndof (eA e); ndof (eB e); ndof (eC e)])
    ((if is_cross o then cross_data else dot_data) m nq w
       (comps false (eA e)) (comps (d_of_B o) (eB e)) (comps (d_of_C o) (eC e))).

(** trilinear_AxB_ip_C.py 97-125 (with "unique msepy curvilinear hexahedron", also trilinear_ABC.py 104-131) and 108-130 of the
    others: the key of the dictionary of a call.  Outer option: exception; inner option: not a string, no caching *)
Inductive ekey := KSig (s : nat) | KRev (s : nat) (ro ri : option (list nat)).
Definition curv_hexa_ok (o : op) : bool := match o with AxB_C | AxB_dpC | T_ABC => true | _ => false end.
Definition key_of (o : op) (e : elem) : option (option ekey) :=
  match etype e with
  | Rect | CurvQuad | Hexa => Some (match sig e with Str s => Some (KSig s) | Obj => None end)
  | Quad9 => match sig e with Str s => Some (Some (KRev s (rev_outer e) (rev_inner e))) | Obj => None end
  | CurvHexa => if curv_hexa_ok o then Some None else None
  | OtherE => None
  end.
Definition olist_eqb (a b : option (list nat)) : bool :=
  match a, b with
  | Some a, Some b => if list_eq_dec Nat.eq_dec a b then true else false
  | None, None => true
  | _, _ => false
  end.
Definition ekey_eqb (a b : ekey) : bool :=
  match a, b with
  | KSig s, KSig t => (s =? t)%nat
  | KRev s ro ri, KRev t ro' ri' => (s =? t)%nat && olist_eqb ro ro' && olist_eqb ri ri'
  | _, _ => false
  end.
Fixpoint find_key {K V} (eqb : K -> K -> bool) (k : K) (c : list (K * V)) : option V :=
  match c with [] => None | (k', v) :: c => if eqb k k' then Some v else find_key eqb k c end.

(** trilinear_AxB_ip_C.py 91-202: one pass over the elements; [c]: _cache_; the result: _3d_data *)
Fixpoint pass (o : op) (m nq : nat) (qw : nat -> R) (es : list (nat * elem)) (c : list (ekey * nd)) : option (list (nat * nd)) :=
  match es with
  | [] => Some []
  | (i, e) :: es =>
      match key_of o e with
      | None => None
      | Some k =>
          match match k with Some k => find_key ekey_eqb k c | None => None end with
          | Some T => option_map (cons (i, T)) (pass o m nq qw es c)
          | None =>
              match element_data o m nq qw e with
              | None => None
              | Some T =>
                  option_map (cons (i, T)) (pass o m nq qw es (match k with Some k => (k, T) :: c | None => c end))
              end
          end
      end
  end.

(** degrees: an int or a tuple of ints (floats left out) *)
Inductive deg := Num (p : nat) | Tup (l : list nat).
(** trilinear_AxB_ip_C.py 56-72; the others, e.g. trilinear_AB_ip_dC.py 57-68, accept numbers only; max of () raises *)
Definition tuples_ok (o : op) : bool := match o with AxB_C | AxB_dpC | T_ABC => true | _ => false end.
Definition deg_num (o : op) (d : deg) : option nat :=
  match d with
  | Num p => Some p
  | Tup l => if tuples_ok o then match l with [] => None | _ => Some (list_max l) end else None
  end.
(** trilinear_AxB_ip_C.py 74: int(max(...) * 1.5) + 1 *)
Definition quad_degree (o : op) (a b c : deg) : option nat :=
  match deg_num o a, deg_num o b, deg_num o c with
  | Some a, Some b, Some c => Some ((3 * Nat.max (Nat.max a b) c) / 2 + 1)%nat
  | _, _, _ => None
  end.
(** 76-84: quadrature((q, ..., q), category='Gauss') has q + 1 nodes in each direction (tools/quadrature.py);
    [rule q]: number of nodes and the weights, [els q]: the elements with what forms offer at these nodes *)
Definition generate (o : op) (m n : nat) (a b c : deg) (rule : nat -> nat * (nat -> R)) (els : nat -> list (nat * elem))
  : option (list (nat * nd)) :=
  match quad_degree o a b c with
  | None => None
  | Some q =>
      if ((m =? n) && ((m =? 2) || (m =? 3)))%nat
      then pass o m (fst (rule q)) (snd (rule q)) (els q) [] else None
  end.

(** log_A_ip_B.py 101-120: the vector of one element for base e, [ca]: the cochain of A; quad_degree of 82 *)
Definition matvec (n : nat) (r : rmat) (c : nat -> R) : nat -> R := fun l => rsum n (fun i => r l i * c i).
Definition log_vector (nq : nat) (qw : nat -> R) (dJ : nat -> R) (fA fB : fel) (ca : nat -> R) : option (nat -> R) :=
  match rms fA, rms fB with
  | RA :: _, RB :: _ => Some (fun k => rsum nq (fun q => ln (matvec (ndof fA) RA ca q) * RB q k * (qw q * dJ q)))
  | _, _ => None
  end.
(** 72-82: degrees must be numbers; int(max(...)) + 5 *)
Definition log_quad_degree (a b : deg) : option nat :=
  match a, b with Num a, Num b => Some (Nat.max a b + 5)%nat | _, _ => None end.

(** ** the dictionaries of arrays that live as long as the program *)

(** trilinear_AxB_ip_C.py 19-26: the key is made of space.__repr__() and the degree for A, B, C; the repr contains the address
    of the space (/repo/msehtt/static/space/main.py 217-220).  [D]: arrays *)
Notation gkey := (list (nat * deg)).
Definition deg_eqb (a b : deg) : bool :=
  match a, b with
  | Num p, Num q => (p =? q)%nat
  | Tup l, Tup k => if list_eq_dec Nat.eq_dec l k then true else false
  | _, _ => false
  end.
Fixpoint gkey_eqb (a b : gkey) : bool :=
  match a, b with
  | [], [] => true
  | (x, d) :: a, (y, d') :: b => (x =? y)%nat && deg_eqb d d' && gkey_eqb a b
  | _, _ => false
  end.
(** an adaptive program: the number of the generation, the addresses of the spaces of the last generations (newest first), the
    generation base['current_generation'] of the last current_base(), and the dictionary of each class *)
Record prog (D : Type) := mk_prog {
  gen : nat; addrs : list (list nat); current : option nat; dict : op -> list (gkey * D) }.
Arguments mk_prog {D}. Arguments gen {D}. Arguments addrs {D}. Arguments current {D}. Arguments dict {D}.

(** /repo/msehtt/adaptive/space/main.py 33-41, ___func___.py 21-46: a renewal makes new spaces; two generations are kept.
    Addresses are given by the runtime; they differ from those of objects in use, here the last two generations *)
Definition disjoint (a b : list nat) : bool := forallb (fun x => negb (existsb (Nat.eqb x) b)) a.
Fixpoint nodupb (l : list nat) : bool := match l with [] => true | x :: l => negb (existsb (Nat.eqb x) l) && nodupb l end.
Definition renew {D} (al : list nat) (p : prog D) : option (prog D) :=
  if nodupb al && forallb (disjoint al) (addrs p)
  then Some (mk_prog (S (gen p)) (firstn 2 (al :: addrs p)) (current p) (dict p)) else None.

(** /repo/msehtt/adaptive/main.py 335-363: current_base() empties three dictionaries when the generation has changed *)
Definition cleaned (o : op) : bool := match o with AxB_C | AxB_dpC | AxB_dC => true | _ => false end.
Definition current_base {D} (p : prog D) : prog D :=
  match current p with
  | Some g => if (g =? gen p)%nat then p
              else mk_prog (gen p) (addrs p) (Some (gen p)) (fun o => if cleaned o then [] else dict p o)
  | None => mk_prog (gen p) (addrs p) (Some (gen p)) (fun o => if cleaned o then [] else dict p o)
  end.

(** a term over the spaces number [s] of the current generation: trilinear_AxB_ip_C.py 42-54; [truth o g s]: what
    _generate_data_ makes of the spaces [s] of generation [g] *)
Definition set_dict {D} (f : op -> list (gkey * D)) (eqb : op -> op -> bool) (o : op) (v : list (gkey * D)) :=
  fun o' => if eqb o' o then v else f o'.
Definition op_eqb (a b : op) : bool :=
  match a, b with
  | AxB_C, AxB_C | AxB_dpC, AxB_dpC | AxB_dC, AxB_dC | T_ABC, T_ABC | AB_dC, AB_dC | AdB_C, AdB_C | AdB_dC, AdB_dC => true
  | _, _ => false
  end.
Definition address (p : list nat) (s : nat * deg) : option (nat * deg) :=
  match nth_error p (fst s) with Some a => Some (a, snd s) | None => None end.
Fixpoint addresses (p : list nat) (ss : list (nat * deg)) : option gkey :=
  match ss with
  | [] => Some []
  | s :: ss => match address p s, addresses p ss with Some a, Some l => Some (a :: l) | _, _ => None end
  end.
Definition make_data {D} (truth : op -> nat -> list (nat * deg) -> D) (o : op) (ss : list (nat * deg)) (p : prog D)
  : option (D * prog D) :=
  let p := current_base p in
  match addrs p with
  | [] => None
  | al :: _ =>
      match addresses al ss with
      | None => None
      | Some k =>
          match find_key gkey_eqb k (dict p o) with
          | Some T => Some (T, p)
          | None =>
              let T := truth o (gen p) ss in
              Some (T, mk_prog (gen p) (addrs p) (current p) (set_dict (dict p) op_eqb o ((k, T) :: dict p o)))
          end
      end
  end.

(** a run of a program: renewals and terms; the arrays that were made *)
Inductive event := Renew (al : list nat) | Term (o : op) (ss : list (nat * deg)).
Fixpoint run {D} (truth : op -> nat -> list (nat * deg) -> D) (evs : list event) (p : prog D)
  : option (list (op * nat * list (nat * deg) * D)) :=
  match evs with
  | [] => Some []
  | Renew al :: evs => match renew al p with Some p => run truth evs p | None => None end
  | Term o ss :: evs =>
      match make_data truth o ss p with
      | Some (T, p') => option_map (cons (o, gen p, ss, T)) (run truth evs p')
      | None => None
      end
  end.
Definition start {D} : prog D := mk_prog 0 [] None (fun _ => []).
