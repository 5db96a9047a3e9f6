(** What a weak formulation says: the value of its terms, the residuals of its equations,
    and how requests are written as text. *)
From Coq Require Import Ascii String Reals Bool Arith List Permutation.
From Verif Require Import WfModel.
Import ListNotations.
Local Open Scope list_scope.
Local Open Scope R_scope.

(* ------------------------------------------------ residuals, for terms with any values *)

Definition sg (s : sgn) : R := match s with Plus => 1 | Minus => -1 end.

Fixpoint total {T} (v : T -> R) (l : side T) : R :=
  match l with
  | [] => 0
  | (s, t) :: r => sg s * v t + total v r
  end.

(** left minus right *)
Definition residual {T} (v : T -> R) (e : eqn T) : R := total v (fst e) - total v (snd e).

(** the equations hold *)
Definition solves {T} (v : T -> R) (w : wf T) : Prop := forall e, In e (wf_eqs w) -> residual v e = 0.

(** all terms on the left *)
Definition gathered {T} (e : eqn T) : side T := fst e ++ map (fun st => (switch (fst st), snd st)) (snd e).

(** the k-th term of an equation as it counts on the left *)
Definition on_left {T} (e : eqn T) (k : nat) : option (sgn * T) := nth_error (gathered e) k.
Definition on_right {T} (e : eqn T) (k : nat) : option (sgn * T) :=
  option_map (fun st => (switch (fst st), snd st)) (on_left e k).

(* ------------------------------------------------ text *)

(** "1, 2" for [1; 2] *)
Fixpoint listed (l : list nat) : string :=
  match l with
  | [] => EmptyString
  | [n] => dec n
  | n :: r => String.append (dec n) (String "," (listed r))
  end.
(** "0, 3 = 1, 2", up to blanks *)
Definition asks (s : string) (l r : list nat) : Prop :=
  remove_char " " s = String.append (listed l) (String "=" (listed r)).

(** [s] is [s'] with blanks put in *)
Definition spaced (s s' : string) : Prop := remove_char " " s = s'.

(** a name that an expression can mention *)
Definition plain (s : string) : Prop :=
  s <> EmptyString /\ s <> "0"%string /\
  count_char " " s = 0%nat /\ count_char "+" s = 0%nat /\ count_char "-" s = 0%nat /\ count_char "=" s = 0%nat.

(** "-a+b": each term with its sign written before it *)
Definition sign_char (s : sgn) : ascii := match s with Plus => "+"%char | Minus => "-"%char end.
Fixpoint signed_text (l : list (sgn * string)) : string :=
  match l with
  | [] => EmptyString
  | (s, x) :: r => String (sign_char s) (String.append x (signed_text r))
  end.
(** a side: its terms, a leading plus being optional; nothing may be written 0 *)
Inductive side_text : list (sgn * string) -> string -> Prop :=
| st_signed l : side_text l (signed_text l)
| st_first x l : side_text ((Plus, x) :: l) (String.append x (signed_text l))
| st_zero : side_text [] "0"%string.
Definition equation_text (l r : list (sgn * string)) (s : string) : Prop :=
  exists sl sr, side_text l sl /\ side_text r sr /\ spaced s (String.append sl (String "=" sr)).

(** the terms that the names stand for *)
Definition stands {T} (interpreter : list (string * T)) (x : sgn * string) (y : sgn * T) : Prop :=
  fst x = fst y /\ sget (snd x) interpreter = Some (snd y).

(** several signs before a name multiply *)
Fixpoint product (l : list sgn) : sgn :=
  match l with
  | [] => Plus
  | Plus :: r => product r
  | Minus :: r => switch (product r)
  end.
Fixpoint signs_text (l : list sgn) : string :=
  match l with
  | [] => EmptyString
  | s :: r => String (sign_char s) (signs_text r)
  end.

(* ------------------------------------------------ the meaning of forms and terms *)

(** Values of forms in any space, the root forms depending on the time *)
Record interp := mkInterp {
  i_V : Type;
  i_root : nat -> R -> i_V;
  i_time : nat -> R;
  i_dt : (R -> i_V) -> R -> i_V;
  i_ext : i_V -> i_V;
  i_codiff : i_V -> i_V;
  i_tr : i_V -> i_V;
  i_star : i_V -> i_V;
  i_op : nat -> i_V -> i_V;
  i_cross : i_V -> i_V -> i_V;
  i_add : i_V -> i_V -> i_V;
  i_sub : i_V -> i_V -> i_V;
  i_div : i_V -> R -> i_V;
  i_pair : kind -> bool -> i_V -> i_V -> R }.

Fixpoint eval (I : interp) (rho : nat -> R -> i_V I) (f : form) (s : R) : i_V I :=
  match f with
  | Root a => rho a s
  | At f t => eval I rho f (i_time I t)
  | TimeDer f => i_dt I (eval I rho f) s
  | Ext f => i_ext I (eval I rho f s)
  | Codiff f => i_codiff I (eval I rho f s)
  | Tr f => i_tr I (eval I rho f s)
  | Star f => i_star I (eval I rho f s)
  | Op o f => i_op I o (eval I rho f s)
  | Crossp f g => i_cross I (eval I rho f s) (eval I rho g s)
  | Addf f g => i_add I (eval I rho f s) (eval I rho g s)
  | Subf f g => i_sub I (eval I rho f s) (eval I rho g s)
  | Divf f c => i_div I (eval I rho f s) c
  end.

Definition value_in (I : interp) (rho : nat -> R -> i_V I) (s : R) (t : term) : R :=
  t_factor t * i_pair I (t_kind t) (t_restricted t) (eval I rho (t_f0 t) s) (eval I rho (t_f1 t) s).
Definition value (I : interp) (s : R) (t : term) : R := value_in I (i_root I) s t.

(** (codiff b, f) = (b, d f) - <tr star b | tr f> *)
Definition green (I : interp) : Prop :=
  forall b f, i_pair I Inner false (i_codiff I b) f
              = i_pair I Inner false b (i_ext I f) - i_pair I Dual false (i_tr I (i_star I b)) (i_tr I f).
(** no boundary *)
Definition closed (I : interp) : Prop :=
  forall b f, i_pair I Dual false (i_tr I (i_star I b)) (i_tr I f) = 0.
(** the scalar triple product *)
Definition triple (I : interp) : Prop :=
  (forall k a b, i_pair I k false a b = i_pair I k false b a) /\
  (forall k a b c, i_pair I k false a (i_cross I b c) = i_pair I k false b (i_cross I c a)) /\
  (forall k a b c, i_pair I k false a (i_cross I b c) = - i_pair I k false a (i_cross I c b)).
(** (star a, b) = <a | b> and (a, star b) = <a | b> *)
Definition hodge (I : interp) : Prop :=
  (forall a b, i_pair I Inner false (i_star I a) b = i_pair I Dual false a b) /\
  (forall a b, i_pair I Inner false a (i_star I b) = i_pair I Dual false a b).
(** pairings are linear in the first form *)
Definition linear_first (I : interp) : Prop :=
  forall k,
  (forall a b g, i_pair I k false (i_add I a b) g = i_pair I k false a g + i_pair I k false b g) /\
  (forall a b g, i_pair I k false (i_sub I a b) g = i_pair I k false a g - i_pair I k false b g) /\
  (forall a c g, c <> 0 -> i_pair I k false (i_div I a c) g = i_pair I k false a g / c).

(** sum of the +- c_i (f_i, g) *)
Fixpoint combination {A} (p : A -> R) (l : list (sgn * A * R)) : R :=
  match l with
  | [] => 0
  | (s, a, c) :: r => sg s * (c * p a) + combination p r
  end.

(** The forms that the letters of a format stand for *)
Definition described (env : ascii -> form) (x : bool * ascii * ascii * ascii) (f0 f1 : form) : Prop :=
  let '(alone_first, p, q, r) := x in
  if alone_first then f0 = env p /\ f1 = Crossp (env q) (env r)
  else f0 = Crossp (env q) (env r) /\ f1 = env p.

(** the mean of the values at some instants *)
Fixpoint sum_list (l : list R) : R := match l with [] => 0 | x :: r => x + sum_list r end.

(* ------------------------------------------------ what is asked of a rearrangement *)

(** Indices that are not mentioned go to the other side, in order *)
Definition rest (n : nat) (l : list nat) : list nat := filter (fun k => negb (existsb (Nat.eqb k) l)) (seq 0 n).
Definition complete (n : nat) (l r : list nat) : list nat * list nat :=
  match l, r with
  | l, [] => if (length l <? n)%nat then (l, rest n l) else (l, [])
  | [], r => if (length r <? n)%nat then (rest n r, r) else ([], r)
  | l, r => (l, r)
  end.

(** At least one term; if unknowns are set, there are as many as equations and they occur in them *)
Definition acceptable {T} (efs : T -> list nat) (w : wf T) (eqs : list (eqn T)) : Prop :=
  terms_of eqs <> [] /\
  forall us, wf_unknowns w = Some us ->
    length us = length eqs /\ forall x, In x us -> exists t, In t (terms_of eqs) /\ In x (efs t).

Definition factors_of (into : list form) (factors : option (list R)) : list R :=
  match factors with Some l => l | None => map (fun _ => 1) into end.

(** the pairing of the other form with what stands for the form that is split *)
Definition paired (I : interp) (s : R) (of_f0 : bool) (t : term) (f : form) : R :=
  if of_f0 then i_pair I (t_kind t) false (eval I (i_root I) f s) (eval I (i_root I) (t_f1 t) s)
  else i_pair I (t_kind t) false (eval I (i_root I) (t_f0 t) s) (eval I (i_root I) f s).

(** a root form given another value *)
Definition upd {A} (rho : nat -> A) (a : nat) (v : A) : nat -> A := fun b => if Nat.eqb b a then v else rho b.
Definition ext_dt (I : interp) : Prop :=
  forall f g : R -> i_V I, (forall s, f s = g s) -> forall s, i_dt I f s = i_dt I g s.

(** What the requests make of the k-th term, which is [own] at first: each one changes what
    stands there, but differentiating starts from the term itself *)
Definition quotient (time : nat -> R) (own : term) (a ks ke : nat) : term :=
  mkTerm Inner 1 (Divf (Subf (At (Root a) ke) (At (Root a) ks)) (time ke - time ks)) (t_f1 own) false.
Inductive becomes (defined : list nat) (time : nat -> R) (k : nat) (own : term) : term -> list td_op -> term -> Prop :=
| b_nil t : becomes defined time k own t [] t
| b_other t o l t' : (match o with Differentiate j _ _ | Average j _ _ => j end) <> k ->
    becomes defined time k own t l t' -> becomes defined time k own t (o :: l) t'
| b_diff t a ks ke l t' : In ks defined -> In ke defined -> t_kind own = Inner -> t_f0 own = TimeDer (Root a) ->
    becomes defined time k own (quotient time own a ks ke) l t' -> becomes defined time k own t (Differentiate k ks ke :: l) t'
| b_avg t a ts f l t' : (forall u, In u ts -> In u defined) -> average_form a ts = Some f ->
    becomes defined time k own (mkTerm (t_kind t) (t_factor t) (subst a f (t_f0 t)) (subst a f (t_f1 t)) (t_restricted t)) l t' ->
    becomes defined time k own t (Average k a ts :: l) t'.

(** the terms [new] in the place of a term with the sign [old] *)
Definition signed {T} (old : sgn) (new : side T) : side T :=
  match old with Plus => new | Minus => map (fun st => (switch (fst st), snd st)) new end.
(** equation [e] with its k-th term replaced *)
Definition eq_put {T} (e : eqn T) (k : nat) (new : side T) : eqn T :=
  if (k <? length (fst e))%nat then (put (fst e) k new, snd e) else (fst e, put (snd e) (k - length (fst e))%nat new).

(* ------------------------------------------------ series of derivations *)

Inductive step :=
| SRearrange (req : list (nat * option string))
| SSwitch (rows : list nat)
| SParts (index : string) (periodic drop_bi_term : bool)
| SSplit (index : string) (of_f0 : bool) (into : list form) (signs : list sgn) (factors : option (list R))
| SCommute (index current target : string)
| SDuality (index : string).

Definition apply_step (w : wf term) (st : step) : option (wf term) :=
  match st with
  | SRearrange req => rearrange term_efs w req
  | SSwitch rows => switch_sign term_efs w rows
  | SParts index periodic drop => derive_with term_efs (by_parts periodic drop) w index
  | SSplit index of_f0 into signs factors => derive_with term_efs (split_term of_f0 into signs factors) w index
  | SCommute index cur tgt => derive_with term_efs (commute cur tgt) w index
  | SDuality index => derive_with term_efs to_duality w index
  end.

(** What a derivation relies on, for the values [I] at the time [s] *)
Definition justified (I : interp) (s : R) (w : wf term) (st : step) : Prop :=
  match st with
  | SRearrange _ | SSwitch _ => True
  | SParts index periodic drop =>
      green I /\ (periodic || drop = true -> closed I) /\
      forall sn t, getitem w index = Some (sn, t) -> t_restricted t = false
  | SSplit index of_f0 into signs factors =>
      forall sn t, getitem w index = Some (sn, t) -> t_factor t = 1 /\
        paired I s of_f0 t (if of_f0 then t_f0 t else t_f1 t)
        = combination (paired I s of_f0 t) (combine (combine signs into) (factors_of into factors))
  | SCommute index _ _ => triple I /\ forall sn t, getitem w index = Some (sn, t) -> t_restricted t = false
  | SDuality index => hodge I /\ forall sn t, getitem w index = Some (sn, t) -> t_restricted t = false
  end.

Inductive derives (I : interp) (s : R) : wf term -> wf term -> Prop :=
| d_refl w : derives I s w w
| d_step w st w' w'' : apply_step w st = Some w' -> justified I s w st -> derives I s w' w'' -> derives I s w w''.
