(** Model of /repo/src/time_sequence.py: constant and function time sequences, abstract time instants and intervals.
    Simplifications: times, steps and numbers are exact rationals; [round(x, 8)] is the integer number of 1e-8;
    texts are ASCII; [eval] knows decimal literals without exponent, single letters, + - * / ** and parentheses;
    everything else, and a power with an exponent that is not an integer, is an exception; the caches of instants and
    intervals by their text, and the symbolic representations, are left out. *)
From Coq Require Import List ZArith QArith Qround Bool String Ascii DecimalString.
From Verif Require Import MetricKeyModel MemoModel MiscModel.
Import ListNotations.
Local Open Scope Q_scope.

Definition E8 : Q := 100000000.
(** [round(x, 8)] *)
Definition round8 (x : Q) : Z := rnd (x * E8).
Definition qlt (a b : Q) : bool := negb (Qle_bool b a).
(** [x % 1] *)
Definition mod1 (x : Q) : Q := x - inject_Z (Qfloor x).

(** ** constant time sequences *)
Record cseq := { c_t0 : Q; c_tmax : Q; c_dt : Q; c_kmax : Z; c_allowed : list Z }.
(** 252-279; an assertion fails: None *)
Definition new_cseq (t0 tmax n : Q) (factor : Z) : option cseq :=
  if negb (qlt t0 tmax && Qeq_bool (mod1 n) 0 && qlt 0 n) then None else
  if negb (0 <? factor)%Z then None else
  let dt := (tmax - t0) * inject_Z factor / n in
  let kmax := n / inject_Z factor in
  if negb (Qeq_bool (mod1 kmax) 0 && qlt 0 kmax) then None else
  Some {| c_t0 := t0; c_tmax := tmax; c_dt := dt; c_kmax := Qfloor kmax;
          c_allowed := map (fun i => round8 (inject_Z (Z.of_nat i) / inject_Z factor)) (seq 0 (Z.to_nat factor)) |}.
(** 291-316; TimeInstantError: None *)
Definition cget (c : cseq) (k : Q) : option Q :=
  let time := c_t0 c + k * c_dt c in
  let remainder := round8 (mod1 k) in
  if qlt time (c_t0 c - c_dt c) then None
  else if qlt (c_tmax c + c_dt c) time then None
  else if negb (existsb (Z.eqb remainder) (c_allowed c)) then None
  else Some time.

(** ** function time sequences *)
(** [_step_sequence], [_time_sequence], and how often [func] was called *)
Record fseq := { f_steps : list Z; f_times : list Q; f_calls : nat }.
(** 171-192 *)
Definition new_fseq (t0 : Q) : fseq := {| f_steps := [0%Z]; f_times := [t0]; f_calls := 0 |}.
(** a time, a TimeInstantError, another exception *)
Inductive answer := At (t : Q) | Invalid | Broken.
Definition zlast (l : list Z) : Z := last l 0%Z.
(** 212-219: ask [func], whose [n]-th answer is [func n] (None: it raises) *)
Definition extend (interval : Q) (func : nat -> option Q) (st : fseq) : fseq * bool :=
  let steps := (f_steps st ++ [rnd (inject_Z (zlast (f_steps st)) + interval * E8)])%list in
  match func (f_calls st) with
  | None => ({| f_steps := steps; f_times := f_times st; f_calls := S (f_calls st) |}, false)
  | Some dt =>
      if qlt 0 dt then ({| f_steps := steps; f_times := (f_times st ++ [last (f_times st) 0 + dt])%list; f_calls := S (f_calls st) |}, true)
      else ({| f_steps := steps; f_times := f_times st; f_calls := S (f_calls st) |}, false)
  end.
Fixpoint index_of (k : Z) (l : list Z) : option nat :=
  match l with [] => None | x :: r => if (x =? k)%Z then Some O else option_map S (index_of k r) end.
(** [l[-j]] for [j >= 1] *)
Definition back {X} (l : list X) (j : nat) : option X := nth_error (rev l) (j - 1).
(** 231-238: [i = -j] goes down until [k > steps[i]]; the fuel is the number of steps (None: IndexError) *)
Fixpoint search (steps : list Z) (k : Z) (j fuel : nat) : option nat :=
  match fuel with
  | O => None
  | S fuel => match back steps j with
              | None => None
              | Some s => if (s <? k)%Z then match back steps (j - 1) with Some s' => if (k <? s')%Z then Some j else None | None => None end
                          else search steps k (S j) fuel
              end
  end.
(** 239-245 *)
Definition interpolate (st : fseq) (k : Z) (j : nat) : answer :=
  match back (f_steps st) j, back (f_steps st) (j - 1), back (f_times st) j, back (f_times st) (j - 1) with
  | Some ls, Some us, Some lt, Some ut => At (lt + inject_Z (k - ls) / inject_Z (us - ls) * (ut - lt))
  | _, _, _, _ => Broken
  end.
(** 221-245 *)
Definition lookup (st : fseq) (k : Z) : answer :=
  match index_of k (f_steps st) with
  | Some i => match nth_error (f_times st) i with Some t => At t | None => Broken end
  | None => if (zlast (f_steps st) <? k)%Z then Invalid
            else if (k <? hd 0%Z (f_steps st))%Z then Invalid
            else match search (f_steps st) k 2 (List.length (f_steps st)) with Some j => interpolate st k j | None => Broken end
  end.
(** 208-245 *)
Definition fget (interval : Q) (func : nat -> option Q) (st : fseq) (x : Q) : answer * fseq :=
  let k := round8 x in
  if (zlast (f_steps st) <? k)%Z
  then let (st', ok) := extend interval func st in if ok then (lookup st' k, st') else (Broken, st')
  else (lookup st k, st).
(** a history of questions *)
Definition fasks (interval : Q) (func : nat -> option Q) (st : fseq) (l : list Q) : fseq := fold_left (fun st x => snd (fget interval func st x)) l st.

(** ** expressions: [eval] *)
Local Open Scope string_scope.
Definition letter (a : ascii) : bool := let n := nat_of_ascii a in ((65 <=? n) && (n <=? 90) || (97 <=? n) && (n <=? 122))%nat.
Definition digit (a : ascii) : bool := let n := nat_of_ascii a in ((48 <=? n) && (n <=? 57))%nat.
Definition word_char (a : ascii) : bool := letter a || digit a || Ascii.eqb a "." || Ascii.eqb a "_".
Inductive tok := TNum (q : Q) | TVar (c : ascii) | TPlus | TMinus | TMul | TDiv | TPow | TOpen | TClose.
(** an integer literal has no leading zeros, unless it is zero *)
Definition int_literal (w : string) : option Q :=
  match NilZero.uint_of_string w with
  | Some u => match w with
              | String "0" (String _ _) => if (Z.of_uint u =? 0)%Z then Some 0 else None
              | _ => Some (inject_Z (Z.of_uint u))
              end
  | None => None
  end.
Fixpoint pow10 (n : nat) : positive := match n with O => 1%positive | S k => (10 * pow10 k)%positive end.
Definition number (w : string) : option Q :=
  match split "." w with
  | [a] => int_literal a
  | [a; b] => match a, b with
              | "", "" => None
              | _, _ => match NilEmpty.uint_of_string a, NilEmpty.uint_of_string b with
                        | Some u, Some v => Some (inject_Z (Z.of_uint u) + (Z.of_uint v # pow10 (String.length b)))
                        | _, _ => None
                        end
              end
  | _ => None
  end.
Definition word_tok (w : string) : option tok :=
  match w with
  | String c "" => if letter c then Some (TVar c) else option_map TNum (number w)
  | _ => option_map TNum (number w)
  end.
Definition flush (w : string) : option (list tok) := match w with "" => Some [] | _ => option_map (fun t => [t]) (word_tok w) end.
Definition cat (a b : option (list tok)) : option (list tok) := match a, b with Some x, Some y => Some (x ++ y)%list | _, _ => None end.
Definition op_tok (a : ascii) : option tok :=
  if Ascii.eqb a "+" then Some TPlus else if Ascii.eqb a "-" then Some TMinus else if Ascii.eqb a "*" then Some TMul else if Ascii.eqb a "/" then Some TDiv
  else if Ascii.eqb a "(" then Some TOpen else if Ascii.eqb a ")" then Some TClose else None.
(** the tokens of a text; [w]: the word read so far *)
Fixpoint lex (s w : string) : option (list tok) :=
  match s with
  | "" => flush w
  | String a r =>
      if word_char a then lex r (w ++ String a "") else
      cat (flush w)
        match r with
        | String b r' => if Ascii.eqb a "*" && Ascii.eqb b "*" then cat (Some [TPow]) (lex r' "")
                         else match op_tok a with Some t => cat (Some [t]) (lex r "") | None => None end
        | "" => match op_tok a with Some t => cat (Some [t]) (lex r "") | None => None end
        end
  end.
Inductive ast := Num (q : Q) | Var (c : ascii) | Pos (a : ast) | Neg (a : ast) | Add (a b : ast) | Sub (a b : ast) | Mul (a b : ast) | Div (a b : ast) | Pow (a b : ast).
(** sums, terms, factors (a sign binds weaker than a power), atoms, and the rests of sums and terms *)
Inductive level := LE | LT | LF | LA | LEr (a : ast) | LTr (a : ast).
Fixpoint parse (n : nat) (lv : level) (ts : list tok) : option (ast * list tok) :=
  match n with
  | O => None
  | S n =>
      match lv with
      | LE => match parse n LT ts with Some (a, r) => parse n (LEr a) r | None => None end
      | LEr a => match ts with
                 | TPlus :: r => match parse n LT r with Some (b, r') => parse n (LEr (Add a b)) r' | None => None end
                 | TMinus :: r => match parse n LT r with Some (b, r') => parse n (LEr (Sub a b)) r' | None => None end
                 | _ => Some (a, ts)
                 end
      | LT => match parse n LF ts with Some (a, r) => parse n (LTr a) r | None => None end
      | LTr a => match ts with
                 | TMul :: r => match parse n LF r with Some (b, r') => parse n (LTr (Mul a b)) r' | None => None end
                 | TDiv :: r => match parse n LF r with Some (b, r') => parse n (LTr (Div a b)) r' | None => None end
                 | _ => Some (a, ts)
                 end
      | LF => match ts with
              | TPlus :: r => match parse n LF r with Some (a, r') => Some (Pos a, r') | None => None end
              | TMinus :: r => match parse n LF r with Some (a, r') => Some (Neg a, r') | None => None end
              | _ => match parse n LA ts with
                     | Some (a, TPow :: r) => match parse n LF r with Some (b, r') => Some (Pow a b, r') | None => None end
                     | o => o
                     end
              end
      | LA => match ts with
              | TNum q :: r => Some (Num q, r)
              | TVar c :: r => Some (Var c, r)
              | TOpen :: r => match parse n LE r with Some (a, TClose :: r') => Some (a, r') | _ => None end
              | _ => None
              end
      end
  end.
Definition parse_all (ts : list tok) : option ast := match parse (8 * List.length ts + 4) LE ts with Some (a, []) => Some a | _ => None end.
Definition bind2 (f : Q -> Q -> option Q) (a b : option Q) : option Q := match a, b with Some x, Some y => f x y | _, _ => None end.
Definition qdiv (x y : Q) : option Q := if Qeq_bool y 0 then None else Some (x / y)%Q.
Definition qpow (x y : Q) : option Q :=
  if negb (Qeq_bool (mod1 y) 0) then None else if Qeq_bool x 0 && (Qfloor y <? 0)%Z then None else Some (Qpower x (Qfloor y)).
(** unknown names raise NameError: None *)
Fixpoint value (env : ascii -> option Q) (a : ast) : option Q :=
  match a with
  | Num q => Some q
  | Var c => env c
  | Pos a => value env a
  | Neg a => option_map Qopp (value env a)
  | Add a b => bind2 (fun x y => Some (x + y)%Q) (value env a) (value env b)
  | Sub a b => bind2 (fun x y => Some (x - y)%Q) (value env a) (value env b)
  | Mul a b => bind2 (fun x y => Some (x * y)%Q) (value env a) (value env b)
  | Div a b => bind2 qdiv (value env a) (value env b)
  | Pow a b => bind2 qpow (value env a) (value env b)
  end.
Definition eval (env : ascii -> option Q) (s : string) : option Q :=
  match lex s "" with Some ts => match parse_all ts with Some a => value env a | None => None end | None => None end.

(** ** abstract time instants *)
(** 518-533: the letters of the text; None: two letters are neighbours *)
Fixpoint adjacent (s : string) : bool :=
  match s with String a (String b _ as r) => letter a && letter b || adjacent r | _ => false end.
Fixpoint letters (s : string) : list ascii := match s with "" => [] | String a r => if letter a then a :: letters r else letters r end.
Definition parse_k (s : string) : option (list ascii) := if adjacent s then None else Some (letters s).
(** [s.replace(c, t)] *)
Fixpoint replace (c : ascii) (t s : string) : string := match s with "" => "" | String a r => if Ascii.eqb a c then t ++ replace c t r else String a (replace c t r) end.
(** 551-555: [kw]: the names and the texts of the values *)
Fixpoint fill (keys : list ascii) (s : string) (kw : list (ascii * string)) : option string :=
  match kw with
  | [] => Some s
  | (c, t) :: r => if existsb (Ascii.eqb c) keys then fill keys (replace c t s) r else None
  end.
Definition step_of (s : string) (kw : list (ascii * string)) : option Q :=
  match parse_k s with Some keys => match fill keys s kw with Some s' => eval (fun _ => None) s' | None => None end | None => None end.
(** 555-566, for a constant time sequence *)
Definition instant (c : cseq) (s : string) (kw : list (ascii * string)) : option Q := match step_of s kw with Some k => cget c k | None => None end.
(** 577-593, 674-678: the length of an interval *)
Definition interval (c : cseq) (s1 s2 : string) (kw : list (ascii * string)) : option Q :=
  match instant c s1 kw, instant c s2 kw with Some a, Some b => if qlt 0 (b - a) then Some (b - a)%Q else None | _, _ => None end.
