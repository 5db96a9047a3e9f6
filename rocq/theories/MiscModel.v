(** Model of small tools: /repo/tools/miscellaneous/timer.py, undirected_graph.py, ranking.py.
    Simplifications: numbers of seconds and costs are exact rationals or an arbitrary ordered type; [seconds / 86400]
    is exact; node coordinates are left out; the file of a ranking is a text read and written by one process. *)
From Coq Require Import List ZArith QArith Qround Bool String Ascii DecimalString.
From Verif Require Import Dict MemoModel.
Import ListNotations.
Local Open Scope Z_scope.
Local Open Scope string_scope.

(** ** texts *)
(** [s.split(c)] for a character *)
Fixpoint split (c : ascii) (s : string) : list string :=
  match s with
  | EmptyString => [""]
  | String a r => if Ascii.eqb a c then "" :: split c r else match split c r with [] => [String a ""] | h :: t => String a h :: t end
  end.
(** [s[1:]], [s[:-1]] *)
Definition tail (s : string) : string := match s with EmptyString => "" | String _ r => r end.
Fixpoint cut_last (s : string) : string := match s with EmptyString => "" | String a EmptyString => "" | String a r => String a (cut_last r) end.
(** [int(s)] for digits with an optional sign *)
Definition int_of (s : string) : option Z := option_map Z.of_int (NilZero.int_of_string s).
Fixpoint zeros (n : nat) : string := match n with O => "" | S k => String "0" (zeros k) end.
(** ['%0nd' % z] for an integer *)
Definition pad (n : nat) (z : Z) : string :=
  if (z <? 0)%Z then "-" ++ zeros (n - 1 - String.length (str_z (- z))) ++ str_z (- z) else zeros (n - String.length (str_z z)) ++ str_z z.

(** ** timer.py *)
(** [int(x)]: towards zero *)
Definition trunc (x : Q) : Z := Z.quot (Qnum x) (Zpos (Qden x)).
(** [divmod(x, m)] *)
Definition divmod (x : Q) (m : Z) : Z * Q := let q := Qfloor (x / inject_Z m) in (q, (x - inject_Z m * inject_Z q)%Q).
(** 45-49 *)
Definition seconds2hms (x : Q) : string :=
  let (minutes, seconds) := divmod x 60 in
  let (hours, minutes) := divmod (inject_Z minutes) 60 in
  "[" ++ pad 2 hours ++ ":" ++ pad 2 (trunc minutes) ++ ":" ++ pad 2 (trunc seconds) ++ "]".
(** 51-57 *)
Definition seconds2hmsm (x : Q) : string :=
  let ms := ((x - inject_Z (trunc x)) * 1000)%Q in
  let (minutes, seconds) := divmod x 60 in
  let (hours, minutes) := divmod (inject_Z minutes) 60 in
  "[" ++ pad 2 hours ++ ":" ++ pad 2 (trunc minutes) ++ ":" ++ pad 2 (trunc seconds) ++ "." ++ pad 3 (trunc ms) ++ "]".
(** 59-66 *)
Definition seconds2dhms (x : Q) : string :=
  let days := trunc (x / 86400)%Q in
  let y := (x - 86400 * inject_Z days)%Q in
  let (minutes, seconds) := divmod y 60 in
  let (hours, minutes) := divmod (inject_Z minutes) 60 in
  "[" ++ str_z days ++ ":" ++ pad 2 hours ++ ":" ++ pad 2 (trunc minutes) ++ ":" ++ pad 2 (trunc seconds) ++ "]".
(** 68-76 *)
Definition seconds2dhmsm (x : Q) : string :=
  let ms := ((x - inject_Z (trunc x)) * 1000)%Q in
  let days := trunc (x / 86400)%Q in
  let y := (x - 86400 * inject_Z days)%Q in
  let (minutes, seconds) := divmod y 60 in
  let (hours, minutes) := divmod (inject_Z minutes) 60 in
  "[" ++ str_z days ++ ":" ++ pad 2 hours ++ ":" ++ pad 2 (trunc minutes) ++ ":" ++ pad 2 (trunc seconds) ++ "." ++ pad 3 (trunc ms) ++ "]".
(** 78-85; another number of parts, or no number: ValueError *)
Definition hms2seconds (s : string) : option Z :=
  match split ":" (cut_last (tail s)) with
  | [hh; mm; ss] => match int_of hh, int_of mm, int_of ss with Some h, Some m, Some s => Some (h * 3600 + m * 60 + s) | _, _, _ => None end
  | _ => None
  end.
(** 87-95 *)
Definition dhms2seconds (s : string) : option Z :=
  match split ":" (cut_last (tail s)) with
  | [dd; hh; mm; ss] => match int_of dd, int_of hh, int_of mm, int_of ss with Some d, Some h, Some m, Some s => Some (d * 86400 + h * 3600 + m * 60 + s) | _, _, _, _ => None end
  | _ => None
  end.
(** 97-107 *)
Definition dhmsm2seconds (s : string) : option Q :=
  match split "." s with
  | [hms; ms] =>
      match int_of (cut_last ms), split ":" (tail hms) with
      | Some ms, [dd; hh; mm; ss] =>
          match int_of dd, int_of hh, int_of mm, int_of ss with
          | Some d, Some h, Some m, Some s => Some (inject_Z (d * 86400 + h * 3600 + m * 60 + s) + inject_Z ms / 1000)%Q
          | _, _, _, _ => None
          end
      | _, _ => None
      end
  | _ => None
  end.

(** ** undirected_graph.py *)
Section Graph.
  Context {K : Type} (eqb : K -> K -> bool).
  Record graph := { gnodes : list K; gedges : dict K (list K) }.
  Definition empty_graph : graph := {| gnodes := []; gedges := [] |}.
  (** 73-81 *)
  Definition add_node (g : graph) (k : K) : option graph :=
    if existsb (eqb k) (gnodes g) then None else Some {| gnodes := (gnodes g ++ [k])%list; gedges := gedges g |}.
  Definition touch (d : dict K (list K)) (k : K) : dict K (list K) := if has eqb d k then d else put eqb d k [].
  Definition link (d : dict K (list K)) (a b : K) : dict K (list K) :=
    match get eqb d a with
    | Some l => if existsb (eqb b) l then d else put eqb d a (l ++ [b])%list
    | None => d
    end.
  (** 83-106 *)
  Definition add_edge (g : graph) (a b : K) : option graph :=
    if existsb (eqb a) (gnodes g) && existsb (eqb b) (gnodes g)
    then Some {| gnodes := gnodes g; gedges := link (link (touch (touch (gedges g) a) b) a b) b a |}
    else None.
  Inductive gop := AddNode (k : K) | AddEdge (a b : K).
  (** an exception leaves the graph as it was *)
  Definition gdo (g : graph) (p : gop) : graph :=
    match (match p with AddNode k => add_node g k | AddEdge a b => add_edge g a b end) with Some g' => g' | None => g end.
  Definition grun (l : list gop) : graph := fold_left gdo l empty_graph.
  (** 186-205, and 283-317: the edges drawn; None: the assertion fails *)
  Definition draw_step (st : list (K * K) * nat * nat) (e : K * K) : list (K * K) * nat * nat :=
    let '(plotted, skip, plot) := st in let (node, c) := e in
    if existsb (fun p => eqb c (fst p) && eqb node (snd p)) plotted then (plotted, S skip, plot) else ((plotted ++ [(node, c)])%list, skip, S plot).
  Definition draw (g : graph) : option (list (K * K)) :=
    let '(plotted, skip, plot) := fold_left (fun st nl => fold_left (fun st c => draw_step st (fst nl, c)) (snd nl) st) (gedges g) ([], O, O) in
    if Nat.eqb skip plot then Some plotted else None.
End Graph.
Arguments gop : clear implicits.
Arguments graph : clear implicits.

(** ** ranking.py *)
Section Ranking.
  Context {C : Type}.
  Variable leb : C -> C -> bool.
  Variable repr : C -> string.             (* [f"{cost}"] *)
  Variable to_float : string -> option C.  (* [float(s)], of a text without blanks *)
  Notation record := (string * Z * C)%type.
  Definition newline : ascii := ascii_of_nat 10.
  (** [file.readlines()] *)
  Fixpoint endings (l : list string) : list string :=
    match l with
    | [] => []
    | [s] => match s with EmptyString => [] | _ => [s] end
    | s :: r => (s ++ String newline "") :: endings r
    end.
  Definition readlines (s : string) : list string := endings (split newline s).
  (** [float] strips the end of the line *)
  Fixpoint strip_end (s : string) : string :=
    match s with
    | EmptyString => ""
    | String a r => match strip_end r with EmptyString => if Ascii.eqb a newline then "" else String a "" | t => String a t end
    end.
  (** 39-45: one line *)
  Definition read_record (s : string) : option (Z * record) :=
    match split " " s with
    | [r; host; size; cost] => match int_of r, int_of size, to_float (strip_end cost) with Some r, Some n, Some c => Some (r, (host, n, c)) | _, _, _ => None end
    | _ => None
    end.
  Fixpoint read_records (l : list string) (cur : dict Z record) (hosts : list string) : option (dict Z record * list string) :=
    match l with
    | [] => Some (cur, hosts)
    | s :: q => match read_record s with Some (r, (host, n, c)) => read_records q (put Z.eqb cur r (host, n, c)) (hosts ++ [host])%list | None => None end
    end.
  (** 29-53 *)
  Definition start (file : string) : option (dict Z record * list string) := read_records (readlines file) [] [].
  (** 61-67: the first record of the host *)
  Fixpoint replace_first (cur : dict Z record) (h : string) (v : record) : dict Z record :=
    match cur with [] => [] | (r, (h', n, c)) :: q => if String.eqb h' h then (r, v) :: q else (r, (h', n, c)) :: replace_first q h v end.
  (** 80-96: before the first entry that is not cheaper *)
  Fixpoint insert (v : record) (l : list record) : list record :=
    match l with [] => [v] | x :: q => if leb (snd v) (snd x) then v :: x :: q else x :: insert v q end.
  (** 59-103; [top]: the number of records kept *)
  Definition new_records (top : nat) (cur : dict Z record) (hosts : list string) (h : string) (n : Z) (c : C) : list record :=
    let cur := if existsb (String.eqb h) hosts then replace_first cur h (h, n, c) else put Z.eqb cur (Z.of_nat (List.length hosts)) (h, n, c) in
    firstn top (fold_left (fun l v => insert v l) (map snd cur) []).
  Fixpoint number {X} (i : Z) (l : list X) : list (Z * X) := match l with [] => [] | x :: q => (i, x) :: number (i + 1)%Z q end.
  (** 130-137 *)
  Definition line (v : Z * record) : string := let '(r, (h, n, c)) := v in str_z r ++ " " ++ h ++ " " ++ str_z n ++ " " ++ repr c.
  Definition write (l : list record) : string := join (String newline "") (map line (number 0 l)).
  (** a start and a report: the new file *)
  Definition session (top : nat) (file : string) (h : string) (n : Z) (c : C) : option string :=
    match start file with Some (cur, hosts) => Some (write (new_records top cur hosts h n c)) | None => None end.
  Fixpoint sessions (top : nat) (file : string) (l : list record) : option string :=
    match l with [] => Some file | (h, n, c) :: q => match session top file h n c with Some f => sessions top f q | None => None end end.
  (** 140-157: what is printed: host, size, cost; the last character of each line is cut *)
  Definition print_line (s : string) : option (string * string * C) :=
    match split " " (cut_last s) with
    | [_; host; size; cost] => match to_float (strip_end cost) with Some c => Some (host, size, c) | None => None end
    | _ => None
    end.
  Fixpoint print_lines (l : list string) : option (list (string * string * C)) :=
    match l with [] => Some [] | s :: q => match print_line s, print_lines q with Some x, Some r => Some (x :: r) | _, _ => None end end.
  Definition print_ranking (file : string) : option (list (string * string * C)) := print_lines (readlines file).
End Ranking.
