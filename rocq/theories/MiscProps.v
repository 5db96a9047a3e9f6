(** C41-C43: elapsed times, undirected graphs, rankings.  Only statements and references to proofs; vocabulary in
    MiscSpec.v, model in MiscModel.v. *)
From Coq Require Import List ZArith QArith Qround Bool String Ascii Lia.
From Verif Require Import Dict MemoModel MiscModel MiscSpec MiscText MiscGraph MiscRank.
Import ListNotations.
Local Open Scope Z_scope.
Local Open Scope string_scope.

(** * C41 elapsed times; all numbers of seconds, whole or not, negative or not *)

(** reading what was written gives the whole seconds *)
Theorem hms_round_trip x : hms2seconds (seconds2hms x) = Some (Qfloor x).
Proof. exact (hms_round x). Qed.
Print Assumptions hms_round_trip.

(** minutes and seconds are below 60 *)
Theorem hms_parts x : exists h m s, split ":" (cut_last (tail (seconds2hms x))) = [pad 2 h; pad 2 m; pad 2 s] /\ 0 <= m < 60 /\ 0 <= s < 60 /\ h * 3600 + m * 60 + s = Qfloor x.
Proof. exact (hms_fields x). Qed.
Print Assumptions hms_parts.

Theorem dhms_round_trip x : dhms2seconds (seconds2dhms x) = Some (Qfloor x).
Proof. exact (dhms_round x). Qed.
Print Assumptions dhms_round_trip.

(** hours are below 24 for times that are not negative *)
Theorem dhms_parts x : exists d h m s, split ":" (cut_last (tail (seconds2dhms x))) = [str_z d; pad 2 h; pad 2 m; pad 2 s] /\ 0 <= m < 60 /\ 0 <= s < 60 /\ d * 86400 + h * 3600 + m * 60 + s = Qfloor x /\ ((0 <= x)%Q -> 0 <= d /\ 0 <= h < 24).
Proof. exact (dhms_fields x). Qed.
Print Assumptions dhms_parts.

(** with milliseconds, for times that are not negative *)
Theorem dhmsm_round_trip x : (0 <= x)%Q -> exists y, dhmsm2seconds (seconds2dhmsm x) = Some y /\ (y == inject_Z (Qfloor (1000 * x)) / 1000)%Q.
Proof. exact (dhmsm_round x). Qed.
Print Assumptions dhmsm_round_trip.

(** minus half a second is read as minus one and a half *)
Theorem dhmsm_negative_refuted : exists x y, dhmsm2seconds (seconds2dhmsm x) = Some y /\ ~ (y == x)%Q /\ (x == inject_Z (Qfloor (1000 * x)) / 1000)%Q.
Proof. exact (dhmsm_negative). Qed.
Print Assumptions dhmsm_negative_refuted.

Example times_meet : seconds2hms 4000 = "[01:06:40]" /\ hms2seconds "[01:06:40]" = Some 4000 /\ seconds2dhmsm (200000123 # 1000) = "[2:07:33:20.123]" /\ seconds2hms (-5) = "[-1:59:55]".
Proof. vm_compute. repeat split. Qed.

(** * C42 undirected graphs; all histories of adding nodes and edges, failed calls included *)

(** nodes, neighbours: exactly what was added; no repetitions *)
Theorem graph_of_history {K} (eqb : K -> K -> bool) (eqb_spec : forall a b, eqb a b = true <-> a = b) l : let g := grun eqb l in
  (forall k, In k (gnodes g) <-> In (AddNode k) l) /\ NoDup (keys (gedges g)) /\
  (forall a b, In b (match get eqb (gedges g) a with Some n => n | None => [] end) <-> neighbour l a b) /\ forall a, NoDup (match get eqb (gedges g) a with Some n => n | None => [] end).
Proof. exact (ginv_run eqb eqb_spec l). Qed.
Print Assumptions graph_of_history.
(** neighbours are mutual *)
Theorem graph_is_symmetric {K} (eqb : K -> K -> bool) (eqb_spec : forall a b, eqb a b = true <-> a = b) l : let g := grun eqb l in forall a b, In b (match get eqb (gedges g) a with Some n => n | None => [] end) <-> In a (match get eqb (gedges g) b with Some n => n | None => [] end).
Proof. exact (symmetric eqb eqb_spec l). Qed.
Print Assumptions graph_is_symmetric.

(** every edge is drawn once; drawing fails exactly if a node was joined with itself *)
Theorem edges_are_drawn_once {K} (eqb : K -> K -> bool) (eqb_spec : forall a b, eqb a b = true <-> a = b) l : exists T, drawn_once (neighbour l) T /\ (draw eqb (grun eqb l) = Some T \/ draw eqb (grun eqb l) = None) /\
    (draw eqb (grun eqb l) = None <-> exists a, joined l a a).
Proof. exact (drawing eqb eqb_spec l). Qed.
Print Assumptions edges_are_drawn_once.

Definition house : list (gop nat) := [AddNode 0; AddNode 1; AddEdge 0 1; AddEdge 1 2; AddNode 2; AddEdge 2 1; AddEdge 1 0; AddNode 1; AddEdge 0 2]%nat.
Example graph_meets : gedges (grun Nat.eqb house) = [(0, [1; 2]); (1, [0; 2]); (2, [1; 0])]%nat /\ draw Nat.eqb (grun Nat.eqb house) = Some [(0, 1); (0, 2); (1, 2)]%nat.
Proof. split; reflexivity. Qed.
Theorem self_loop_drawing_refuted : exists l : list (gop nat), gedges (grun Nat.eqb l) = [(0, [0])]%nat /\ draw Nat.eqb (grun Nat.eqb l) = None.
Proof. exists [AddNode 0; AddEdge 0 0]%nat. split; reflexivity. Qed.
Print Assumptions self_loop_drawing_refuted.

(** * C43 rankings; all histories of reports, starting with an empty file *)

(** the file is read back as written; the records are sorted, one per host and the latest of it, at most [top]; all
    hosts if there are at most [top] *)
Theorem ranking_of_history {C} (leb : C -> C -> bool) (repr : C -> string) (to_float : string -> option C) (total : forall a b, leb a b = true \/ leb b a = true) (trans : forall a b c, leb a b = true -> leb b c = true -> leb a c = true) (repr_ok : forall c, no_char " " (repr c) /\ no_char newline (repr c) /\ repr c <> "" /\ to_float (repr c) = Some c) top (reports : list (string * Z * C)) :
  Forall (fun v => no_char " " (host v) /\ no_char newline (host v)) reports ->
  exists l, sessions leb repr to_float top "" reports = Some (write repr l) /\ holds to_float (write repr l) l /\
    ranked leb l /\ NoDup (map host l) /\ (List.length l <= top)%nat /\ (forall v, In v l -> latest reports (host v) = Some v) /\
    ((List.length (nodup string_dec (map host reports)) <= top)%nat -> forall h v, latest reports h = Some v -> In v l).
Proof. exact (ranking_history leb repr to_float total trans repr_ok top reports). Qed.
Print Assumptions ranking_of_history.

(** a slower report replaces a faster one *)
Theorem ranking_keeps_best_refuted : exists (reports : list (string * Z * Z)) l,
  sessions Z.leb tenths_repr tenths_of 10 "" reports = Some (write tenths_repr l) /\ In ("a", 4, 30) reports /\ l = [("a", 4, 50)].
Proof. exact (best_refuted). Qed.
Print Assumptions ranking_keeps_best_refuted.

(** a host that was dropped is not ranked again when others get slower *)
Theorem ranking_of_all_hosts_refuted : exists (reports : list (string * Z * Z)) l,
  sessions Z.leb tenths_repr tenths_of 1 "" reports = Some (write tenths_repr l) /\ latest reports "a" = Some ("a", 4, 50) /\ l = [("b", 4, 90)].
Proof. exact (forgets_refuted). Qed.
Print Assumptions ranking_of_all_hosts_refuted.

(** printing: all lines are right but the last, whose cost has lost its last character *)
Theorem printed_ranking {C} (leb : C -> C -> bool) (repr : C -> string) (to_float : string -> option C) (repr_ok : forall c, no_char " " (repr c) /\ no_char newline (repr c) /\ repr c <> "" /\ to_float (repr c) = Some c) (l : list (string * Z * C)) v :
  Forall (fun v => no_char " " (host v) /\ no_char newline (host v)) (l ++ [v]) ->
  print_ranking to_float (write repr (l ++ [v])) =
  match to_float (cut_last (repr (snd v))) with Some c => Some (map (fun v => (host v, str_z (snd (fst v)), snd v)) l ++ [((host v, str_z (snd (fst v))), c)])%list | None => None end.
Proof. exact (printing repr to_float repr_ok l v). Qed.
Print Assumptions printed_ranking.

(** 12.5 is printed as 12 *)
Theorem printed_cost_refuted : exists file, sessions Z.leb tenths_repr tenths_of 10 "" [("a", 4, 125)] = Some file /\ print_ranking tenths_of file = Some [("a", "4", 120)].
Proof. exact (print_refuted). Qed.
Print Assumptions printed_cost_refuted.

(** costs with one decimal meet the hypotheses *)
Theorem costs_meet c : no_char " " (tenths_repr c) /\ no_char newline (tenths_repr c) /\ tenths_repr c <> "" /\ tenths_of (tenths_repr c) = Some c.
Proof. exact (tenths_ok c). Qed.
Print Assumptions costs_meet.

Example ranking_meets : sessions Z.leb tenths_repr tenths_of 2 "" [("a", 4, 50); ("b", 8, 30); ("c", 2, 40); ("b", 8, 90)] = Some (write tenths_repr [("c", 2, 40); ("b", 8, 90)]) /\
  holds tenths_of (write tenths_repr [("c", 2, 40); ("b", 8, 90)]) [("c", 2, 40); ("b", 8, 90)].
Proof. split; [vm_compute; reflexivity|]. eexists. split; [vm_compute; reflexivity|reflexivity]. Qed.
