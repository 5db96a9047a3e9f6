(** C82, continued: the keys of the caches of quadratures. *)
From Coq Require Import List ZArith Bool String Ascii.
From Verif Require Import MemoModel MiscModel QkModel QkSpec QkThms.
Import ListNotations.
Local Open Scope string_scope.

(** quadratures with the same key have the same orders and categories *)
Theorem qk_keys p cats p' cats' k : init p cats = Some k -> init p' cats' = Some k ->
  p <> [] -> List.length cats = List.length p -> p' <> [] -> List.length cats' = List.length p' ->
  Forall numeric cats -> Forall numeric cats' -> p = p' /\ cats = cats'.
Proof. exact (key_inj p cats p' cats' k). Qed.
Print Assumptions qk_keys.
(** coded categories are always accepted for positive orders *)
Theorem qk_coded p cats : List.length cats = List.length p -> (forall q, In q p -> (1 <= q)%Z) ->
  Forall (fun c => c = "Gauss" \/ c = "Lobatto") cats -> exists k, init p cats = Some k.
Proof. exact (coded_accepted p cats). Qed.
Print Assumptions qk_coded.
(** custom categories alone are accepted if the numbers of their parts fit *)
Theorem qk_parts r : exists k, init [Z.of_nat (List.length (split "-" r))] ["CUS-NODES@" ++ r] = Some k.
Proof. exact (parts_accepted r). Qed.
Print Assumptions qk_parts.
Theorem qk_parts_number p r k : init [p] ["CUS-NODES@" ++ r] = Some k -> p = Z.of_nat (List.length (split "-" r)).
Proof. exact (parts_number p r k). Qed.
Print Assumptions qk_parts_number.
(** REFUTED: each axis has its own category, as the per-axis branches of the code suggest; a coded category beside
    a custom one is always refused *)
Theorem qk_mixed_refuted p cats c d : In c cats -> In d cats -> c = "Gauss" \/ c = "Lobatto" -> d <> "Gauss" -> d <> "Lobatto" -> init p cats = None.
Proof. exact (mixed p cats c d). Qed.
Print Assumptions qk_mixed_refuted.
(** REFUTED: parts may be written with exponents, 1e-05 counts as two parts *)
Theorem qk_exponent_refuted p : init [p] ["CUS-NODES@0.99999-1e-05"] = None \/ p = 3%Z.
Proof. exact (exponent p). Qed.
Print Assumptions qk_exponent_refuted.
Example qk_two : init [2; 3]%Z ["nd@-1=-5e-1=1"; "CUS-NODES@0.25-0.5-0.25"] = Some "[2, 3]nd@-1=-5e-1=1-CUS-NODES@0.25-0.5-0.25".
Proof. reflexivity. Qed.
Example qk_numeric : Forall numeric ["nd@-1=-5e-1=1"; "CUS-NODES@0.25-0.5-0.25"].
Proof. exact two_numeric. Qed.
(** texts that are not numbers may share a key; they have no nodes *)
Example qk_texts : init [1; 1]%Z ["nd@a=1"; "nd@-nd@b=1"] = init [1; 1]%Z ["nd@a=1-nd@"; "nd@b=1"].
Proof. reflexivity. Qed.
