(** Texts of finite numbers, separated by '='. *)
From Coq Require Import List Bool String Ascii.
Local Open Scope string_scope.

Definition node_char (c : ascii) : bool := existsb (Ascii.eqb c) (list_ascii_of_string "0123456789-+.eE=").
Definition numeric (c : string) : Prop := forall r, c = "nd@" ++ r -> forall x, In x (list_ascii_of_string r) -> node_char x = true.
