(** Model of src/lib.rs 101-104. *)
From Verif Require Import Base Lexer Ops Parser Ast ToYamd.

(** src/lib.rs 101-104: [deserialize]. *)
Definition deserialize (input : str) : outcome yamd :=
  let! l := parse input in
  to_yamd l input.
