(** Formatting as a command: the text is read and what was read is written (property C75). *)
From Verif Require Import Base Ops Ast ToYamd Api.

(** One round. *)
Definition format (s : str) : outcome str := let! y := deserialize s in Ok (display_yamd y).
(** [n] rounds. *)
Fixpoint rounds (n : nat) (s : str) : outcome str :=
  match n with 0 => Ok s | S n' => let! t := format s in rounds n' t end.
