(** Sources that can be cut at a blank line. *)
From Coq Require Import String.
From Verif Require Import Base Lexer LexFacts Ast StreamSpec.
Open Scope list_scope.

(** Text that opens a code block, a highlight, an embed, or a collapsible. *)
Definition opens_block (x : str) : bool := existsb (fun p => starts_with p x) [s_ "```"; s_ "!!"; s_ "{{"; s_ "{%"].
(** No paragraph, not even in a collapsible, begins like a block that has not been closed. *)
Fixpoint closed_node (n : ynode) : bool :=
  match n with
  | YParagraph (PText x :: _) => negb (opens_block x)
  | YCollapsible _ b => forallb closed_node b
  | _ => true
  end.
(** Nor does the text begin like metadata that is not closed. *)
Definition closed (y : yamd) : bool :=
  forallb closed_node (body y)
  && match metadata y, body y with
     | None, YParagraph (PText x :: _) :: _ => negb (starts_with (s_ "---") x)
     | _, _ => true
     end.
(** The text ends neither in a line feed nor in a carriage return nor in an escaping backslash. *)
Definition ends_clean (a : str) : Prop :=
  dangling a = false /\ forall x c, a = x ++ [c] -> c <> c_nl /\ c <> c_cr.

Definition blank : str := [c_nl; c_nl].
(** [parts] with a blank line after each of them but the last. *)
Fixpoint join_blank (parts : list str) : str :=
  match parts with
  | [] => []
  | [a] => a
  | a :: r => a ++ blank ++ join_blank r
  end.
