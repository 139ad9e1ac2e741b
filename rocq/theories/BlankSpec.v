(** Sources without any content: blank lines only.  Nothing here refers to the lexer or the parser. *)
From Verif Require Import Base Lexer.

(** A line feed, with or without a carriage return in front. *)
Inductive line_break : str -> Prop :=
| break_nl : line_break [c_nl]
| break_crnl : line_break [c_cr; c_nl].

(** An even number of line breaks; a backslash with nothing behind it may follow. *)
Inductive blank : str -> Prop :=
| blank_nil : blank []
| blank_slash : blank [c_bslash]
| blank_two : forall a b s, line_break a -> line_break b -> blank s -> blank (a ++ b ++ s).

(** The same as a test. *)
Fixpoint even_breaks (even : bool) (s : str) : bool :=
  match s with
  | [] => even
  | c :: s' =>
      if char_eqb c c_nl then even_breaks (negb even) s'
      else if char_eqb c c_cr then match s' with d :: s2 => char_eqb d c_nl && even_breaks (negb even) s2 | [] => false end
      else char_eqb c c_bslash && match s' with [] => even | _ => false end
  end.
