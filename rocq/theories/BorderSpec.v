(** What follows a block, in terms of the tokens of the source. *)
From Coq Require Import String.
From Verif Require Import Base Lexer LexSpec LexFacts Ops Parser StreamSpec Lines MissSpec.
Open Scope list_scope.

(** The end of the source or an empty line. *)
Definition blank_ahead (ts : list token) : Prop := match ts with [] => True | t :: _ => kind t = Terminator end.
(** [%}] at the start of a line. *)
Definition closing_brace (t : token) : Prop := kind t = CollapsibleEnd /\ first_on_line t.
Definition brace_ahead (ts : list token) : Prop := exists t r, ts = t :: r /\ closing_brace t.
(** [%}], maybe after the end of the line. *)
Definition end_ahead (ts : list token) : Prop := brace_ahead ts \/ exists e r, ts = e :: r /\ kind e = Eol /\ brace_ahead r.
(** A line that starts with a list marker, maybe indented. *)
Definition item_ahead (s : str) (ts : list token) : Prop :=
  list_here s ts
  \/ exists i t u r, ts = i :: t :: u :: r /\ kind i = Space /\ first_on_line i
       /\ (is_tok s Minus (s_ "-") t \/ is_tok s Plus (s_ "+") t) /\ is_tok s Space (s_ " ") u.

(** Blocks that reach to an empty line. *)
Definition fills_part (n : node) : bool := match n with NParagraph | NHeading | NImage | NImages => true | _ => false end.
Definition is_list (n : node) : bool := match n with NUnorderedList | NOrderedList => true | _ => false end.
(** What is after a block of this kind; [stop] holds where the document around it may end. *)
Definition after_block (s : str) (n : node) (stop : list token -> Prop) (ts : list token) : Prop :=
  (fills_part n = true -> blank_ahead ts \/ stop ts)
  /\ (is_list n = true -> blank_ahead ts \/ stop ts \/ item_ahead s ts).

(** The last token of [ts1] is the end of a line, or [ts2] does not start with one. *)
Definition eol_taken (ts1 ts2 : list token) : Prop :=
  (exists ts e, ts1 = ts ++ [e] /\ kind e = Eol) \/ match ts2 with [] => True | t :: _ => kind t <> Eol end.
(** Nodes whose closing delimiter stands alone on its line. *)
Definition takes_eol (n : node) : bool := match n with NImage | NCode | NEmbed | NHighlight | NCollapsible => true | _ => false end.

(** A line that starts with [{%] and a later line that starts with [%}], no line between them starts with [{%], [%}] or
    three backticks, and the [%}] does not directly follow a line with a title. *)
Definition opening_brace (t : token) : Prop := kind t = CollapsibleStart /\ first_on_line t.
Definition title_line (ts : list token) : Prop := exists b e, ts = b ++ [e] /\ Forall (fun t => ~ is_line_end t) b /\ kind e = Eol.
Definition collapsible_here (s : str) (ts : list token) : Prop :=
  exists o u b c r, ts = o :: u :: b ++ c :: r /\ opening_brace o /\ (kind u = Eol \/ (kind u = Space /\ ~ title_line b))
    /\ still_open b /\ Forall (fun t => ~ opening_brace t) b /\ Forall (fun t => ~ fence s t) b /\ closing_brace c.
