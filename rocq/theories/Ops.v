(** Model of src/op/mod.rs 48-225: operations and their contents. *)
From Verif Require Import Base Lexer.

(** src/op/mod.rs 57-62: [Content]. *)
Inductive content :=
| Span (a b : nat)
| Materialized (s : str).

(** src/op/mod.rs 66-77: [Content::as_str]; slicing panics off range. *)
Definition as_str (source : str) (c : content) : outcome str :=
  match c with
  | Span a b => if a <? b then slice source a b else Ok []
  | Materialized s => Ok s
  end.

(** src/op/mod.rs 84-89: [Content::is_empty]. *)
Definition content_is_empty (c : content) : bool :=
  match c with
  | Span a b => negb (a <? b)
  | Materialized s => match s with [] => true | _ => false end
  end.

(** src/op/mod.rs 98-100: [tokens.windows(2).all(|w| w[0].range.end == w[1].range.start)]. *)
Fixpoint is_contiguous (ts : list token) : bool :=
  match ts with
  | t :: ((u :: _) as ts') => (t_end t =? t_start u) && is_contiguous ts'
  | _ => true
  end.

(** src/op/mod.rs 106: [tokens.iter().map(|t| &source[t.range.clone()]).collect()]. *)
Fixpoint concat_tokens (source : str) (ts : list token) : outcome str :=
  match ts with
  | [] => Ok []
  | t :: ts' =>
      let! a := slice source (t_start t) (t_end t) in
      let! b := concat_tokens source ts' in
      Ok (a ++ b)
  end.

(** [tokens.first().unwrap().range.start .. tokens.last().unwrap().range.end]
    (src/op/mod.rs 102-104, src/op/parser.rs 289-291): [unwrap] panics on an empty slice. *)
Definition first_last_span (ts : list token) : outcome content :=
  match ts with
  | [] => Panic
  | t :: _ => Ok (Span (t_start t) (t_end (last ts t)))
  end.

(** src/op/mod.rs 94-109: [Content::from_tokens]. *)
Definition from_tokens (ts : list token) (source : str) : outcome content :=
  match ts with
  | [] => Ok (Span 0 0)
  | _ =>
      if is_contiguous ts then first_last_span ts
      else let! s := concat_tokens source ts in Ok (Materialized s)
  end.

(** src/op/mod.rs 142-167: [Node]. *)
Inductive node :=
| NAnchor | NBold | NCode | NCodeSpan | NCollapsible | NDestination | NDocument | NEmbed
| NEmphasis | NHeading | NHighlight | NIcon | NImage | NImages | NItalic | NListItem
| NModifier | NMetadata | NOrderedList | NParagraph | NStrikethrough | NThematicBreak
| NTitle | NUnorderedList.

Definition node_eq_dec (a b : node) : {a = b} + {a <> b}.
Proof. decide equality. Defined.
Definition node_eqb (a b : node) : bool := if node_eq_dec a b then true else false.

(** src/op/mod.rs 180-187: [OpKind]. *)
Inductive op_kind := Start (n : node) | End (n : node) | Value.

(** src/op/mod.rs 196-199: [Op]. *)
Record op := mk_op { op_kind_of : op_kind; op_content : content }.

(** src/op/mod.rs 203-224: [new_value], [new_start], [new_end]. *)
Definition new_value (c : content) : op := mk_op Value c.
Definition new_start (n : node) (c : content) : op := mk_op (Start n) c.
Definition new_end (n : node) (c : content) : op := mk_op (End n) c.

(** [Content::Span(0..0)], used for ops without text. *)
Definition no_content : content := Span 0 0.
