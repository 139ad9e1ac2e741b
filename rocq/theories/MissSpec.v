(** Where inline nodes and blocks can be read, in terms of the tokens of the source. *)
From Coq Require Import String.
From Verif Require Import Base Lexer LexSpec LexFacts Ops Parser StreamSpec Lines.
Open Scope list_scope.

(** A token of this kind with this text. *)
Definition is_tok (s : str) (k : token_kind) (x : str) (t : token) : Prop := kind t = k /\ token_text s t = Ok x.
Definition none_of (k : token_kind) (ts : list token) : Prop := Forall (fun t => kind t <> k) ts.

(** An opening delimiter with a closing one somewhere behind it. *)
Definition pair_here (s : str) (k : token_kind) (x : str) (ts : list token) : Prop :=
  exists o b c r, ts = o :: b ++ c :: r /\ is_tok s k x o /\ is_tok s k x c.
(** [[text](url)] *)
Definition link_here (s : str) (ts : list token) : Prop :=
  exists o b c p d q r, ts = o :: b ++ c :: p :: d ++ q :: r
    /\ is_tok s LeftSquareBracket (s_ "[") o /\ none_of RightSquareBracket b /\ is_tok s RightSquareBracket (s_ "]") c
    /\ is_tok s LeftParenthesis (s_ "(") p /\ is_tok s RightParenthesis (s_ ")") q.
(** [**text**] without any delimiter of a nested node. *)
Definition bold_here (s : str) (ts : list token) : Prop :=
  exists o b c r, ts = o :: b ++ c :: r /\ is_tok s Star (s_ "**") o /\ none_of Tilde b /\ none_of Underscore b /\ is_tok s Star (s_ "**") c.

(** A node that the node [p] may contain can be read at the start of [ts]. *)
Definition node_here (s : str) (p : node) (ts : list token) : Prop :=
  match p with
  | NHeading => link_here s ts
  | NBold => pair_here s Tilde (s_ "~~") ts \/ pair_here s Underscore (s_ "_") ts
  | NParagraph => link_here s ts \/ bold_here s ts \/ pair_here s Tilde (s_ "~~") ts \/ pair_here s Underscore (s_ "_") ts
                  \/ pair_here s Backtick (s_ "`") ts \/ pair_here s Star (s_ "*") ts
  | _ => False
  end.

(** ** Blocks *)

Definition first_on_line (t : token) : Prop := column (t_pos t) = 0.
Definition is_line_end (t : token) : Prop := kind t = Eol \/ kind t = Terminator.
Definition line_over (r : list token) : Prop := match r with [] => True | e :: _ => is_line_end e end.
(** No [%}] at the start of a line. *)
Definition still_open (ts : list token) : Prop := Forall (fun t => ~ (kind t = CollapsibleEnd /\ first_on_line t)) ts.

(** [# ] to [###### ] *)
Definition heading_here (s : str) (ts : list token) : Prop :=
  exists n t u r, ts = t :: u :: r /\ n <= 6 /\ is_tok s Hash (repeat c_hash n) t /\ first_on_line t /\ is_tok s Space (s_ " ") u.
Definition break_here (s : str) (ts : list token) : Prop :=
  exists t r, ts = t :: r /\ is_tok s Minus (s_ "-----") t /\ first_on_line t.
Definition list_here (s : str) (ts : list token) : Prop :=
  exists t u r, ts = t :: u :: r /\ (is_tok s Minus (s_ "-") t \/ is_tok s Plus (s_ "+") t) /\ first_on_line t /\ is_tok s Space (s_ " ") u.
(** Three backticks with the rest of a line, and three backticks on a later line. *)
Definition fence (s : str) (t : token) : Prop := is_tok s Backtick (s_ "```") t /\ first_on_line t.
Definition code_here (s : str) (ts : list token) : Prop :=
  exists o b1 e b2 c r, ts = o :: b1 ++ e :: b2 ++ c :: r /\ fence s o /\ Forall (fun t => ~ is_line_end t) b1 /\ is_line_end e
    /\ Forall (fun t => ~ fence s t) b2 /\ fence s c /\ line_over r.
(** [{{kind|arguments}}] up to the end of a line. *)
Definition embed_here (s : str) (ts : list token) : Prop :=
  exists o b1 p b2 c r, ts = o :: b1 ++ p :: b2 ++ c :: r /\ is_tok s LeftCurlyBrace (s_ "{{") o /\ first_on_line o
    /\ none_of Pipe b1 /\ still_open b1 /\ is_tok s Pipe (s_ "|") p
    /\ Forall (fun t => ~ is_tok s RightCurlyBrace (s_ "}}") t) b2 /\ still_open b2 /\ is_tok s RightCurlyBrace (s_ "}}") c /\ line_over r.
(** [![text](url)], where the parentheses in the url are balanced. *)
Definition image_here (s : str) (ts : list token) : Prop :=
  exists t o b c p d q, ts = t :: o :: b ++ c :: p :: d ++ [q] /\ is_tok s Bang (s_ "!") t
    /\ is_tok s LeftSquareBracket (s_ "[") o /\ none_of RightSquareBracket b /\ is_tok s RightSquareBracket (s_ "]") c
    /\ is_tok s LeftParenthesis (s_ "(") p /\ nesting 0 d = Some 0 /\ is_tok s RightParenthesis (s_ ")") q.
(** Lines that hold nothing but an image. *)
Inductive images_here (s : str) : list token -> Prop :=
| one_image : forall i, image_here s i -> images_here s i
| one_image_line : forall i e, image_here s i -> kind e = Eol -> images_here s (i ++ [e])
| more_images : forall i e r, image_here s i -> kind e = Eol -> images_here s r -> images_here s (i ++ e :: r).
(** [!!] followed by a space or the end of the line, and [!!] at the start of a later line. *)
Definition two_bangs (s : str) (t : token) : Prop := is_tok s Bang (s_ "!!") t /\ first_on_line t.
Definition highlight_here (s : str) (ts : list token) : Prop :=
  exists o u b c r, ts = o :: u :: b ++ c :: r /\ two_bangs s o /\ (is_tok s Space (s_ " ") u \/ kind u = Eol)
    /\ still_open b /\ two_bangs s c.

(** A block that ends with the paragraph can be read from the tokens of the paragraph. *)
Definition block_here (s : str) (ts : list token) : Prop :=
  heading_here s ts \/ break_here s ts \/ list_here s ts \/ images_here s ts.
(** A block that may contain empty lines can be read at the start of the tokens. *)
Definition long_block_here (s : str) (ts : list token) : Prop := code_here s ts \/ embed_here s ts \/ highlight_here s ts.
