(** Specification of op streams: events with their text, balance, and a document type (the
    children and delimiters of every node).  Written from the documentation of the nodes in
    src/op/mod.rs 111-167 and of the structs in src/nodes/; uses nothing of the parser. *)
From Coq Require Import String.
From Verif Require Import Base Ops.

(** An op seen from outside: its kind and its text. *)
Definition event := (op_kind * str)%type.

(** [es] is the reading of the ops [os] of the source [s]. *)
Definition reads (s : str) (os : list op) (es : list event) : Prop :=
  Forall2 (fun o e => op_kind_of o = fst e /\ as_str s (op_content o) = Ok (snd e)) os es.

(** Every [End] closes the last open [Start] of the same node and nothing stays open. *)
Inductive balanced : list op_kind -> Prop :=
| bal_nil : balanced []
| bal_value : forall l, balanced l -> balanced (Value :: l)
| bal_node : forall n a l, balanced a -> balanced l -> balanced (Start n :: a ++ End n :: l).

(** ** Texts *)

Definition newline (x : str) : Prop := x = [c_nl] \/ x = [c_cr; c_nl].
Definition blank_line (x : str) : Prop := exists a b, x = a ++ b /\ newline a /\ newline b.
(** [d], maybe with the line ending after it. *)
Definition opt_newline (d c : str) : Prop := c = d \/ exists e, newline e /\ c = d ++ e.

(** ** Document type *)

(** A child of a node: text, or a node with the text of its [Start]. *)
Inductive label := LText (x : str) | LNode (n : node) (o : str).

(** Non-empty texts, never two in a row, and nodes allowed by [P]. *)
Fixpoint mixed (P : node -> bool) (ks : list label) : Prop :=
  match ks with
  | [] => True
  | LText x :: r => x <> [] /\ match r with LText _ :: _ => False | _ => True end /\ mixed P r
  | LNode n _ :: r => P n = true /\ mixed P r
  end.

Definition inline_node (n : node) : bool :=
  match n with NAnchor | NBold | NItalic | NStrikethrough | NCodeSpan | NEmphasis => true | _ => false end.
Definition bold_child (n : node) : bool := match n with NItalic | NStrikethrough => true | _ => false end.
Definition heading_child (n : node) : bool := match n with NAnchor => true | _ => false end.

Definition block_label (k : label) : Prop :=
  match k with
  | LText x => blank_line x
  | LNode n _ =>
      match n with
      | NParagraph | NHeading | NImage | NImages | NCode | NEmbed | NHighlight | NCollapsible
      | NThematicBreak | NUnorderedList | NOrderedList => True
      | _ => False
      end
  end.

(** Paragraphs with at most one blank line in front of each. *)
Inductive highlight_body : list label -> Prop :=
| hb_nil : highlight_body []
| hb_par : forall o ks, highlight_body ks -> highlight_body (LNode NParagraph o :: ks)
| hb_blank : forall x o ks, blank_line x -> highlight_body ks ->
    highlight_body (LText x :: LNode NParagraph o :: ks).

Definition optional (n : node) (ks : list label) : Prop := ks = [] \/ exists o, ks = [LNode n o].
Definition one_text (ks : list label) : Prop := exists x, ks = [LText x].
Definition title_and_destination (ks : list label) : Prop :=
  exists a b, ks = [LNode NTitle a; LNode NDestination b].
Definition delimited (d1 : str) (o : str) (ks : list label) (d2 c : str) : Prop :=
  o = d1 /\ one_text ks /\ c = d2.
Definition list_item (lvl : nat) (m : char) (k : label) : Prop :=
  k = LNode NListItem (repeat c_space lvl ++ [m; c_space]).

(** Text of [Start], children and text of [End] of a node; [lvl] is the nesting level of lists. *)
Definition model (lvl : nat) (n : node) (o : str) (ks : list label) (c : str) : Prop :=
  match n with
  | NMetadata => delimited (s_ "---") o ks (s_ "---") c
  | NTitle => delimited (s_ "[") o ks (s_ "]") c
  | NDestination => delimited (s_ "(") o ks (s_ ")") c
  | NItalic => delimited (s_ "_") o ks (s_ "_") c
  | NStrikethrough => delimited (s_ "~~") o ks (s_ "~~") c
  | NEmphasis => delimited (s_ "*") o ks (s_ "*") c
  | NCodeSpan => delimited (s_ "`") o ks (s_ "`") c
  | NAnchor => o = [] /\ title_and_destination ks /\ c = []
  | NBold => o = s_ "**" /\ mixed bold_child ks /\ c = s_ "**"
  | NParagraph => o = [] /\ mixed inline_node ks /\ c = []
  | NHeading => (exists l, 1 <= l <= 6 /\ o = repeat c_hash l ++ [c_space])
                /\ mixed heading_child ks /\ c = []
  | NImage => o = s_ "!" /\ title_and_destination ks /\ (c = [] \/ newline c)
  | NImages => o = [] /\ 2 <= List.length ks /\ Forall (fun k => k = LNode NImage (s_ "!")) ks /\ c = []
  | NModifier => o = [] /\ one_text ks /\ (newline c \/ blank_line c)
  | NThematicBreak => o = [] /\ ks = [LText (s_ "-----")] /\ c = []
  | NUnorderedList => o = [] /\ ks <> [] /\ Forall (list_item lvl c_minus) ks /\ c = []
  | NOrderedList => o = [] /\ ks <> [] /\ Forall (list_item lvl c_plus) ks /\ c = []
  | NListItem =>
      (exists m, (m = c_minus \/ m = c_plus) /\ o = repeat c_space lvl ++ [m; c_space])
      /\ (ks = [LNode NParagraph []]
          \/ exists n', (n' = NUnorderedList \/ n' = NOrderedList)
                        /\ ks = [LNode NParagraph []; LNode n' []])
      /\ c = []
  | NIcon => o = s_ "! " /\ one_text ks /\ newline c
  | NHighlight =>
      (exists k1 k2 k3, ks = k1 ++ k2 ++ k3 /\ optional NIcon k2 /\ highlight_body k3
        /\ ((o = s_ "!! " /\ optional NModifier k1) \/ (exists e, newline e /\ o = s_ "!!" ++ e /\ k1 = [])))
      /\ opt_newline (s_ "!!") c
  | NEmbed => o = s_ "{{" /\ (exists a b, ks = [LText a; LText (s_ "|"); LText b]) /\ opt_newline (s_ "}}") c
  | NCode =>
      (exists k1 x, ks = k1 ++ [LText x]
        /\ ((o = s_ "```" /\ optional NModifier k1) \/ (exists e, newline e /\ o = s_ "```" ++ e /\ k1 = [])))
      /\ opt_newline (s_ "```") c
  | NCollapsible =>
      (exists x, o = s_ "{%" ++ x /\ (newline x \/ exists l, x = repeat c_space (S l)))
      /\ (exists k1, ks = k1 ++ [LNode NDocument []] /\ optional NModifier k1)
      /\ opt_newline (s_ "%}") c
  | NDocument => o = [] /\ Forall block_label ks /\ c = []
  end.

(** List nesting level for the children. *)
Definition child_level (lvl : nat) (n : node) : nat :=
  match n with NListItem => S lvl | NDocument => 0 | _ => lvl end.

(** [es] is a sequence of texts and complete nodes with the labels [ks], every node as in [model]. *)
Inductive forest : nat -> list label -> list event -> Prop :=
| forest_nil : forall lvl, forest lvl [] []
| forest_text : forall lvl x ks es, forest lvl ks es -> forest lvl (LText x :: ks) ((Value, x) :: es)
| forest_node : forall lvl n o c inner body ks es,
    model lvl n o inner c -> forest (child_level lvl n) inner body -> forest lvl ks es ->
    forest lvl (LNode n o :: ks) ((Start n, o) :: body ++ (End n, c) :: es).

(** A whole stream: maybe metadata, then the document. *)
Definition valid_stream (es : list event) : Prop :=
  exists k1, optional NMetadata k1 /\ forest 0 (k1 ++ [LNode NDocument []]) es.
