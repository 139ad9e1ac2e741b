(** Tokens that look the same to the parser, and sources that differ only in ordinary text or in
    their line endings. *)
From Verif Require Import Base Lexer LexFacts Ops Parser Ast.

(** Kinds whose length matters. *)
Definition sized (k : token_kind) : bool := match k with Eol | Terminator | Literal => false | _ => true end.
(** The same kind, both or none at the start of a line, delimiters of the same length. *)
Definition alike (t u : token) : Prop := kind t = kind u /\ col0 t = col0 u /\ (sized (kind t) = true -> tlen t = tlen u).

(** The text of [o] is that of [n] tokens from number [i] on. *)
Definition stands (s : str) (ts : list token) (o : op) (c : nat * nat) : Prop :=
  as_str s (op_content o) = concat_texts s (firstn (snd c) (skipn (fst c) ts)).
(** Ranges between [i] and [j], one after the other. *)
Fixpoint in_order (i : nat) (cs : list (nat * nat)) (j : nat) : Prop :=
  match cs with [] => i <= j | c :: r => i <= fst c /\ in_order (fst c + snd c) r j end.

(** ** Rewriting characters *)

(** Characters with a meaning. *)
Definition syntax (c : char) : bool := special c || existsb (char_eqb c) [c_space; c_percent; c_cr].
(** [g] rewrites ordinary characters into ordinary text and keeps the others, but for line feeds. *)
Definition rewording (g : char -> str) : Prop :=
  forall c, c <> c_nl -> if syntax c then g c = [c] else g c <> [] /\ Forall (fun d => syntax d = false) (g c).
(** Line feeds are kept, or they all get a carriage return. *)
Definition same_lines (g : char -> str) : Prop := g c_nl = [c_nl].
Definition crlf_lines (g : char -> str) (s : str) : Prop :=
  g c_nl = [c_cr; c_nl] /\ ~ In c_cr s /\ (forall a b, s = a ++ c_nl :: b -> dangling a = false).

(** A document with every text rewritten. *)
Section Reword.
  Variable g : char -> str.
  Definition reword (s : str) : str := flat_map g s.
  Definition reword_bold (b : bold_node) : bold_node :=
    match b with BItalic s => BItalic (reword s) | BStrike s => BStrike (reword s) | BText s => BText (reword s) end.
  Definition reword_par (n : par_node) : par_node :=
    match n with
    | PAnchor t u => PAnchor (reword t) (reword u)
    | PBold b => PBold (map reword_bold b)
    | PItalic s => PItalic (reword s)
    | PStrike s => PStrike (reword s)
    | PText s => PText (reword s)
    | PCodeSpan s => PCodeSpan (reword s)
    | PEmphasis s => PEmphasis (reword s)
    end.
  Definition reword_head (n : head_node) : head_node :=
    match n with HText s => HText (reword s) | HAnchor t u => HAnchor (reword t) (reword u) end.
  Definition reword_image (i : image_node) : image_node := mk_image (reword (alt i)) (reword (src i)).
  Fixpoint reword_list (l : ylist) : ylist :=
    match l with YList ty level items => YList ty level (map reword_item items) end
  with reword_item (it : yitem) : yitem :=
    match it with
    | YItem text nested => YItem (map reword_par text) match nested with Some l => Some (reword_list l) | None => None end
    end.
  Fixpoint reword_node (n : ynode) : ynode :=
    match n with
    | YParagraph b => YParagraph (map reword_par b)
    | YHeading l b => YHeading l (map reword_head b)
    | YImage i => YImage (reword_image i)
    | YImages l => YImages (map reword_image l)
    | YCode l c => YCode (reword l) (reword c)
    | YListNode l => YListNode (reword_list l)
    | YHighlight t i b => YHighlight (option_map reword t) (option_map reword i) (map (map reword_par) b)
    | YThematicBreak => YThematicBreak
    | YEmbed k a => YEmbed (reword k) (reword a)
    | YCollapsible t b => YCollapsible (reword t) (map reword_node b)
    end.
  Definition reword_yamd (y : yamd) : yamd := mk_yamd (option_map reword (metadata y)) (map reword_node (body y)).
End Reword.

(** Windows line endings. *)
Definition crlf (s : str) : str := flat_map (fun c => if char_eqb c c_nl then [c_cr; c_nl] else [c]) s.
(** No carriage returns, and no line feed after an escaping backslash. *)
Definition unix (s : str) : Prop := ~ In c_cr s /\ forall a b, s = a ++ c_nl :: b -> dangling a = false.
