(** Model of src/nodes/*.rs: the document tree and its [Display]. *)
From Verif Require Import Base.
From Coq Require Import String.

(** src/nodes/bold.rs 11-15: [BoldNodes] ([Italic] and [Strikethrough] are newtypes of strings). *)
Inductive bold_node := BItalic (s : str) | BStrike (s : str) | BText (s : str).

(** src/nodes/paragraph.rs 11-19: [ParagraphNodes]; anchor.rs 37-40 (text, url). *)
Inductive par_node :=
| PAnchor (text url : str)
| PBold (body : list bold_node)
| PItalic (s : str)
| PStrike (s : str)
| PText (s : str)
| PCodeSpan (s : str)
| PEmphasis (s : str).

(** src/nodes/heading.rs 11-14: [HeadingNodes]. *)
Inductive head_node := HText (s : str) | HAnchor (text url : str).

(** src/nodes/list.rs 10-17: [ListTypes]. *)
Inductive list_type := LUnordered | LOrdered.

(** src/nodes/list.rs 137-141 and list_item.rs 31-34: [List], [ListItem]. *)
Inductive ylist := YList (ty : list_type) (level : nat) (items : list yitem)
with yitem := YItem (text : list par_node) (nested : option ylist).

(** src/nodes/image.rs 38-41: [Image]. *)
Record image_node := mk_image { alt : str; src : str }.

(** src/nodes/yamd.rs 14-25: [YamdNodes] with the fields of its structs. [level] of a heading is
    the [u8] of heading.rs 72. *)
Inductive ynode :=
| YParagraph (body : list par_node)
| YHeading (level : nat) (body : list head_node)
| YImage (i : image_node)
| YImages (body : list image_node)
| YCode (lang code : str)
| YListNode (l : ylist)
| YHighlight (title icon : option str) (body : list (list par_node))
| YThematicBreak
| YEmbed (kind args : str)
| YCollapsible (title : str) (body : list ynode).

(** src/nodes/yamd.rs 254-257: [Yamd]. *)
Record yamd := mk_yamd { metadata : option str; body : list ynode }.

(** src/nodes/yamd.rs 260-263: [Yamd::new]. *)
Definition yamd_new (m : option str) (b : list ynode) : yamd :=
  mk_yamd (match m with Some m => Some (trim_both c_nl m) | None => None end) b.

(** src/nodes/code.rs 39-46: [Code::new]. *)
Definition code_new (lang code : str) : ynode := YCode lang (trim_end c_nl code).

(** ** Display *)

Definition nl : str := [c_nl].
(** Two and three character patterns with line feeds and backslashes, which Coq string literals
    cannot show well: "\n\n", "\\\n\n" (backslash, two line feeds), "\\\n\\\n". *)
Definition nlnl : str := [c_nl; c_nl].
Definition esc_nlnl : str := [c_bslash; c_nl; c_nl].
Definition esc_nl_esc_nl : str := [c_bslash; c_nl; c_bslash; c_nl].

(** [s.replace("x", "\\x")] for one character. *)
Definition esc_char (c : char) (s : str) : str := replace [c] [c_bslash; c] s.

(** src/nodes/anchor.rs 51-68. *)
Definition display_anchor (text url : str) : str :=
  (s_ "[" ++ replace nlnl esc_nlnl (esc_char c_rsquare (esc_char c_lsquare (esc_char c_bslash text)))
   ++ s_ "](" ++ replace nlnl esc_nlnl (esc_char c_rparen (esc_char c_lparen (esc_char c_bslash url)))
   ++ s_ ")")%list.

(** src/nodes/italic.rs 41-52. *)
Definition display_italic (s : str) : str :=
  (s_ "_" ++ replace nlnl esc_nlnl (esc_char c_underscore (esc_char c_bslash s)) ++ s_ "_")%list.

(** src/nodes/strikethrough.rs 42-53. *)
Definition display_strike (s : str) : str :=
  (s_ "~~" ++ replace nlnl esc_nlnl (esc_char c_tilde (esc_char c_bslash s)) ++ s_ "~~")%list.

(** src/nodes/emphasis.rs 42-53. *)
Definition display_emphasis (s : str) : str :=
  (s_ "*" ++ replace nlnl esc_nlnl (esc_char c_star (esc_char c_bslash s)) ++ s_ "*")%list.

(** src/nodes/code_span.rs 42-56. *)
Definition display_code_span (s : str) : str :=
  match s with
  | [] => []
  | _ => (s_ "`" ++ replace nlnl esc_nlnl (esc_char c_backtick (esc_char c_bslash s)) ++ s_ "`")%list
  end.

(** src/nodes/bold.rs 35-53. *)
Definition display_bold_node (b : bold_node) : str :=
  match b with
  | BItalic s => display_italic s
  | BStrike s => display_strike s
  | BText s =>
      replace nlnl esc_nlnl
        (esc_char c_tilde (esc_char c_underscore (esc_char c_star (esc_char c_bslash s))))
  end.

(** src/nodes/bold.rs 113-128. *)
Definition bold_has_content (body : list bold_node) : bool :=
  existsb (fun b => match b with BText [] => false | _ => true end) body.
Definition display_bold (body : list bold_node) : str :=
  if bold_has_content body
  then (s_ "**"
        ++ flat_map (fun b => replace (s_ "**") (c_bslash :: s_ "**") (display_bold_node b)) body
        ++ s_ "**")%list
  else [].

(** src/nodes/paragraph.rs 70-82: the arm for text. *)
Definition display_text (s : str) : str :=
  replace (s_ "%}") (c_bslash :: s_ "%}")
    (replace nlnl esc_nl_esc_nl
       (esc_char c_lcurly (esc_char c_lsquare (esc_char c_backtick (esc_char c_tilde
          (esc_char c_underscore (esc_char c_star (esc_char c_bslash s)))))))).

(** src/nodes/paragraph.rs 63-87. *)
Definition display_par_node (n : par_node) : str :=
  match n with
  | PAnchor t u => display_anchor t u
  | PBold b => display_bold b
  | PItalic s => display_italic s
  | PStrike s => display_strike s
  | PText s => display_text s
  | PCodeSpan s => display_code_span s
  | PEmphasis s => display_emphasis s
  end.

(** src/nodes/paragraph.rs 157-164. *)
Definition display_paragraph (body : list par_node) : str := flat_map display_par_node body.

(** src/nodes/paragraph.rs 171-182: [escape_leading_block_marker]. *)
Definition escape_leading_block_marker (s : str) : str :=
  if starts_with (s_ "- ") s || starts_with (s_ "+ ") s || starts_with (s_ "# ") s
     || starts_with (s_ "!!") s || starts_with (s_ "---") s
  then c_bslash :: s else s.

(** src/nodes/heading.rs 28-43. *)
Definition display_head_node (n : head_node) : str :=
  match n with
  | HText s => esc_char c_hash (replace nlnl esc_nlnl (esc_char c_bslash s))
  | HAnchor t u => display_anchor t u
  end.

(** src/nodes/heading.rs 82-87. *)
Definition display_heading (level : nat) (body : list head_node) : str :=
  (repeat_char c_hash level ++ s_ " " ++ flat_map display_head_node body)%list.

(** src/nodes/image.rs 52-68. *)
Definition display_image (i : image_node) : str :=
  (s_ "![" ++ replace nlnl esc_nlnl (esc_char c_rsquare (esc_char c_bslash (alt i)))
   ++ s_ "](" ++ replace nlnl esc_nlnl (esc_char c_rparen (esc_char c_lparen (esc_char c_bslash (src i))))
   ++ s_ ")")%list.

(** src/nodes/images.rs 50-62. *)
Definition display_images (l : list image_node) : str := join nl (map display_image l).

(** src/nodes/code.rs 49-61. *)
Definition display_code (lang code : str) : str :=
  (s_ "```" ++ esc_char c_nl (esc_char c_backtick (esc_char c_bslash lang)) ++ nl
   ++ replace (s_ "```") (c_bslash :: s_ "```") (esc_char c_bslash code) ++ nl ++ s_ "```")%list.

(** src/nodes/embed.rs 43-59. *)
Definition display_embed (k args : str) : str :=
  (s_ "{{" ++ esc_char c_pipe (esc_char c_lcurly (esc_char c_bslash k)) ++ s_ "|"
   ++ esc_char c_rcurly (esc_char c_percent (esc_char c_lcurly (esc_char c_bslash args)))
   ++ s_ "}}")%list.

(** src/nodes/highlight.rs 75-96. *)
Definition display_highlight (title icon : option str) (body : list (list par_node)) : str :=
  let t := match title with
           | None => [] | Some t => (s_ " " ++ esc_char c_bslash t)%list end in
  let i := match icon with
           | None => [] | Some i => (s_ "! " ++ esc_char c_bslash i ++ nl)%list end in
  (s_ "!!" ++ t ++ nl ++ i
   ++ join nlnl
        (map (fun p => escape_leading_block_marker
                         (replace (s_ "!!") (c_bslash :: s_ "!!") (display_paragraph p))) body)
   ++ nl ++ s_ "!!")%list.

(** src/nodes/list.rs 19-26: [ListTypes: Display]. *)
Definition display_list_type (ty : list_type) : str :=
  match ty with LUnordered => s_ "-" | LOrdered => s_ "+" end.

(** src/nodes/list.rs 153-174 and list_item.rs 43-51. *)
Fixpoint display_list (l : ylist) : str :=
  match l with
  | YList ty level items =>
      let m := display_list_type ty in
      join nl
        (map (fun it =>
                (repeat_char c_space level ++ m ++ s_ " "
                 ++ replace (nl ++ m ++ s_ " ") (nl ++ [c_bslash] ++ m ++ s_ " ")
                      (display_item it))%list) items)
  end
with display_item (it : yitem) : str :=
  match it with
  | YItem text nested =>
      match nested with
      | Some l => (flat_map display_par_node text ++ nl ++ display_list l)%list
      | None => flat_map display_par_node text
      end
  end.

(** src/nodes/yamd.rs 87-102 and, for the collapsible, collapsible.rs 54-70. *)
Fixpoint display_node (n : ynode) : str :=
  match n with
  | YParagraph b => display_paragraph b
  | YHeading l b => display_heading l b
  | YImage i => display_image i
  | YImages l => display_images l
  | YCode l c => display_code l c
  | YListNode l => display_list l
  | YHighlight t i b => display_highlight t i b
  | YThematicBreak => s_ "-----"
  | YEmbed k a => display_embed k a
  | YCollapsible t b =>
      (s_ "{% " ++ replace (s_ "%}") (c_bslash :: s_ "%}") (esc_char c_bslash t) ++ nl
       ++ join nlnl
            (map (fun m => match m with
                           | YParagraph p => escape_leading_block_marker (display_paragraph p)
                           | _ => display_node m
                           end) b)
       ++ nl ++ s_ "%}")%list
  end.

(** The closure of yamd.rs 271-274 and collapsible.rs 62-65. *)
Definition display_block (m : ynode) : str :=
  match m with
  | YParagraph p => escape_leading_block_marker (display_paragraph p)
  | _ => display_node m
  end.
Definition display_body (b : list ynode) : str := join nlnl (map display_block b).

(** src/nodes/yamd.rs 266-285. *)
Definition display_yamd (y : yamd) : str :=
  match metadata y with
  | Some m =>
      let sep := if ends_with_char c_nl m then [] else nl in
      (s_ "---" ++ nl ++ m ++ sep ++ s_ "---" ++ nlnl ++ display_body (body y))%list
  | None => display_body (body y)
  end.
