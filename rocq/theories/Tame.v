(** Documents that [Display] writes in a form the parser reads back unchanged: an explicit
    predicate over the data types of Ast.v.  Nothing here refers to the lexer, the parser or to
    [Display]. *)
From Verif Require Import Base Ops StreamSpec Ast AstSpec.

(** [p] occurs in [x]. *)
Definition has (p x : str) : Prop := exists a b, x = a ++ p ++ b.
(** How often [c] is repeated at the start. *)
Fixpoint leading (c : char) (x : str) : nat :=
  match x with d :: x' => if char_eqb d c then S (leading c x') else 0 | [] => 0 end.
(** A run of more than one line feed has an even length. *)
Definition even_runs (x : str) : Prop :=
  forall a b, x = a ++ b -> ~ ends_with_nl a -> leading c_nl b = 1 \/ Nat.Even (leading c_nl b).
Definition begins (p x : str) : Prop := exists b, x = p ++ b.

(** ** Inline nodes *)

(** A text between delimiters.  [coll]: inside a collapsible, where a line starting with [%}] ends it. *)
Definition inner_text (coll : bool) (x : str) : Prop :=
  ~ In c_cr x /\ even_runs x /\ (coll = true -> ~ has [c_nl; c_percent; c_rcurly] x).
Definition tame_bold (coll : bool) (b : bold_node) : Prop :=
  match b with
  | BText x | BStrike x => x <> [] /\ inner_text coll x
  | BItalic x => inner_text coll x
  end.
Definition tame_inline (coll : bool) (p : par_node) : Prop :=
  match p with
  | PText x => x <> [] /\ ~ In c_cr x
  | PItalic x => inner_text coll x
  | PStrike x | PEmphasis x | PCodeSpan x => x <> [] /\ inner_text coll x
  | PAnchor t u => inner_text coll t /\ inner_text coll u
  | PBold l => l <> [] /\ Forall (tame_bold coll) l /\ no_neighbours (both is_btext) l /\ no_neighbours (both is_bstrike) l
  end.
Definition tame_inlines (coll : bool) (l : list par_node) : Prop :=
  Forall (tame_inline coll) l /\ no_neighbours (both is_ptext) l /\ no_neighbours fuse l.

(** The text at the start and at the end, if the first and last node are texts. *)
Definition first_text (l : list par_node) : str := match l with PText x :: _ => x | _ => [] end.
Definition last_text (l : list par_node) : str := match rev l with PText x :: _ => x | _ => [] end.
(** The strings inside a node. *)
Definition bold_string (b : bold_node) : str := match b with BText x | BItalic x | BStrike x => x end.
Definition strings (p : par_node) : list str :=
  match p with
  | PText x | PItalic x | PStrike x | PEmphasis x | PCodeSpan x => [x]
  | PAnchor t u => [t; u]
  | PBold l => map bold_string l
  end.

(** ** Blocks *)

(** A text that starts like a heading of level 2 to 6 (level 1 is escaped by [Display]). *)
Definition like_heading (x : str) : Prop :=
  2 <= leading c_hash x <= 6 /\ leading c_space (skipn (leading c_hash x) x) = 1.
(** Nothing but images on lines of their own: [!] and a link each. *)
Fixpoint images_after (l : list par_node) : Prop :=
  match l with
  | [] => True
  | [PText x] => x = [c_nl]
  | PText x :: PAnchor _ _ :: r => x = [c_nl; c_bang] /\ images_after r
  | _ => False
  end.
Definition like_images (l : list par_node) : Prop :=
  match l with PText x :: PAnchor _ _ :: r => x = [c_bang] /\ images_after r | _ => False end.
Definition plain_first (l : list par_node) : Prop := ~ like_heading (first_text l) /\ ~ like_images l.
Definition tame_paragraph (coll : bool) (l : list par_node) : Prop :=
  l <> [] /\ tame_inlines coll l /\ plain_first l.

Definition tame_head (coll : bool) (h : head_node) : Prop :=
  match h with
  | HText x => x <> [] /\ inner_text coll x
  | HAnchor t u => inner_text coll t /\ inner_text coll u
  end.
(** A link [[t](u)] starts in [x] when [y] follows it: [Display] does not escape [[] in headings. *)
Definition opens_link (x y : str) : Prop :=
  exists a t u b, x ++ y = a ++ c_lsquare :: t ++ c_rsquare :: c_lparen :: u ++ c_rparen :: b
    /\ length a < length x /\ ~ In c_rsquare t.
Fixpoint linkless (l : list head_node) : Prop :=
  match l with
  | [] => True
  | HText x :: r => ~ opens_link x (match r with [] => [] | _ => [c_lsquare; c_rsquare; c_lparen; c_rparen] end) /\ linkless r
  | HAnchor _ _ :: r => linkless r
  end.
Definition tame_heading (coll : bool) (level : nat) (l : list head_node) : Prop :=
  1 <= level <= 6 /\ Forall (tame_head coll) l /\ no_neighbours (both is_htext) l /\ linkless l
  /\ match l with HText x :: _ => ~ begins [c_space] x | _ => True end.

Definition tame_image (coll : bool) (i : image_node) : Prop := inner_text coll (alt i) /\ inner_text coll (src i).

Definition tame_code (lang code : str) : Prop :=
  ~ In c_cr lang /\ ~ In c_cr code /\ ~ starts_with_nl code /\ ~ ends_with_nl code.

Definition tame_embed (coll : bool) (kind args : str) : Prop :=
  ~ In c_cr kind /\ ~ In c_cr args /\ (coll = true -> ~ has [c_nl; c_percent; c_rcurly] kind).

(** Titles and icons: one line that does not start with a space. *)
Definition tame_line (x : str) : Prop := ~ In c_nl x /\ ~ In c_cr x /\ ~ begins [c_space] x.
Definition tame_line_opt (o : option str) : Prop := match o with Some x => tame_line x | None => True end.

(** The paragraphs of a highlight.  All but the first may be empty. *)
Definition tame_hpar (coll : bool) (p : list par_node) : Prop := p <> [] /\ tame_inlines coll p /\ ~ ends_with_nl (last_text p).
(** [Display] escapes the line feeds of a [text] in pairs; a line of [x] ends at any other. *)
Definition broken (text : bool) (x : str) : Prop :=
  exists a b, x = a ++ c_nl :: b /\ (text = true -> ~ begins [c_nl] b /\ Nat.Even (leading c_nl (rev a))).
(** A first paragraph that would be read as the icon: [!], one space, and the rest of a line that
    does not end with a blank line. *)
Definition like_icon (p : list par_node) (r : list (list par_node)) : Prop :=
  begins [c_bang; c_space] (first_text p) /\ ~ begins [c_bang; c_space; c_space] (first_text p)
  /\ (r = [] \/ exists q x, In q p /\ In x (strings q) /\ broken (is_ptext q) x).
Definition tame_highlight (coll : bool) (title icon : option str) (ps : list (list par_node)) : Prop :=
  tame_line_opt title /\ tame_line_opt icon
  /\ match ps with
     | p :: r => tame_hpar coll p /\ Forall (fun q => q = [] \/ tame_hpar coll q) r
         /\ leading c_nl (first_text p) <> 1 /\ (icon = None -> ~ like_icon p r)
     | [] => title <> None /\ icon = None
     end.

(** [outer]: the markers of the enclosing lists.  [Display] escapes only the markers of the list
    itself and of the enclosing ones, and only at the start of a line. *)
Definition mchar (ty : list_type) : char := match ty with LUnordered => c_minus | LOrdered => c_plus end.
(** A line of [x] that starts with [j] spaces, [c] and one space.  [Display] escapes the line feeds
    of a [text] in pairs, and an escaped one starts no line. *)
Definition marked_line (text : bool) (j : nat) (c : char) (x : str) : Prop :=
  exists a b, x = a ++ c_nl :: repeat c_space j ++ c :: c_space :: b /\ ~ begins [c_space] b
    /\ (text = true -> Nat.Even (leading c_nl (rev a))).
Definition tame_item_text (coll : bool) (level : nat) (outer : list char) (ty : list_type) (t : list par_node) : Prop :=
  tame_inlines coll t /\ ~ begins [c_space] (first_text t) /\ ~ ends_with_nl (last_text t)
  /\ forall p x j c, In p t -> In x (strings p) -> j <= S level -> (c = c_minus \/ c = c_plus) ->
       (j = level -> c = mchar ty) -> (j = 0 -> ~ In c (mchar ty :: outer)) ->
       ~ marked_line (is_ptext p) j c x.
Inductive tame_list (coll : bool) : nat -> list char -> ylist -> Prop :=
| tame_list_intro : forall level outer ty items,
    items <> [] -> Forall (tame_item coll level outer ty) items -> tame_list coll level outer (YList ty level items)
with tame_item (coll : bool) : nat -> list char -> list_type -> yitem -> Prop :=
| tame_item_intro : forall level outer ty t nested,
    tame_item_text coll level outer ty t ->
    (forall l, nested = Some l -> tame_list coll (S level) (mchar ty :: outer) l) ->
    tame_item coll level outer ty (YItem t nested).

(** Blocks whose text starts or ends with a line feed that is not escaped.  In paragraphs line feeds
    are escaped in pairs. *)
Definition last_head (l : list head_node) : str := match rev l with HText x :: _ => x | _ => [] end.
Definition block_starts_nl (y : ynode) : Prop :=
  match y with YParagraph l => leading c_nl (first_text l) = 1 | _ => False end.
Definition block_ends_nl (y : ynode) : Prop :=
  match y with
  | YParagraph l => Nat.Odd (leading c_nl (rev (last_text l)))
  | YHeading _ l => ends_with_nl (last_head l)
  | _ => False
  end.

Fixpoint tame_block (coll : bool) (y : ynode) : Prop :=
  match y with
  | YParagraph l => tame_paragraph coll l
  | YHeading level l => tame_heading coll level l
  | YImage i => tame_image coll i
  | YImages l => 2 <= length l /\ Forall (tame_image coll) l
  | YCode lang code => tame_code lang code
  | YListNode l => tame_list coll 0 [] l
  | YHighlight t i ps => tame_highlight coll t i ps
  | YThematicBreak => True
  | YEmbed kind args => tame_embed coll kind args
  | YCollapsible title b =>
      tame_line title /\ fold_right and True (map (tame_block true) b) /\ Forall (fun m => ~ block_ends_nl m) b
      /\ match b with m :: _ => ~ block_starts_nl m | [] => True end
  end.

(** ** Documents *)

(** Only the last block may end with a line feed. *)
Fixpoint closed_body (b : list ynode) : Prop :=
  match b with [] => True | y :: r => match r with [] => True | _ => ~ block_ends_nl y /\ closed_body r end end.

(** [Display] does not escape metadata.  No line may start with exactly three dashes. *)
Definition tame_meta (m : str) : Prop :=
  ~ In c_bslash m /\ ~ In c_cr m /\ ~ starts_with_nl m /\ ~ ends_with_nl m
  /\ forall a b, c_nl :: m = a ++ c_nl :: b -> leading c_minus b <> 3.

Definition tame_doc (y : yamd) : Prop :=
  match metadata y with Some m => tame_meta m | None => True end
  /\ Forall (tame_block false) (body y) /\ closed_body (body y).
