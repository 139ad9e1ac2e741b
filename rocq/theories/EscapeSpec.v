(** Specification of what [Display] writes: one pass over each text, instead of a chain of replacements. *)
From Coq Require Import String.
From Verif Require Import Base Ast.
Open Scope list_scope.

(** [written cs ps x w]: [w] is [x], read from left to right, where the characters of [cs] get a
    backslash and the patterns of [ps] are replaced. *)
Inductive written (cs : list char) (ps : list (str * str)) : str -> str -> Prop :=
| w_end : written cs ps [] []
| w_char : forall c x w, In c cs -> written cs ps x w -> written cs ps (c :: x) (c_bslash :: c :: w)
| w_pattern : forall p r x w, In (p, r) ps -> written cs ps x w -> written cs ps (p ++ x) (r ++ w)
| w_keep : forall c x w, ~ In c cs -> (forall p r y, In (p, r) ps -> c :: x <> p ++ y) -> written cs ps x w -> written cs ps (c :: x) (c :: w).

(** The patterns: a blank line, in two styles, and two-character marks. *)
Definition blank1 : str * str := (nlnl, [c_bslash; c_nl; c_nl]).
Definition blank2 : str * str := (nlnl, [c_bslash; c_nl; c_bslash; c_nl]).
Definition mark (p : str) : str * str := (p, c_bslash :: p).

(** ** Inline nodes *)

(** A text between delimiters. *)
Definition between (l r : str) (cs : list char) (ps : list (str * str)) (x w : str) : Prop :=
  exists u, written (c_bslash :: cs) ps x u /\ w = l ++ u ++ r.
Definition link_text (left : list char) (t u w : str) : Prop :=
  exists a b, written (c_bslash :: left) [blank1] t a /\ written [c_bslash; c_lparen; c_rparen] [blank1] u b
    /\ w = s_ "[" ++ a ++ s_ "](" ++ b ++ s_ ")".
Definition bold_text (b : bold_node) : str -> Prop :=
  match b with
  | BItalic x => between (s_ "_") (s_ "_") [c_underscore] [blank1; mark (s_ "**")] x
  | BStrike x => between (s_ "~~") (s_ "~~") [c_tilde] [blank1; mark (s_ "**")] x
  | BText x => written [c_bslash; c_star; c_underscore; c_tilde] [blank1] x
  end.
Definition par_text (p : par_node) (w : str) : Prop :=
  match p with
  | PText x => written [c_bslash; c_star; c_underscore; c_tilde; c_backtick; c_lsquare; c_lcurly] [blank2; mark (s_ "%}")] x w
  | PItalic x => between (s_ "_") (s_ "_") [c_underscore] [blank1] x w
  | PStrike x => between (s_ "~~") (s_ "~~") [c_tilde] [blank1] x w
  | PEmphasis x => between (s_ "*") (s_ "*") [c_star] [blank1] x w
  | PCodeSpan [] => w = []
  | PCodeSpan x => between (s_ "`") (s_ "`") [c_backtick] [blank1] x w
  | PAnchor t u => link_text [c_lsquare; c_rsquare] t u w
  | PBold l => (Forall (fun b => b = BText []) l /\ w = [])
               \/ (~ Forall (fun b => b = BText []) l /\ exists ws, Forall2 bold_text l ws /\ w = s_ "**" ++ concat ws ++ s_ "**")
  end.
Definition pars_text (l : list par_node) (w : str) : Prop := exists ws, Forall2 par_text l ws /\ w = concat ws.
Definition head_text (h : head_node) (w : str) : Prop :=
  match h with
  | HText x => written [c_bslash; c_hash] [blank1] x w
  | HAnchor t u => link_text [c_lsquare; c_rsquare] t u w
  end.

(** ** Blocks *)

Definition image_text (i : image_node) (w : str) : Prop :=
  exists v, link_text [c_rsquare] (alt i) (src i) v /\ w = s_ "!" ++ v.

(** A paragraph that starts like another block gets a backslash. *)
Definition block_mark (w : str) : Prop :=
  exists m r, In m [s_ "- "; s_ "+ "; s_ "# "; s_ "!!"; s_ "---"] /\ w = m ++ r.
Definition led (w v : str) : Prop := (block_mark w /\ v = c_bslash :: w) \/ (~ block_mark w /\ v = w).

(** Parts with a separator between them. *)
Inductive separated (sep : str) : list str -> str -> Prop :=
| sep_none : separated sep [] []
| sep_one : forall x, separated sep [x] x
| sep_more : forall x y l w, separated sep (y :: l) w -> separated sep (x :: y :: l) (x ++ sep ++ w).

Definition list_mark (ty : list_type) : str := match ty with LUnordered => s_ "-" | LOrdered => s_ "+" end.
Inductive list_text : ylist -> str -> Prop :=
| lt_list : forall ty level items ws w, Forall2 (item_text ty level) items ws -> separated nl ws w -> list_text (YList ty level items) w
(** The marker of the list after a line feed inside of an item gets a backslash. *)
with item_text : list_type -> nat -> yitem -> str -> Prop :=
| it_leaf : forall ty level l v w, pars_text l v -> written [] [(nl ++ list_mark ty ++ s_ " ", nl ++ c_bslash :: list_mark ty ++ s_ " ")] v w ->
    item_text ty level (YItem l None) (repeat_char c_space level ++ list_mark ty ++ s_ " " ++ w)
| it_nested : forall ty level l v n u w, pars_text l v -> list_text n u ->
    written [] [(nl ++ list_mark ty ++ s_ " ", nl ++ c_bslash :: list_mark ty ++ s_ " ")] (v ++ nl ++ u) w ->
    item_text ty level (YItem l (Some n)) (repeat_char c_space level ++ list_mark ty ++ s_ " " ++ w).

Definition hpar_text (p : list par_node) (w : str) : Prop :=
  exists u v, pars_text p u /\ written [] [mark (s_ "!!")] u v /\ led v w.
Definition option_text (l r : str) (o : option str) (w : str) : Prop :=
  match o with None => w = [] | Some x => between l r [] [] x w end.

Inductive block_text : ynode -> str -> Prop :=
| bt_paragraph : forall l u w, pars_text l u -> led u w -> block_text (YParagraph l) w
| bt_heading : forall level l ws, Forall2 head_text l ws -> block_text (YHeading level l) (repeat_char c_hash level ++ s_ " " ++ concat ws)
| bt_image : forall i w, image_text i w -> block_text (YImage i) w
| bt_images : forall l ws w, Forall2 image_text l ws -> separated nl ws w -> block_text (YImages l) w
| bt_code : forall lang code a b, written [c_bslash; c_backtick; c_nl] [] lang a -> written [c_bslash] [mark (s_ "```")] code b ->
    block_text (YCode lang code) (s_ "```" ++ a ++ nl ++ b ++ nl ++ s_ "```")
| bt_list : forall l w, list_text l w -> block_text (YListNode l) w
| bt_highlight : forall t i ps a b ws w, option_text (s_ " ") [] t a -> option_text (s_ "! ") nl i b -> Forall2 hpar_text ps ws -> separated nlnl ws w ->
    block_text (YHighlight t i ps) (s_ "!!" ++ a ++ nl ++ b ++ w ++ nl ++ s_ "!!")
| bt_break : block_text YThematicBreak (s_ "-----")
| bt_embed : forall k args a b, written [c_bslash; c_lcurly; c_pipe] [] k a -> written [c_bslash; c_lcurly; c_percent; c_rcurly] [] args b ->
    block_text (YEmbed k args) (s_ "{{" ++ a ++ s_ "|" ++ b ++ s_ "}}")
| bt_collapsible : forall t b a ws w, written [c_bslash] [mark (s_ "%}")] t a -> Forall2 block_text b ws -> separated nlnl ws w ->
    block_text (YCollapsible t b) (s_ "{% " ++ a ++ nl ++ w ++ nl ++ s_ "%}").

(** ** Documents *)

(** Metadata is written as it is, and ends with one line feed if it has none. *)
Definition meta_text (m w : str) : Prop :=
  exists v, ((exists a, m = a ++ nl) /\ v = m \/ (~ exists a, m = a ++ nl) /\ v = m ++ nl) /\ w = s_ "---" ++ nl ++ v ++ s_ "---" ++ nlnl.
Definition document_text (y : yamd) (w : str) : Prop :=
  exists a ws b, match metadata y with None => a = [] | Some m => meta_text m a end
    /\ Forall2 block_text (body y) ws /\ separated nlnl ws b /\ w = a ++ b.
