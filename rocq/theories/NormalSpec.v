(** The documents that [deserialize] can return, described by the shape of the document alone, and a
    text for each of them in which every character of a text is escaped.  Uses only the data types of
    Ast.v and the vocabulary of AstSpec.v. *)
From Verif Require Import Base Ast AstSpec.
From Coq Require Import String.

Definition filled (x : str) : Prop := x <> [].

(** Inline content: no empty texts and no neighbours that would be one. *)
Definition normal_bold (l : list bold_node) : Prop :=
  l <> [] /\ (forall x, In (BText x) l \/ In (BStrike x) l -> filled x)
  /\ no_neighbours (both is_btext) l /\ no_neighbours (both is_bstrike) l.
Definition normal_inline (p : par_node) : Prop :=
  match p with
  | PText x | PCodeSpan x | PEmphasis x | PStrike x => filled x
  | PBold l => normal_bold l
  | PItalic _ | PAnchor _ _ => True
  end.
Definition normal_text (b : list par_node) : Prop :=
  Forall normal_inline b /\ no_neighbours (both is_ptext) b /\ no_neighbours fuse b.
(** The same without a line feed at the end. *)
Definition normal_line (b : list par_node) : Prop :=
  normal_text b /\ forall b1 x, b = b1 ++ [PText x] -> ~ ends_with_nl x.

Definition normal_node (n : ynode) : Prop :=
  match n with
  | YParagraph b => b <> [] /\ normal_text b
  | YHeading l b => 1 <= l <= 6 /\ (forall x, In (HText x) b -> filled x) /\ no_neighbours (both is_htext) b
  | YImages l => 2 <= List.length l
  | YCode _ code => ~ ends_with_nl code
  | YListNode l => levels_ok 0 l /\ Forall normal_line (item_bodies l)
  | YHighlight _ _ ps => Forall normal_line ps
  | YImage _ | YThematicBreak | YEmbed _ _ | YCollapsible _ _ => True
  end.
Definition normal (y : yamd) : Prop :=
  (forall m, metadata y = Some m -> ~ starts_with_nl m /\ ~ ends_with_nl m)
  /\ forall n, In n (doc_nodes y) -> normal_node n.

(** ** A text for every document *)

Definition escaped (x : str) : str := flat_map (fun c => [c_bslash; c]) x.
Definition src_bold (b : bold_node) : str :=
  match b with
  | BText x => escaped x
  | BItalic x => s_ "_" ++ escaped x ++ s_ "_"
  | BStrike x => s_ "~~" ++ escaped x ++ s_ "~~"
  end%list.
Definition src_link (t u : str) : str := (s_ "[" ++ escaped t ++ s_ "](" ++ escaped u ++ s_ ")")%list.
Definition src_inline (p : par_node) : str :=
  match p with
  | PText x => escaped x
  | PItalic x => s_ "_" ++ escaped x ++ s_ "_"
  | PStrike x => s_ "~~" ++ escaped x ++ s_ "~~"
  | PEmphasis x => s_ "*" ++ escaped x ++ s_ "*"
  | PCodeSpan x => s_ "`" ++ escaped x ++ s_ "`"
  | PAnchor t u => src_link t u
  | PBold l => s_ "**" ++ flat_map src_bold l ++ s_ "**"
  end%list.
Definition src_inlines (b : list par_node) : str := flat_map src_inline b.
Definition src_head (h : head_node) : str := match h with HText x => escaped x | HAnchor t u => src_link t u end.
Definition src_image (i : image_node) : str := (s_ "!" ++ src_link (alt i) (src i))%list.

(** Parts with [sep] between them. *)
Fixpoint between (sep : str) (l : list str) : str :=
  match l with [] => [] | a :: r => (a ++ match r with [] => [] | _ => sep ++ between sep r end)%list end.

Fixpoint src_list (l : ylist) : str :=
  match l with
  | YList ty level items =>
      between nl (map (fun it => match it with
        | YItem t nested =>
            (repeat c_space level ++ (match ty with LUnordered => s_ "- " | LOrdered => s_ "+ " end) ++ src_inlines t
             ++ match nested with Some l' => nl ++ src_list l' | None => [] end)%list
        end) items)
  end.
(** An empty paragraph of a highlight is a line feed, which is cut off. *)
Definition src_line (b : list par_node) : str := match b with [] => escaped nl | _ => src_inlines b end.
Definition src_some (f : str -> str) (o : option str) : str := match o with Some x => f x | None => [] end.

Fixpoint src_node (n : ynode) : str :=
  match n with
  | YParagraph b => src_inlines b
  | YHeading l b => repeat c_hash l ++ s_ " " ++ flat_map src_head b
  | YImage i => src_image i
  | YImages l => between nl (map src_image l)
  | YCode lang code => s_ "```" ++ escaped lang ++ nl ++ escaped code ++ nl ++ s_ "```"
  | YListNode l => src_list l
  | YHighlight title icon ps =>
      s_ "!!" ++ src_some (fun t => s_ " " ++ escaped t) title ++ nl
      ++ src_some (fun i => s_ "! " ++ escaped i ++ nl) icon
      ++ match ps with [] => [] | _ => between nlnl (map src_line ps) ++ nl end ++ s_ "!!"
  | YThematicBreak => s_ "-----"
  | YEmbed kind args => s_ "{{" ++ escaped kind ++ s_ "|" ++ escaped args ++ s_ "}}"
  | YCollapsible title b => s_ "{% " ++ escaped title ++ nl ++ between nlnl (map src_node b) ++ nl ++ s_ "%}"
  end%list.
Definition source (y : yamd) : str :=
  (src_some (fun m => s_ "---" ++ nl ++ escaped m ++ nl ++ s_ "---" ++ nlnl) (metadata y) ++ between nlnl (map src_node (body y)))%list.
