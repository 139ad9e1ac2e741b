(** The text of a document: what its nodes hold, in the order of the source. *)
From Verif Require Import Base Ast.

Definition bold_text (n : bold_node) : str := match n with BItalic x | BStrike x | BText x => x end.
Definition par_text (n : par_node) : str :=
  match n with
  | PAnchor t u => t ++ u
  | PBold b => flat_map bold_text b
  | PItalic x | PStrike x | PText x | PCodeSpan x | PEmphasis x => x
  end.
Definition pars_text (l : list par_node) : str := flat_map par_text l.
Definition head_text (n : head_node) : str := match n with HText x => x | HAnchor t u => t ++ u end.
Definition image_text (i : image_node) : str := alt i ++ src i.
Definition opt_text (o : option str) : str := match o with Some x => x | None => [] end.
Fixpoint list_text (l : ylist) : str :=
  match l with
  | YList _ _ its =>
      flat_map (fun it => match it with
                          | YItem t n => pars_text t ++ match n with Some l' => list_text l' | None => [] end
                          end) its
  end.
Fixpoint node_text (n : ynode) : str :=
  match n with
  | YParagraph b => pars_text b
  | YHeading _ b => flat_map head_text b
  | YImage i => image_text i
  | YImages l => flat_map image_text l
  | YCode lang code => lang ++ code
  | YListNode l => list_text l
  | YHighlight t i b => opt_text t ++ opt_text i ++ flat_map pars_text b
  | YThematicBreak => []
  | YEmbed k a => k ++ a
  | YCollapsible t b => t ++ flat_map node_text b
  end.
Definition doc_text (y : yamd) : str := opt_text (metadata y) ++ flat_map node_text (body y).

(** The characters delimiters are made of. *)
Definition delimiter (c : char) : bool :=
  existsb (char_eqb c) [c_nl; c_cr; c_space; c_star; c_underscore; c_tilde; c_backtick; c_lsquare; c_rsquare; c_lparen; c_rparen;
                        c_lcurly; c_rcurly; c_percent; c_bang; c_hash; c_minus; c_plus; c_pipe].

(** [x] is [y] without some delimiter characters. *)
Inductive keeps : str -> str -> Prop :=
| keeps_nil : keeps [] []
| keeps_char : forall c x y, keeps x y -> keeps (c :: x) (c :: y)
| keeps_delim : forall c x y, delimiter c = true -> keeps x y -> keeps x (c :: y).

(** Neither a delimiter nor a backslash. *)
Definition ordinary (c : char) : bool := negb (delimiter c) && negb (char_eqb c c_bslash).
