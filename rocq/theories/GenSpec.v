(** The values that the generators of tests/round_trip_proptest.rs produce.  The bounds on lengths and
    on the number of pieces are dropped, so the predicates hold for more values than the generators
    produce. *)
From Coq Require Import String.
From Verif Require Import Base Ops StreamSpec Ast AstSpec Tame.
Open Scope list_scope.

(** [a-zA-Z0-9] *)
Definition alnum (c : char) : Prop := (97 <= c <= 122 \/ 65 <= c <= 90 \/ 48 <= c <= 57)%N.
Definition word (x : str) : Prop := x <> [] /\ Forall alnum x.
(** [a-zA-Z0-9/:._-] *)
Definition url_char (c : char) : Prop := alnum c \/ In c (s_ "/:._-").

(** Pieces of a string, joined. *)
Definition joined (piece : str -> Prop) (x : str) : Prop := exists l, l <> [] /\ Forall piece l /\ x = concat l.

(** lines 54-74 *)
Definition inline_piece (p : str) : Prop :=
  In p [s_ "*"; s_ "**"; s_ "_"; s_ "~~"; s_ "`"; s_ "```"; s_ "#"; s_ "!!"; s_ "["; s_ "]"; s_ "("; s_ ")"; s_ "|"; s_ "}"; s_ "{"; s_ "%}"; s_ "{%"; s_ "\"]
  \/ word p.
(** lines 12-44 *)
Definition text_piece (p : str) : Prop :=
  inline_piece p
  \/ In p ([nl; nlnl] ++ map (fun q => nl ++ q) [s_ "- "; s_ "+ "; s_ "# "; s_ "```"; s_ "!! "; s_ "---"; s_ "{% "; s_ "%}"]).
(** lines 9-49: [arb_text] *)
Definition arb_text (x : str) : Prop := (x <> [] /\ Forall (fun c => alnum c \/ c = c_space) x) \/ joined text_piece x.

(** [s.trim().is_empty()], for strings over these alphabets. *)
Definition blank_text (x : str) : Prop := Forall (fun c => c = c_space \/ c = c_nl) x.
(** lines 51-84: [arb_inline_text] *)
Definition arb_inline_text (x : str) : Prop := (word x \/ joined inline_piece x) /\ ~ blank_text x /\ ~ begins [c_space] x.
(** lines 86-90: [arb_block_text] *)
Definition arb_block_text (x : str) : Prop := arb_text x /\ ~ blank_text x /\ ~ ends_with_nl x /\ ~ starts_with_nl x.
(** lines 92-97: [arb_list_item_text] *)
Definition arb_list_item_text (x : str) : Prop := arb_block_text x /\ ~ begins [c_space] x.
(** lines 99-115: [arb_url] *)
Definition arb_url (x : str) : Prop :=
  (x <> [] /\ Forall url_char x)
  \/ joined (fun p => In p [s_ "("; s_ ")"; s_ "["; s_ "]"] \/ (p <> [] /\ Forall url_char p)) x.

(** lines 311-328: [arb_paragraph_node], [arb_paragraph] *)
Inductive arb_paragraph_node : par_node -> Prop :=
| gen_text : forall x, arb_inline_text x -> arb_paragraph_node (PText x)
| gen_italic : forall x, arb_inline_text x -> arb_paragraph_node (PItalic x)
| gen_emphasis : forall x, arb_inline_text x -> arb_paragraph_node (PEmphasis x)
| gen_strike : forall x, arb_inline_text x -> arb_paragraph_node (PStrike x)
| gen_code_span : forall x, arb_inline_text x -> arb_paragraph_node (PCodeSpan x)
| gen_anchor : forall t u, arb_inline_text t -> arb_url u -> arb_paragraph_node (PAnchor t u)
| gen_bold : forall x, word x -> arb_paragraph_node (PBold [BText x]).
Definition arb_image (i : image_node) : Prop := arb_inline_text (alt i) /\ arb_url (src i).
(** lines 330-348: [arb_yamd_node]; [heads] are the texts allowed in headings. *)
Inductive arb_yamd_node (heads : str -> Prop) : ynode -> Prop :=
| gen_paragraph : forall n, arb_paragraph_node n -> arb_yamd_node heads (YParagraph [n])
| gen_heading : forall level x, 1 <= level <= 6 -> arb_inline_text x -> heads x -> arb_yamd_node heads (YHeading level [HText x])
| gen_image : forall i, arb_image i -> arb_yamd_node heads (YImage i)
| gen_images : forall l, 2 <= length l -> Forall arb_image l -> arb_yamd_node heads (YImages l)
| gen_code : forall lang code, arb_inline_text lang -> arb_block_text code -> arb_yamd_node heads (code_new lang code)
| gen_break : arb_yamd_node heads YThematicBreak
| gen_embed : forall kind args, arb_inline_text kind -> arb_block_text args -> arb_yamd_node heads (YEmbed kind args).
(** lines 350-360: [arb_yamd] *)
Inductive arb_yamd (heads : str -> Prop) : yamd -> Prop :=
| gen_yamd : forall m b, match m with Some x => Forall (fun c => alnum c \/ In c (s_ ": ")) x /\ ~ blank_text x | None => True end ->
    b <> [] -> Forall (arb_yamd_node heads) b -> arb_yamd heads (yamd_new m b).
