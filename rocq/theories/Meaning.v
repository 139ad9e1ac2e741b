(** The document that a stream of events stands for, as a grammar: which events make up which node.
    Written from the documentation of src/op/mod.rs 111-167 and of the structs in src/nodes/; there
    is no stack and no order of evaluation.  Uses only the events of StreamSpec.v and the data types of
    Ast.v. *)
From Verif Require Import Base Ops StreamSpec Ast AstSpec.

(** [es] is a sequence of parts, each standing for one element of the list. *)
Inductive each {X : Type} (P : list event -> X -> Prop) : list event -> list X -> Prop :=
| each_nil : each P [] []
| each_cons : forall es x es' l, P es x -> each P es' l -> each P (es ++ es') (x :: l).

(** [es] is a node [n] with the events [mid] inside; [o] and [c] are its delimiters. *)
Definition node_of (n : node) (mid es : list event) : Prop :=
  exists o c, es = (Start n, o) :: mid ++ [(End n, c)].
(** A node with just the text [x] inside, in any number of pieces. *)
Definition values (xs : list str) : list event := map (fun x => (Value, x)) xs.
Definition text_node (n : node) (x : str) (es : list event) : Prop := exists xs, x = concat xs /\ node_of n (values xs) es.
(** Title and destination of a link. *)
Definition link_parts (t u : str) (es : list event) : Prop :=
  exists e1 e2, es = e1 ++ e2 /\ text_node NTitle t e1 /\ text_node NDestination u e2.

(** ** Inline nodes *)

Inductive bold_means : list event -> bold_node -> Prop :=
| bm_text : forall x, bold_means [(Value, x)] (BText x)
| bm_italic : forall x es, text_node NItalic x es -> bold_means es (BItalic x)
| bm_strike : forall x es, text_node NStrikethrough x es -> bold_means es (BStrike x).

Inductive inline_means : list event -> par_node -> Prop :=
| im_text : forall x, inline_means [(Value, x)] (PText x)
| im_italic : forall x es, text_node NItalic x es -> inline_means es (PItalic x)
| im_strike : forall x es, text_node NStrikethrough x es -> inline_means es (PStrike x)
| im_emphasis : forall x es, text_node NEmphasis x es -> inline_means es (PEmphasis x)
| im_code : forall x es, text_node NCodeSpan x es -> inline_means es (PCodeSpan x)
| im_anchor : forall t u mid es, link_parts t u mid -> node_of NAnchor mid es -> inline_means es (PAnchor t u)
| im_bold : forall l mid es, each bold_means mid l -> node_of NBold mid es -> inline_means es (PBold l).

Inductive head_means : list event -> head_node -> Prop :=
| hm_text : forall x, head_means [(Value, x)] (HText x)
| hm_anchor : forall t u mid es, link_parts t u mid -> node_of NAnchor mid es -> head_means es (HAnchor t u).

Definition paragraph_means (es : list event) (l : list par_node) : Prop :=
  exists mid, each inline_means mid l /\ node_of NParagraph mid es.

(** [y] is [x] without the line feeds at its end; without those at both ends. *)
Definition cut_end (x y : str) : Prop := exists k, x = y ++ repeat c_nl k /\ ~ ends_with_nl y.
Definition cut_both (x y : str) : Prop :=
  exists j z, x = repeat c_nl j ++ z /\ ~ starts_with_nl z /\ cut_end z y.
(** [m] is [l] without the line feeds at the end of a last text; a text of line feeds only goes away. *)
Inductive cut_last : list par_node -> list par_node -> Prop :=
| cl_text : forall l x y, cut_end x y -> y <> [] -> cut_last (l ++ [PText x]) (l ++ [PText y])
| cl_gone : forall l x, cut_end x [] -> cut_last (l ++ [PText x]) l
| cl_node : forall l p, is_ptext p = false -> cut_last (l ++ [p]) (l ++ [p])
| cl_nil : cut_last [] [].
Definition trimmed_means (es : list event) (m : list par_node) : Prop :=
  exists l, paragraph_means es l /\ cut_last l m.

(** ** Blocks *)

Definition image_means (es : list event) (i : image_node) : Prop :=
  exists mid, link_parts (alt i) (src i) mid /\ node_of NImage mid es.

(** An optional node with just text inside. *)
Inductive option_means (n : node) : list event -> option str -> Prop :=
| om_none : option_means n [] None
| om_some : forall x es, text_node n x es -> option_means n es (Some x).
(** A missing language or title is empty. *)
Definition or_empty (o : option str) : str := match o with Some x => x | None => [] end.

(** Paragraphs of a highlight; the blank lines between them stand for nothing. *)
Inductive paragraphs_mean : list event -> list (list par_node) -> Prop :=
| pm_nil : paragraphs_mean [] []
| pm_blank : forall x es ps, paragraphs_mean es ps -> paragraphs_mean ((Value, x) :: es) ps
| pm_cons : forall es p es' ps, trimmed_means es p -> paragraphs_mean es' ps -> paragraphs_mean (es ++ es') (p :: ps).

Definition list_node (ty : list_type) : node := match ty with LUnordered => NUnorderedList | LOrdered => NOrderedList end.

(** A list at nesting depth [lvl], its items, one item. *)
Inductive list_means : nat -> list event -> ylist -> Prop :=
| lm : forall lvl ty mid its es, items_mean lvl mid its -> node_of (list_node ty) mid es -> list_means lvl es (YList ty lvl its)
with items_mean : nat -> list event -> list yitem -> Prop :=
| lm_nil : forall lvl, items_mean lvl [] []
| lm_cons : forall lvl es it es' its, item_means lvl es it -> items_mean lvl es' its -> items_mean lvl (es ++ es') (it :: its)
with item_means : nat -> list event -> yitem -> Prop :=
| lm_item : forall lvl p t es, trimmed_means p t -> node_of NListItem p es -> item_means lvl es (YItem t None)
| lm_nested : forall lvl p t e l es, trimmed_means p t -> list_means (S lvl) e l -> node_of NListItem (p ++ e) es ->
    item_means lvl es (YItem t (Some l)).

(** A block; the blocks of a document, with blank lines that stand for nothing. *)
Inductive block_means : list event -> ynode -> Prop :=
| km_paragraph : forall es l, paragraph_means es l -> block_means es (YParagraph l)
| km_heading : forall level c mid l, 1 <= level <= 6 -> each head_means mid l ->
    block_means ((Start NHeading, repeat c_hash level ++ [c_space]) :: mid ++ [(End NHeading, c)]) (YHeading level l)
| km_image : forall es i, image_means es i -> block_means es (YImage i)
| km_images : forall mid l es, each image_means mid l -> node_of NImages mid es -> block_means es (YImages l)
| km_code : forall m lang xs code es, option_means NModifier m lang -> cut_end (concat xs) code ->
    node_of NCode (m ++ values xs) es -> block_means es (YCode (or_empty lang) code)
| km_list : forall es l, list_means 0 es l -> block_means es (YListNode l)
| km_highlight : forall m title i icon b ps es, option_means NModifier m title -> option_means NIcon i icon ->
    paragraphs_mean b ps -> node_of NHighlight (m ++ i ++ b) es -> block_means es (YHighlight title icon ps)
| km_break : forall x es, text_node NThematicBreak x es -> block_means es YThematicBreak
| km_embed : forall kind bar args es, node_of NEmbed [(Value, kind); (Value, bar); (Value, args)] es ->
    block_means es (YEmbed kind args)
| km_collapsible : forall m title d mid b es, option_means NModifier m title -> blocks_mean mid b -> node_of NDocument mid d ->
    node_of NCollapsible (m ++ d) es -> block_means es (YCollapsible (or_empty title) b)
with blocks_mean : list event -> list ynode -> Prop :=
| km_nil : blocks_mean [] []
| km_blank : forall x es b, blocks_mean es b -> blocks_mean ((Value, x) :: es) b
| km_cons : forall es y es' b, block_means es y -> blocks_mean es' b -> blocks_mean (es ++ es') (y :: b).

(** ** Documents *)

Inductive means : list event -> yamd -> Prop :=
| mean_body : forall mid b es, blocks_mean mid b -> node_of NDocument mid es -> means es (mk_yamd None b)
| mean_metadata : forall x m e mid b d, text_node NMetadata x e -> cut_both x m -> blocks_mean mid b -> node_of NDocument mid d ->
    means (e ++ d) (mk_yamd (Some m) b).
