(** What the documentation of the nodes says (src/nodes/, src/lib.rs; property C59): the sections
    "Round-trip invariant", the sentences about blank lines, and the examples in the tables. *)
From Coq Require Import String.
From Verif Require Import Base Lexer Ops Parser StreamSpec StreamProofs3 Ast ToYamd Api AstSpec Tame PropAst PropRoundTrip.

(** ** Values that are documented not to survive a round trip *)

(** "A body with no effective content (empty children or only empty-string text children)". *)
Definition no_content (l : list bold_node) : Prop := forall p, In p l -> p = BText [].

(** A document with an empty emphasis, strikethrough, code span or bold node anywhere in a paragraph,
    list item or highlight is never read back (src/nodes/emphasis.rs 25-31, strikethrough.rs 25-30,
    code_span.rs 25-31, bold.rs 84-92). *)
Theorem C59_empty_nodes : forall y b, In b (doc_bodies y) ->
  In (PEmphasis []) b \/ In (PStrike []) b \/ In (PCodeSpan []) b \/ (exists l, In (PBold l) b /\ no_content l) ->
  deserialize (display_yamd y) <> Ok y.
Proof.
  intros y b Hb Hi E. destruct (C24_inline _ y b E Hb) as (I1 & I2 & _).
  destruct Hi as [Hi|[Hi|[Hi|(l & Hi & N)]]]; try (apply (I1 []); auto; fail).
  destruct (I2 l Hi) as (NE & _). destruct l as [|p l]; [congruence|].
  destruct (C23_bold_texts _ y b (p :: l) E Hb Hi) as (T & _). apply (T []); [|reflexivity]. rewrite <- (N p); left; reflexivity.
Qed.
Print Assumptions C59_empty_nodes.

(** How they are written: bold nodes and code spans vanish, the others are delimiters only. *)
Theorem C59_empty_display :
  display_par_node (PCodeSpan []) = [] /\ (forall l, no_content l -> display_par_node (PBold l) = [])
  /\ display_par_node (PEmphasis []) = s_ "**" /\ display_par_node (PStrike []) = s_ "~~~~".
Proof.
  repeat split. intros l N. cbn. unfold display_bold. replace (bold_has_content l) with false; [reflexivity|].
  symmetry. unfold bold_has_content. apply not_true_is_false. intros H. apply existsb_exists in H. destruct H as (p & Hp & H).
  rewrite (N p Hp) in H. discriminate.
Qed.
Print Assumptions C59_empty_display.

(** A group of fewer than two images is never read back; one image is written, and read, as an
    [Image] (src/nodes/images.rs 29-36). *)
Theorem C59_short_images : forall y l, In (YImages l) (doc_nodes y) -> List.length l < 2 -> deserialize (display_yamd y) <> Ok y.
Proof. intros y l Hi L E. pose proof (C21_images _ y l E Hi). lia. Qed.
Print Assumptions C59_short_images.
Theorem C59_one_image : forall i, tame_image false i ->
  deserialize (display_yamd (only (YImages [i]))) = Ok (only (YImage i)).
Proof. exact C30_image. Qed.
Print Assumptions C59_one_image.

(** ** List items *)

(** "a [ListItem] whose text begins with whitespace cannot be produced by parsing any source document"
    (src/nodes/list_item.rs 25-28): an escaped space does it. *)
Definition item_text (y : yamd) (b : list par_node) : Prop := exists l, In (YListNode l) (doc_nodes y) /\ In b (item_bodies l).
Theorem C59_list_item_refuted : exists s y x r, deserialize s = Ok y /\ item_text y (PText (c_space :: x) :: r).
Proof.
  exists (s_ "- \ x"), (only (YListNode (YList LUnordered 0 [YItem [PText (s_ " x")] None]))), (s_ "x"), [].
  split; [vm_compute; reflexivity|]. exists (YList LUnordered 0 [YItem [PText (s_ " x")] None]). split; cbn; auto.
Qed.
Print Assumptions C59_list_item_refuted.
(** "serializing and re-parsing it will not yield an equal value": it does when the text starts with a tab. *)
Theorem C59_list_item_tab_refuted : exists y x r, item_text y (PText (9%N :: x) :: r) /\ deserialize (display_yamd y) = Ok y.
Proof.
  exists (only (YListNode (YList LUnordered 0 [YItem [PText (9%N :: s_ "x")] None]))), (s_ "x"), [].
  split; [exists (YList LUnordered 0 [YItem [PText (9%N :: s_ "x")] None]); split; cbn; auto|vm_compute; reflexivity].
Qed.
Print Assumptions C59_list_item_tab_refuted.

(** ** Blank lines *)

(** "[Args] every token except Terminator" (src/nodes/embed.rs 10-14): the text of an embed can contain a
    blank line.  (Without a backslash in the source, two line feeds are a [Terminator]; compare
    [C25_no_blank_line] for the blocks that end at a blank line.) *)
Theorem C59_embed_blank_line_refuted : exists s y kind a b, deserialize s = Ok y /\ ~ In c_bslash s
  /\ In (YEmbed kind (a ++ nlnl ++ b)) (doc_nodes y).
Proof.
  exists (s_ "{{a|b" ++ nlnl ++ s_ "c}}"), (only (YEmbed (s_ "a") (s_ "b" ++ nlnl ++ s_ "c"))), (s_ "a"), (s_ "b"), (s_ "c").
  split; [vm_compute; reflexivity|]. split; [vm_compute; intuition discriminate|left; reflexivity].
Qed.
Print Assumptions C59_embed_blank_line_refuted.

(** ** Examples of the documentation *)

(** src/nodes/image.rs 26 lists this as an image; it is a paragraph, since an image ends with its line. *)
Theorem C59_image_example_refuted : deserialize (s_ "![alt](src(with(unclosed)nested")
  = Ok (only (YParagraph [PText (s_ "!"); PAnchor (s_ "alt") (s_ "src(with(unclosed"); PText (s_ "nested")])).
Proof. vm_compute. reflexivity. Qed.
Print Assumptions C59_image_example_refuted.

(** src/nodes/yamd.rs 183-188 shows a highlight with [>>]; it is two paragraphs. *)
Theorem C59_highlight_example_refuted : deserialize (s_ ">> Highlight title
> warning
There is no 1:1 equivalent to a highlight in HTML.

Highlight body can contain multiple paragraphs.
>>") = Ok (mk_yamd None [YParagraph [PText (s_ ">> Highlight title
> warning
There is no 1:1 equivalent to a highlight in HTML.")]; YParagraph [PText (s_ "Highlight body can contain multiple paragraphs.
>>")]]).
Proof. vm_compute. reflexivity. Qed.
Print Assumptions C59_highlight_example_refuted.

(** The other examples hold. *)
Definition par (l : list par_node) : outcome yamd := Ok (only (YParagraph l)).
Example doc_escape : deserialize (s_ "\**foo**") = par [PText (s_ "**foo**")].
Proof. vm_compute. reflexivity. Qed.
Example doc_two_items : deserialize (s_ "- \`one
- two\`") = Ok (only (YListNode (YList LUnordered 0 [YItem [PText (s_ "`one")] None; YItem [PText (s_ "two`")] None]))).
Proof. vm_compute. reflexivity. Qed.
Example doc_anchor : deserialize (s_ "[link](url)") = par [PAnchor (s_ "link") (s_ "url")].
Proof. vm_compute. reflexivity. Qed.
Example doc_anchor_squares : deserialize (s_ "[link [nested squares\]](url)") = par [PAnchor (s_ "link [nested squares]") (s_ "url")].
Proof. vm_compute. reflexivity. Qed.
Example doc_anchor_nested : deserialize (s_ "[link](url(with nested)paren)") = par [PAnchor (s_ "link") (s_ "url(with nested)paren")].
Proof. vm_compute. reflexivity. Qed.
Example doc_anchor_unclosed : deserialize (s_ "[link](url(with(unclosed)nested") = par [PAnchor (s_ "link") (s_ "url(with(unclosed"); PText (s_ "nested")].
Proof. vm_compute. reflexivity. Qed.
Example doc_no_anchor : deserialize (s_ "[link]") = par [PText (s_ "[link]")].
Proof. vm_compute. reflexivity. Qed.
Example doc_no_anchor_paren : deserialize (s_ "[link](url with unclosed paren") = par [PText (s_ "[link](url with unclosed paren")].
Proof. vm_compute. reflexivity. Qed.
Example doc_bold : deserialize (s_ "**Bold can contain  _italic_, or ~~strikethrough~~, or regular text**")
  = par [PBold [BText (s_ "Bold can contain  "); BItalic (s_ "italic"); BText (s_ ", or "); BStrike (s_ "strikethrough"); BText (s_ ", or regular text")]].
Proof. vm_compute. reflexivity. Qed.
Example doc_code : deserialize (s_ "```rust
let a = 42;
```") = Ok (only (YCode (s_ "rust") (s_ "let a = 42;"))).
Proof. vm_compute. reflexivity. Qed.
Example doc_code_span : deserialize (s_ "`anything even EOL
can be it`") = par [PCodeSpan (s_ "anything even EOL
can be it")].
Proof. vm_compute. reflexivity. Qed.
Example doc_collapsible : deserialize (s_ "{% collapsible
![alt](src)
%}") = Ok (only (YCollapsible (s_ "collapsible") [YImage (mk_image (s_ "alt") (s_ "src"))])).
Proof. vm_compute. reflexivity. Qed.
Example doc_embed : deserialize (s_ "{{youtube|dQw4w9WgXcQ}}") = Ok (only (YEmbed (s_ "youtube") (s_ "dQw4w9WgXcQ"))).
Proof. vm_compute. reflexivity. Qed.
Example doc_emphasis : deserialize (s_ "*Emphasis can contain any token
even EOL*") = par [PEmphasis (s_ "Emphasis can contain any token
even EOL")].
Proof. vm_compute. reflexivity. Qed.
Example doc_italic : deserialize (s_ "_Italic can contain any token
even EOL_") = par [PItalic (s_ "Italic can contain any token
even EOL")].
Proof. vm_compute. reflexivity. Qed.
Example doc_strike : deserialize (s_ "~~Strikethrough can contain any token
even EOL~~") = par [PStrike (s_ "Strikethrough can contain any token
even EOL")].
Proof. vm_compute. reflexivity. Qed.
Example doc_heading : deserialize (s_ "### Header can contain an [anchor](#) or regular text.")
  = Ok (only (YHeading 3 [HText (s_ "Header can contain an "); HAnchor (s_ "anchor") (s_ "#"); HText (s_ " or regular text.")])).
Proof. vm_compute. reflexivity. Qed.
Example doc_highlight : deserialize (s_ "!! Tile
! Icon
body
!!") = Ok (only (YHighlight (Some (s_ "Tile")) (Some (s_ "Icon")) [[PText (s_ "body")]])).
Proof. vm_compute. reflexivity. Qed.
Example doc_highlight_no_title : deserialize (s_ "!!
! Icon
body
!!") = Ok (only (YHighlight None (Some (s_ "Icon")) [[PText (s_ "body")]])).
Proof. vm_compute. reflexivity. Qed.
Example doc_highlight_no_icon : deserialize (s_ "!! Tile
body
!!") = Ok (only (YHighlight (Some (s_ "Tile")) None [[PText (s_ "body")]])).
Proof. vm_compute. reflexivity. Qed.
Example doc_images : deserialize (s_ "![alt](src)
![alt](src)") = Ok (only (YImages [mk_image (s_ "alt") (s_ "src"); mk_image (s_ "alt") (s_ "src")])).
Proof. vm_compute. reflexivity. Qed.
Example doc_image_squares : deserialize (s_ "![alt [nested squares\]](src)") = Ok (only (YImage (mk_image (s_ "alt [nested squares]") (s_ "src")))).
Proof. vm_compute. reflexivity. Qed.
Example doc_image_nested : deserialize (s_ "![alt](src(with nested)paren)") = Ok (only (YImage (mk_image (s_ "alt") (s_ "src(with nested)paren")))).
Proof. vm_compute. reflexivity. Qed.
Example doc_no_image : deserialize (s_ "![alt]") = par [PText (s_ "![alt]")].
Proof. vm_compute. reflexivity. Qed.
Example doc_no_image_paren : deserialize (s_ "![alt](src with unclosed paren") = par [PText (s_ "![alt](src with unclosed paren")].
Proof. vm_compute. reflexivity. Qed.

Definition it (x : string) (l : option ylist) : yitem := YItem [PText (s_ x)] l.
Example doc_list_types : deserialize (s_ "- Unordered list item
 + Ordered list item") = Ok (only (YListNode (YList LUnordered 0 [it "Unordered list item" (Some (YList LOrdered 1 [it "Ordered list item" None]))]))).
Proof. vm_compute. reflexivity. Qed.
Example doc_list_mixed : deserialize (s_ "- Unordered list item
+ Even though this looks like ordered list item, it will be part of Unordered list item")
  = Ok (only (YListNode (YList LUnordered 0 [it "Unordered list item
+ Even though this looks like ordered list item, it will be part of Unordered list item" None]))).
Proof. vm_compute. reflexivity. Qed.
Example doc_list_levels : deserialize (s_ "- Level 0
 - Level 1
  - Level 2
 - Level 1
- Level 0
 - Level 1
  - Level 2
- Level 0") = Ok (only (YListNode (YList LUnordered 0
    [it "Level 0" (Some (YList LUnordered 1 [it "Level 1" (Some (YList LUnordered 2 [it "Level 2" None])); it "Level 1" None]));
     it "Level 0" (Some (YList LUnordered 1 [it "Level 1" (Some (YList LUnordered 2 [it "Level 2" None]))]));
     it "Level 0" None]))).
Proof. vm_compute. reflexivity. Qed.
Example doc_list_two_spaces : deserialize (s_ "+ level 0
  + this will be part of level 0 (notice two spaces before `+`)")
  = Ok (only (YListNode (YList LOrdered 0 [YItem [PText (s_ "level 0
  + this will be part of level 0 (notice two spaces before "); PCodeSpan (s_ "+"); PText (s_ ")")] None]))).
Proof. vm_compute. reflexivity. Qed.
Example doc_break : deserialize (s_ "-----") = Ok (only YThematicBreak).
Proof. vm_compute. reflexivity. Qed.
Example doc_metadata : deserialize (s_ "---
title: ""Yamd""
tags:
- software
- rust
---") = Ok (mk_yamd (Some (s_ "title: ""Yamd""
tags:
- software
- rust")) []).
Proof. vm_compute. reflexivity. Qed.
Definition pt (x : string) : ynode := YParagraph [PText (s_ x)].
Example doc_blocks : match deserialize (s_ "Yamd can contain a Paragraph. Or a

# Heading

Or one image:

![alt](src)

Or code:

```rust
let a=""or a code block"";
```

Or unordered list:

- Level 0
 - Level 1

Or ordered list:

+ Level 0
+ Level 0
 + Level 1

It also can have a thematic break:

-----

Or embed:

{{youtube|url}}

Or multiple images combined into gallery. There is no 1:1 match for that in HTML, and multiple
ways to do it depending on how it will be rendered:

![alt](src)
![alt](src)") with Ok y => body y | _ => [] end =
  [pt "Yamd can contain a Paragraph. Or a"; YHeading 1 [HText (s_ "Heading")]; pt "Or one image:"; YImage (mk_image (s_ "alt") (s_ "src"));
   pt "Or code:"; YCode (s_ "rust") (s_ "let a=""or a code block"";"); pt "Or unordered list:";
   YListNode (YList LUnordered 0 [it "Level 0" (Some (YList LUnordered 1 [it "Level 1" None]))]); pt "Or ordered list:";
   YListNode (YList LOrdered 0 [it "Level 0" None; it "Level 0" (Some (YList LOrdered 1 [it "Level 1" None]))]);
   pt "It also can have a thematic break:"; YThematicBreak; pt "Or embed:"; YEmbed (s_ "youtube") (s_ "url");
   pt "Or multiple images combined into gallery. There is no 1:1 match for that in HTML, and multiple
ways to do it depending on how it will be rendered:"; YImages [mk_image (s_ "alt") (s_ "src"); mk_image (s_ "alt") (s_ "src")]].
Proof. vm_compute. reflexivity. Qed.

(** Documents to which the theorems about empty nodes apply. *)
Example empty_bold : In [PText (s_ "a"); PBold [BText []; BText []]] (doc_bodies (only (YParagraph [PText (s_ "a"); PBold [BText []; BText []]])))
  /\ no_content [BText []; BText []].
Proof. split; [left; reflexivity|]. intros p [<-|[<-|[]]]; reflexivity. Qed.
Example empty_emphasis : deserialize (display_yamd (only (YCollapsible (s_ "t") [YParagraph [PText (s_ "a"); PEmphasis []]])))
  = Ok (only (YCollapsible (s_ "t") [YParagraph [PText (s_ "a**")]])).
Proof. vm_compute. reflexivity. Qed.
Example nested_image : List.length [mk_image (s_ "a") (s_ "b")] < 2 /\ In (YImages [mk_image (s_ "a") (s_ "b")])
  (doc_nodes (only (YCollapsible (s_ "t") [YImages [mk_image (s_ "a") (s_ "b")]]))).
Proof. split; [cbn; lia|]. right. left. reflexivity. Qed.
