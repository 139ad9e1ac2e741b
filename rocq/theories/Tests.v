(** The repository's own unit tests, ported to the model as computations (tests, not proofs).
    They check that the model and the code agree; each example names the Rust test it ports. *)
From Verif Require Import Base Lexer Ops Parser Ast ToYamd Api.
From Coq Require Import String.
Open Scope list_scope.
Notation nl := [10%N].

(** [p.span(a..b)] in the expected values of the Rust tests. *)
Definition span_ (a b : nat) (p : parser) : content :=
  match span (a, b) p with Ok c => c | _ => Span 1 0 end.
(** [let mut p = input.into();] then [f] under the stop conditions [st] ([p.with_eof]). *)
Definition run_p (st : list stop_condition) (f : parser -> outcome (bool * parser)) (input : str) :=
  let! p := parser_from input in f (set_stack st p).
Definition unit_fn (f : parser -> outcome (unit * parser)) (p : parser) : outcome (bool * parser) :=
  let! (_, q) := f p in Ok (true, q).
Definition document_fn (p : parser) : outcome (bool * parser) :=
  let! q := document (3 * List.length (tokens p) + 5) p in Ok (true, q).
Definition collapsible_fn (p : parser) : outcome (bool * parser) :=
  collapsible (3 * List.length (tokens p) + 5) p.

(** src/lexer/mod.rs line 200 *)
Example t_lexer_mod_left_square_bracket :
  lex (s_ "[") = Ok [token_new LeftSquareBracket 0 1 (mk_pos 0 0 0)].
Proof. vm_compute. repeat split. Qed.

(** src/lexer/mod.rs line 212 *)
Example t_lexer_mod_double_bang_with_left_square_bracket_afterwards :
  lex (s_ "!![") = Ok [token_new Bang 0 2 (mk_pos 0 0 0); token_new LeftSquareBracket 2 3 (mk_pos 2 2 0)].
Proof. vm_compute. repeat split. Qed.

(** src/lexer/mod.rs line 231 *)
Example t_lexer_mod_double_bang_with_blob_afterwards :
  lex (s_ "!!g") = Ok [token_new Bang 0 2 (mk_pos 0 0 0); token_new Literal 2 3 (mk_pos 2 2 0)].
Proof. vm_compute. repeat split. Qed.

(** src/lexer/mod.rs line 250 *)
Example t_lexer_mod_escaped_bang :
  lex (s_ "\![") = Ok [mk_token Literal 1 2 (mk_pos 1 0 0) true; token_new LeftSquareBracket 2 3 (mk_pos 2 1 0)].
Proof. vm_compute. repeat split. Qed.

(** src/lexer/mod.rs line 278 *)
Example t_lexer_mod_bang_open_brace :
  lex (s_ "![") = Ok [token_new Bang 0 1 (mk_pos 0 0 0); token_new LeftSquareBracket 1 2 (mk_pos 1 1 0)].
Proof. vm_compute. repeat split. Qed.

(** src/lexer/mod.rs line 297 *)
Example t_lexer_mod_triple_bang :
  lex (s_ "!!!") = Ok [token_new Bang 0 3 (mk_pos 0 0 0)].
Proof. vm_compute. repeat split. Qed.

(** src/lexer/mod.rs line 305 *)
Example t_lexer_mod_hastag :
  lex (s_ "[#####") = Ok [token_new LeftSquareBracket 0 1 (mk_pos 0 0 0); token_new Hash 1 6 (mk_pos 1 1 0)].
Proof. vm_compute. repeat split. Qed.

(** src/lexer/mod.rs line 324 *)
Example t_lexer_mod_space :
  lex (s_ "###\   ") = Ok [token_new Hash 0 3 (mk_pos 0 0 0); mk_token Literal 4 7 (mk_pos 4 3 0) true].
Proof. vm_compute. repeat split. Qed.

(** src/lexer/mod.rs line 344 *)
Example t_lexer_mod_escaped_space_compression :
  lex (s_ "\ \  ") = Ok [mk_token Literal 1 2 (mk_pos 1 0 0) true; mk_token Literal 3 5 (mk_pos 3 1 0) true].
Proof. vm_compute. repeat split. Qed.

(** src/lexer/mod.rs line 373 *)
Example t_lexer_mod_eol :
  lex (nl) = Ok [token_new Eol 0 1 (mk_pos 0 0 0)].
Proof. vm_compute. repeat split. Qed.

(** src/lexer/mod.rs line 381 *)
Example t_lexer_mod_double_eol :
  lex (nl ++ nl) = Ok [token_new Terminator 0 2 (mk_pos 0 0 0)].
Proof. vm_compute. repeat split. Qed.

(** src/lexer/mod.rs line 389 *)
Example t_lexer_mod_triple_eol :
  lex (nl ++ nl ++ nl) = Ok [token_new Terminator 0 2 (mk_pos 0 0 0); token_new Eol 2 3 (mk_pos 2 0 2)].
Proof. vm_compute. repeat split. Qed.

(** src/lexer/mod.rs line 408 *)
Example t_lexer_mod_windows_eol :
  lex ([13%N] ++ nl) = Ok [token_new Eol 0 2 (mk_pos 0 0 0)].
Proof. vm_compute. repeat split. Qed.

(** src/lexer/mod.rs line 416 *)
Example t_lexer_mod_windows_double_eol :
  lex ([13%N] ++ nl ++ [13%N] ++ nl) = Ok [token_new Terminator 0 4 (mk_pos 0 0 0)].
Proof. vm_compute. repeat split. Qed.

(** src/lexer/mod.rs line 424 *)
Example t_lexer_mod_blob_that_ends_with_emoji :
  lex (s_ "hello blob" ++ [128521%N]) = Ok [token_new Literal 0 14 (mk_pos 0 0 0)].
Proof. vm_compute. repeat split. Qed.

(** src/lexer/mod.rs line 432 *)
Example t_lexer_mod_correct_position_utf8 :
  lex (s_ "blob" ++ [128521%N] ++ s_ "-") = Ok [token_new Literal 0 8 (mk_pos 0 0 0); token_new Minus 8 9 (mk_pos 8 5 0)].
Proof. vm_compute. repeat split. Qed.

(** src/lexer/mod.rs line 451 *)
Example t_lexer_mod_double_open_brace :
  lex (s_ "{{") = Ok [token_new LeftCurlyBrace 0 2 (mk_pos 0 0 0)].
Proof. vm_compute. repeat split. Qed.

(** src/lexer/mod.rs line 463 *)
Example t_lexer_mod_collapsible_start :
  lex (s_ "{%") = Ok [token_new CollapsibleStart 0 2 (mk_pos 0 0 0)].
Proof. vm_compute. repeat split. Qed.

(** src/lexer/mod.rs line 475 *)
Example t_lexer_mod_collapsible_end :
  lex (s_ "{%") = Ok [token_new CollapsibleStart 0 2 (mk_pos 0 0 0)].
Proof. vm_compute. repeat split. Qed.

(** src/lexer/mod.rs line 487 *)
Example t_lexer_mod_right_square_bracket :
  lex (s_ "]") = Ok [token_new RightSquareBracket 0 1 (mk_pos 0 0 0)].
Proof. vm_compute. repeat split. Qed.

(** src/lexer/mod.rs line 499 *)
Example t_lexer_mod_open_parenthesis :
  lex (s_ "(") = Ok [token_new LeftParenthesis 0 1 (mk_pos 0 0 0)].
Proof. vm_compute. repeat split. Qed.

(** src/lexer/mod.rs line 511 *)
Example t_lexer_mod_closing_parenthesis :
  lex (s_ ")") = Ok [token_new RightParenthesis 0 1 (mk_pos 0 0 0)].
Proof. vm_compute. repeat split. Qed.

(** src/lexer/mod.rs line 523 *)
Example t_lexer_mod_empty_input :
  lex [] = Ok [].
Proof. vm_compute. repeat split. Qed.

(** src/lexer/mod.rs line 528 *)
Example t_lexer_mod_double_escape :
  lex (s_ "\\") = Ok [mk_token Literal 1 2 (mk_pos 1 0 0) true].
Proof. vm_compute. repeat split. Qed.

(** src/lexer/mod.rs line 545 *)
Example t_lexer_mod_escape_after_literal :
  lex (s_ "literal\[[") = Ok [token_new Literal 0 7 (mk_pos 0 0 0); mk_token Literal 8 9 (mk_pos 8 7 0) true; token_new LeftSquareBracket 9 10 (mk_pos 9 8 0)].
Proof. vm_compute. repeat split. Qed.

(** src/lexer/mod.rs line 574 *)
Example t_lexer_mod_double_star :
  lex (s_ "**") = Ok [token_new Star 0 2 (mk_pos 0 0 0)].
Proof. vm_compute. repeat split. Qed.

(** src/lexer/mod.rs line 582 *)
Example t_lexer_mod_quadruple_backtick :
  lex (s_ "````") = Ok [token_new Backtick 0 4 (mk_pos 0 0 0)].
Proof. vm_compute. repeat split. Qed.

(** src/lexer/mod.rs line 590 *)
Example t_lexer_mod_underscore :
  lex (s_ "_") = Ok [token_new Underscore 0 1 (mk_pos 0 0 0)].
Proof. vm_compute. repeat split. Qed.

(** src/lexer/mod.rs line 598 *)
Example t_lexer_mod_plus :
  lex (s_ "+") = Ok [token_new Plus 0 1 (mk_pos 0 0 0)].
Proof. vm_compute. repeat split. Qed.

(** src/lexer/mod.rs line 606 *)
Example t_lexer_mod_minus :
  lex (s_ "-") = Ok [token_new Minus 0 1 (mk_pos 0 0 0)].
Proof. vm_compute. repeat split. Qed.

(** src/lexer/mod.rs line 614 *)
Example t_lexer_mod_multiple_minus :
  lex (s_ "----") = Ok [token_new Minus 0 4 (mk_pos 0 0 0)].
Proof. vm_compute. repeat split. Qed.

(** src/lexer/mod.rs line 622 *)
Example t_lexer_mod_greater_than :
  lex (s_ ">>> >>" ++ nl ++ s_ ">") = Ok [token_new GreaterThan 0 3 (mk_pos 0 0 0); token_new Space 3 4 (mk_pos 3 3 0); token_new GreaterThan 4 6 (mk_pos 4 4 0); token_new Eol 6 7 (mk_pos 6 6 0); token_new GreaterThan 7 8 (mk_pos 7 0 1)].
Proof. vm_compute. repeat split. Qed.

(** src/lexer/mod.rs line 668 *)
Example t_lexer_mod_backtick :
  lex (s_ "``") = Ok [token_new Backtick 0 2 (mk_pos 0 0 0)].
Proof. vm_compute. repeat split. Qed.

(** src/lexer/mod.rs line 676 *)
Example t_lexer_mod_strikethrough :
  lex (s_ "~~") = Ok [token_new Tilde 0 2 (mk_pos 0 0 0)].
Proof. vm_compute. repeat split. Qed.

(** src/lexer/mod.rs line 684 *)
Example t_lexer_mod_strikethrough_after_blob :
  lex (s_ "abc~~") = Ok [token_new Literal 0 3 (mk_pos 0 0 0); token_new Tilde 3 5 (mk_pos 3 3 0)].
Proof. vm_compute. repeat split. Qed.

(** src/lexer/mod.rs line 703 *)
Example t_lexer_mod_embed_end :
  lex (s_ "}}") = Ok [token_new RightCurlyBrace 0 2 (mk_pos 0 0 0)].
Proof. vm_compute. repeat split. Qed.

(** src/lexer/mod.rs line 715 *)
Example t_lexer_mod_eol_after_literal :
  lex (s_ "r" ++ nl) = Ok [token_new Literal 0 1 (mk_pos 0 0 0); token_new Eol 1 2 (mk_pos 1 1 0)].
Proof. vm_compute. repeat split. Qed.

(** src/lexer/mod.rs line 734 *)
Example t_lexer_mod_dangling_backslash_at_eof :
  lex (s_ "\") = Ok [].
Proof. vm_compute. repeat split. Qed.

(** src/lib.rs line 115 *)
Example t_lib_test_deserialize :
  deserialize (s_ "# header") = Ok (yamd_new None [YHeading 1 [HText (s_ "header")]]).
Proof. vm_compute. repeat split. Qed.

(** src/lib.rs line 126 *)
Example t_lib_deserialize_text_containing_utf8 :
  deserialize (s_ "## " ++ [129300%N] ++ nl ++ nl ++ s_ "[link " ++ [128521%N] ++ s_ "](url)") = Ok (yamd_new None [YHeading 2 [HText ([129300%N])]; YParagraph [PAnchor (s_ "link " ++ [128521%N]) (s_ "url")]]).
Proof. vm_compute. repeat split. Qed.

(** src/nodes/anchor.rs line 74 *)
Example t_nodes_anchor_anchor :
  display_par_node (PAnchor (s_ "link") (s_ "url")) = (s_ "[link](url)").
Proof. vm_compute. repeat split. Qed.

(** src/nodes/anchor.rs line 80 *)
Example t_nodes_anchor_anchor_with_nested_squares :
  display_par_node (PAnchor (s_ "link [nested squares]") (s_ "url")) = (s_ "[link \[nested squares\]](url)").
Proof. vm_compute. repeat split. Qed.

(** src/nodes/anchor.rs line 86 *)
Example t_nodes_anchor_anchor_with_nested_parentheses :
  display_par_node (PAnchor (s_ "link") (s_ "url(with nested)parentheses")) = (s_ "[link](url\(with nested\)parentheses)").
Proof. vm_compute. repeat split. Qed.

(** src/nodes/anchor.rs line 95 *)
Example t_nodes_anchor_anchor_with_terminator :
  display_par_node (PAnchor (s_ "link" ++ nl ++ nl) (s_ "url" ++ nl ++ nl)) = (s_ "[link\" ++ nl ++ nl ++ s_ "](url\" ++ nl ++ nl ++ s_ ")").
Proof. vm_compute. repeat split. Qed.

(** src/nodes/bold.rs line 134 *)
Example t_nodes_bold_bold :
  display_par_node (PBold [BText (s_ "Bold can contain "); BItalic (s_ "italic"); BText (s_ ", or "); BStrike (s_ "strikethrough"); BText (s_ ", or regular text")]) = (s_ "**Bold can contain _italic_, or ~~strikethrough~~, or regular text**").
Proof. vm_compute. repeat split. Qed.

(** src/nodes/bold.rs line 149 *)
Example t_nodes_bold_bold_with_terminator :
  display_par_node (PBold [BText (nl ++ nl)]) = (s_ "**\" ++ nl ++ nl ++ s_ "**").
Proof. vm_compute. repeat split. Qed.

(** src/nodes/bold.rs line 155 *)
Example t_nodes_bold_bold_with_only_non_text_nodes :
  display_par_node (PBold [BItalic (s_ "x")]) = (s_ "**_x_**").
Proof. vm_compute. repeat split. Qed.

(** src/nodes/code.rs line 67 *)
Example t_nodes_code_code :
  display_node (code_new (s_ "rust") (s_ "let a = 42;")) = (s_ "```rust" ++ nl ++ s_ "let a = 42;" ++ nl ++ s_ "```").
Proof. vm_compute. repeat split. Qed.

(** src/nodes/code.rs line 73 *)
Example t_nodes_code_code_with_backtick :
  display_node (code_new (s_ "rust") (s_ "let a = 42;" ++ nl ++ s_ "let ```b` = 43;")) = (s_ "```rust" ++ nl ++ s_ "let a = 42;" ++ nl ++ s_ "let \```b` = 43;" ++ nl ++ s_ "```").
Proof. vm_compute. repeat split. Qed.

(** src/nodes/code.rs line 82 *)
Example t_nodes_code_language_with_eol :
  display_node (code_new (s_ "rust" ++ nl ++ nl) (s_ "let a = 42;")) = (s_ "```rust\" ++ nl ++ s_ "\" ++ nl ++ nl ++ s_ "let a = 42;" ++ nl ++ s_ "```").
Proof. vm_compute. repeat split. Qed.

(** src/nodes/code_span.rs line 74 *)
Example t_nodes_code_span_code_span_with_backtick :
  display_par_node (PCodeSpan (s_ "anything even EOL" ++ nl ++ s_ "can `be` it")) = (s_ "`anything even EOL" ++ nl ++ s_ "can \`be\` it`").
Proof. vm_compute. repeat split. Qed.

(** src/nodes/code_span.rs line 83 *)
Example t_nodes_code_span_code_span_with_terminator :
  display_par_node (PCodeSpan (s_ "anything even EOL" ++ nl ++ nl ++ s_ "can be it" ++ nl)) = (s_ "`anything even EOL\" ++ nl ++ nl ++ s_ "can be it" ++ nl ++ s_ "`").
Proof. vm_compute. repeat split. Qed.

(** src/nodes/collapsible.rs line 78 *)
Example t_nodes_collapsible_test_collapsible :
  display_node (YCollapsible (s_ "Collapsible title") [YParagraph [PText (s_ "Collapsible body")]]) = (s_ "{% Collapsible title" ++ nl ++ s_ "Collapsible body" ++ nl ++ s_ "%}").
Proof. vm_compute. repeat split. Qed.

(** src/nodes/embed.rs line 65 *)
Example t_nodes_embed_embed :
  display_node (YEmbed (s_ "youtube") (s_ "dQw4w9WgXcQ")) = (s_ "{{youtube|dQw4w9WgXcQ}}").
Proof. vm_compute. repeat split. Qed.

(** src/nodes/embed.rs line 71 *)
Example t_nodes_embed_embed_with_escaped_parts :
  display_node (YEmbed (s_ "youtube|as") (s_ "dQw4w9WgXcQ}}")) = (s_ "{{youtube\|as|dQw4w9WgXcQ\}\}}}").
Proof. vm_compute. repeat split. Qed.

(** src/nodes/emphasis.rs line 74 *)
Example t_nodes_emphasis_emphasis_with_asterisk :
  display_par_node (PEmphasis (s_ "Emphasis with *asterisk*")) = (s_ "*Emphasis with \*asterisk\**").
Proof. vm_compute. repeat split. Qed.

(** src/nodes/emphasis.rs line 80 *)
Example t_nodes_emphasis_emphasis_with_terminator :
  display_par_node (PEmphasis (s_ "Emphasis with newline" ++ nl ++ nl)) = (s_ "*Emphasis with newline\" ++ nl ++ nl ++ s_ "*").
Proof. vm_compute. repeat split. Qed.

(** src/nodes/heading.rs line 93 *)
Example t_nodes_heading_heading :
  display_node (YHeading 3 [HText (s_ "Header can contain an "); HAnchor (s_ "anchor") (s_ "#"); HText (s_ " or regular text.")]) = (s_ "### Header can contain an [anchor](#) or regular text.").
Proof. vm_compute. repeat split. Qed.

(** src/nodes/heading.rs line 109 *)
Example t_nodes_heading_heading_with_hash :
  display_node (YHeading 3 [HText (s_ "# ##")]) = (s_ "### \# \#\#").
Proof. vm_compute. repeat split. Qed.

(** src/nodes/highlight.rs line 103 *)
Example t_nodes_highlight_highlight :
  display_node (YHighlight (Some ((s_ "title"))) (Some ((s_ "icon"))) [[PText (s_ "body")]]) = (s_ "!! title" ++ nl ++ s_ "! icon" ++ nl ++ s_ "body" ++ nl ++ s_ "!!").
Proof. vm_compute. repeat split. Qed.

(** src/nodes/highlight.rs line 113 *)
Example t_nodes_highlight_highlight_without_title :
  display_node (YHighlight None (Some ((s_ "icon"))) [[PText (s_ "body")]]) = (s_ "!!" ++ nl ++ s_ "! icon" ++ nl ++ s_ "body" ++ nl ++ s_ "!!").
Proof. vm_compute. repeat split. Qed.

(** src/nodes/highlight.rs line 123 *)
Example t_nodes_highlight_highlight_without_icon :
  display_node (YHighlight (Some ((s_ "title"))) None [[PText (s_ "body")]]) = (s_ "!! title" ++ nl ++ s_ "body" ++ nl ++ s_ "!!").
Proof. vm_compute. repeat split. Qed.

(** src/nodes/highlight.rs line 133 *)
Example t_nodes_highlight_highlight_with_double_bang_in_the_middle :
  display_node (YHighlight (Some ((s_ "title"))) (Some ((s_ "icon"))) [[PText (s_ "body")]; [PText (s_ "a" ++ nl ++ s_ "!!")]]) = (s_ "!! title" ++ nl ++ s_ "! icon" ++ nl ++ s_ "body" ++ nl ++ nl ++ s_ "a" ++ nl ++ s_ "\!!" ++ nl ++ s_ "!!").
Proof. vm_compute. repeat split. Qed.

(** src/nodes/image.rs line 74 *)
Example t_nodes_image_image :
  display_node (YImage (mk_image (s_ "alt") (s_ "src"))) = (s_ "![alt](src)").
Proof. vm_compute. repeat split. Qed.

(** src/nodes/image.rs line 80 *)
Example t_nodes_image_image_with_nested_squares :
  display_node (YImage (mk_image (s_ "alt [nested squares]") (s_ "src"))) = (s_ "![alt [nested squares\]](src)").
Proof. vm_compute. repeat split. Qed.

(** src/nodes/image.rs line 86 *)
Example t_nodes_image_image_with_nested_parentheses :
  display_node (YImage (mk_image (s_ "alt") (s_ "src(with nested)parentheses"))) = (s_ "![alt](src\(with nested\)parentheses)").
Proof. vm_compute. repeat split. Qed.

(** src/nodes/image.rs line 92 *)
Example t_nodes_image_image_with_terminator :
  display_node (YImage (mk_image (s_ "alt" ++ nl ++ nl) (s_ "src" ++ nl ++ nl))) = (s_ "![alt\" ++ nl ++ nl ++ s_ "](src\" ++ nl ++ nl ++ s_ ")").
Proof. vm_compute. repeat split. Qed.

(** src/nodes/images.rs line 69 *)
Example t_nodes_images_images :
  display_node (YImages [mk_image (s_ "alt") (s_ "src"); mk_image (s_ "alt") (s_ "src")]) = (s_ "![alt](src)" ++ nl ++ s_ "![alt](src)").
Proof. vm_compute. repeat split. Qed.

(** src/nodes/italic.rs line 70 *)
Example t_nodes_italic_italic_with_underscore :
  display_par_node (PItalic (s_ "Italic can contain any token even " ++ nl ++ s_ "can _be_ it")) = (s_ "_Italic can contain any token even " ++ nl ++ s_ "can \_be\_ it_").
Proof. vm_compute. repeat split. Qed.

(** src/nodes/italic.rs line 79 *)
Example t_nodes_italic_italic_with_terminator :
  display_par_node (PItalic (s_ "Italic can contain any token even " ++ nl ++ nl ++ s_ " can be it")) = (s_ "_Italic can contain any token even \" ++ nl ++ nl ++ s_ " can be it_").
Proof. vm_compute. repeat split. Qed.

(** src/nodes/list.rs line 180 *)
Example t_nodes_list_list :
  display_node (YListNode (YList LUnordered 0 [YItem [PText (s_ "test")] None; YItem [PText (s_ "test")] None])) = (s_ "- test" ++ nl ++ s_ "- test").
Proof. vm_compute. repeat split. Qed.

(** src/nodes/list.rs line 203 *)
Example t_nodes_list_nested_list :
  display_node (YListNode (YList LUnordered 0 [YItem [PText (s_ "test")] (Some ((YList LOrdered 1 [YItem [PText (s_ "test")] None])))])) = (s_ "- test" ++ nl ++ s_ " + test").
Proof. vm_compute. repeat split. Qed.

(** src/nodes/paragraph.rs line 191 *)
Example t_nodes_paragraph_paragraph :
  display_node (YParagraph [PText (s_ "Paragraph can contain an "); PAnchor (s_ "anchor") (s_ "https://example.com"); PText (s_ ", a "); PCodeSpan (s_ "code span"); PText (s_ ", or "); PBold [BText (s_ "bold")]; PText (s_ ", or "); PItalic (s_ "italic"); PText (s_ ", or "); PStrike (s_ "strikethrough"); PText (s_ ", or "); PEmphasis (s_ "emphasis"); PText (s_ ", or regular text.")]) = (s_ "Paragraph can contain an [anchor](https://example.com), a `code span`, or **bold**, or _italic_, or ~~strikethrough~~, or *emphasis*, or regular text.").
Proof. vm_compute. repeat split. Qed.

(** src/nodes/paragraph.rs line 214 *)
Example t_nodes_paragraph_paragraph_with_terminator :
  display_node (YParagraph [PText (nl ++ nl)]) = (s_ "\" ++ nl ++ s_ "\" ++ nl).
Proof. vm_compute. repeat split. Qed.

(** src/nodes/paragraph.rs line 220 *)
Example t_nodes_paragraph_paragraph_text_with_curly_close :
  display_node (YParagraph [PText (s_ "%}")]) = (s_ "\%}").
Proof. vm_compute. repeat split. Qed.

(** src/nodes/strikethrough.rs line 76 *)
Example t_nodes_strikethrough_strikethrough_with_tilde :
  display_par_node (PStrike (s_ "Strikethrough can contain any token even ~~")) = (s_ "~~Strikethrough can contain any token even \~\~~~").
Proof. vm_compute. repeat split. Qed.

(** src/nodes/strikethrough.rs line 85 *)
Example t_nodes_strikethrough_strikethrough_with_terminator :
  display_par_node (PStrike (s_ "Strikethrough with terminator" ++ nl ++ nl)) = (s_ "~~Strikethrough with terminator\" ++ nl ++ nl ++ s_ "~~").
Proof. vm_compute. repeat split. Qed.

(** src/nodes/thematic_break.rs line 40 *)
Example t_nodes_thematic_break_thematic_break :
  display_node (YThematicBreak) = (s_ "-----").
Proof. vm_compute. repeat split. Qed.

(** src/nodes/yamd.rs line 294 *)
Example t_nodes_yamd_test_yamd :
  display_yamd (yamd_new (Some ((s_ "title: ""Yamd""" ++ nl))) [YParagraph [PText (s_ "paragraph")]; YHighlight (Some ((s_ "Highlight"))) (Some ((s_ "warning"))) [[PText (s_ "body")]]; YCollapsible (s_ "Or collapsible") [YParagraph [PText (s_ "body")]]]) = (s_ "---" ++ nl ++ s_ "title: ""Yamd""" ++ nl ++ s_ "---" ++ nl ++ nl ++ s_ "paragraph" ++ nl ++ nl ++ s_ "!! Highlight" ++ nl ++ s_ "! warning" ++ nl ++ s_ "body" ++ nl ++ s_ "!!" ++ nl ++ nl ++ s_ "{% Or collapsible" ++ nl ++ s_ "body" ++ nl ++ s_ "%}").
Proof. vm_compute. repeat split. Qed.

(** src/nodes/yamd.rs line 320 *)
Example t_nodes_yamd_test_yamd_without_metadata :
  display_yamd (yamd_new None [YParagraph [PText (s_ "paragraph")]; YHighlight (Some ((s_ "Highlight"))) (Some ((s_ "warning"))) [[PText (s_ "body")]]; YCollapsible (s_ "Or collapsible") [YParagraph [PText (s_ "body")]]]) = (s_ "paragraph" ++ nl ++ nl ++ s_ "!! Highlight" ++ nl ++ s_ "! warning" ++ nl ++ s_ "body" ++ nl ++ s_ "!!" ++ nl ++ nl ++ s_ "{% Or collapsible" ++ nl ++ s_ "body" ++ nl ++ s_ "%}").
Proof. vm_compute. repeat split. Qed.

(** src/nodes/yamd.rs line 346 *)
Example t_nodes_yamd_test_yamd_with_empty_body :
  display_yamd (yamd_new None []) = [].
Proof. vm_compute. repeat split. Qed.

(** src/nodes/yamd.rs line 353 *)
Example t_nodes_yamd_test_yamd_with_empty_metadata :
  display_yamd (yamd_new (Some ([])) []) = (s_ "---" ++ nl ++ nl ++ s_ "---" ++ nl ++ nl).
Proof. vm_compute. repeat split. Qed.

(** src/nodes/yamd.rs line 360 *)
Example t_nodes_yamd_paragraph_node :
  display_node (YParagraph [PText (s_ "Paragraph")]) = (s_ "Paragraph").
Proof. vm_compute. repeat split. Qed.

(** src/nodes/yamd.rs line 367 *)
Example t_nodes_yamd_heading_node :
  display_node (YHeading 1 [HText (s_ "Heading")]) = (s_ "# Heading").
Proof. vm_compute. repeat split. Qed.

(** src/nodes/yamd.rs line 374 *)
Example t_nodes_yamd_image_node :
  display_node (YImage (mk_image (s_ "alt") (s_ "src"))) = (s_ "![alt](src)").
Proof. vm_compute. repeat split. Qed.

(** src/nodes/yamd.rs line 381 *)
Example t_nodes_yamd_images_node :
  display_node (YImages [mk_image (s_ "alt1") (s_ "src1"); mk_image (s_ "alt2") (s_ "src2")]) = (s_ "![alt1](src1)" ++ nl ++ s_ "![alt2](src2)").
Proof. vm_compute. repeat split. Qed.

(** src/nodes/yamd.rs line 391 *)
Example t_nodes_yamd_code_node :
  display_node (code_new (s_ "rust") (s_ "code")) = (s_ "```rust" ++ nl ++ s_ "code" ++ nl ++ s_ "```").
Proof. vm_compute. repeat split. Qed.

(** src/nodes/yamd.rs line 398 *)
Example t_nodes_yamd_list_node :
  display_node (YListNode (YList LUnordered 0 [YItem [PText (s_ "Item 1")] None; YItem [PText (s_ "Item 2")] None])) = (s_ "- Item 1" ++ nl ++ s_ "- Item 2").
Proof. vm_compute. repeat split. Qed.

(** src/nodes/yamd.rs line 412 *)
Example t_nodes_yamd_highlight_node :
  display_node (YHighlight (Some ((s_ "Highlight"))) (Some ((s_ "warning"))) [[PText (s_ "body")]]) = (s_ "!! Highlight" ++ nl ++ s_ "! warning" ++ nl ++ s_ "body" ++ nl ++ s_ "!!").
Proof. vm_compute. repeat split. Qed.

(** src/nodes/yamd.rs line 423 *)
Example t_nodes_yamd_thematic_break_node :
  display_node (YThematicBreak) = (s_ "-----").
Proof. vm_compute. repeat split. Qed.

(** src/nodes/yamd.rs line 430 *)
Example t_nodes_yamd_embed_node :
  display_node (YEmbed (s_ "youtube") (s_ "url")) = (s_ "{{youtube|url}}").
Proof. vm_compute. repeat split. Qed.

(** src/nodes/yamd.rs line 437 *)
Example t_nodes_yamd_collapsible_node :
  display_node (YCollapsible (s_ "Or collapsible") [YParagraph [PText (s_ "body")]]) = (s_ "{% Or collapsible" ++ nl ++ s_ "body" ++ nl ++ s_ "%}").
Proof. vm_compute. repeat split. Qed.

(** src/op/anchor.rs line 23 *)
Example t_op_anchor_happy_path :
  match run_p [] (anchor) (s_ "[a](u)") with
  | Ok (b, p) => b = true
      /\ ops p = [new_start NAnchor (Span 0 0); new_start NTitle (span_ 0 1 p); new_value (span_ 1 2 p); new_end NTitle (span_ 2 3 p); new_start NDestination (span_ 3 4 p); new_value (span_ 4 5 p); new_end NDestination (span_ 5 6 p); new_end NAnchor (Span 0 0)]
  | _ => False
  end.
Proof. vm_compute. repeat split. Qed.

(** src/op/anchor.rs line 42 *)
Example t_op_anchor_title_is_not_closed :
  match run_p [] (anchor) (s_ "[a") with
  | Ok (b, p) => b = false
      /\ ops p = []
      /\ pos p = 0 /\ peek p = Some (token_new LeftSquareBracket 0 1 (mk_pos 0 0 0))
  | _ => False
  end.
Proof. vm_compute. repeat split. Qed.

(** src/op/anchor.rs line 56 *)
Example t_op_anchor_url_is_not_closed :
  match run_p [] (anchor) (s_ "[a](u") with
  | Ok (b, p) => b = false
      /\ ops p = []
      /\ pos p = 0 /\ peek p = Some (token_new LeftSquareBracket 0 1 (mk_pos 0 0 0))
  | _ => False
  end.
Proof. vm_compute. repeat split. Qed.

(** src/op/anchor.rs line 70 *)
Example t_op_anchor_has_nested_square_brackets :
  match run_p [] (anchor) (s_ "[[a\]l](u)") with
  | Ok (b, p) => b = true
      /\ ops p = [new_start NAnchor (Span 0 0); new_start NTitle (span_ 0 1 p); new_value (span_ 1 4 p); new_end NTitle (span_ 4 5 p); new_start NDestination (span_ 5 6 p); new_value (span_ 6 7 p); new_end NDestination (span_ 7 8 p); new_end NAnchor (Span 0 0)]
  | _ => False
  end.
Proof. vm_compute. repeat split. Qed.

(** src/op/anchor.rs line 89 *)
Example t_op_anchor_has_nested_paren :
  match run_p [] (anchor) (s_ "[a]((u)r)") with
  | Ok (b, p) => b = true
      /\ ops p = [new_start NAnchor (Span 0 0); new_start NTitle (span_ 0 1 p); new_value (span_ 1 2 p); new_end NTitle (span_ 2 3 p); new_start NDestination (span_ 3 4 p); new_value (span_ 4 8 p); new_end NDestination (span_ 8 9 p); new_end NAnchor (Span 0 0)]
  | _ => False
  end.
Proof. vm_compute. repeat split. Qed.

(** src/op/anchor.rs line 108 *)
Example t_op_anchor_has_unclosed_nested_paren :
  match run_p [] (anchor) (s_ "[a]((ur)t") with
  | Ok (b, p) => b = true
      /\ ops p = [new_start NAnchor (Span 0 0); new_start NTitle (span_ 0 1 p); new_value (span_ 1 2 p); new_end NTitle (span_ 2 3 p); new_start NDestination (span_ 3 4 p); new_value (span_ 4 6 p); new_end NDestination (span_ 6 7 p); new_end NAnchor (Span 0 0)]
  | _ => False
  end.
Proof. vm_compute. repeat split. Qed.

(** src/op/anchor.rs line 127 *)
Example t_op_anchor_has_terminator :
  match run_p [StopTerminator] (anchor) (s_ "[[a]((u" ++ nl ++ nl ++ s_ ")r)") with
  | Ok (b, p) => b = false
      /\ ops p = []
      /\ pos p = 0 /\ peek p = Some (token_new LeftSquareBracket 0 1 (mk_pos 0 0 0))
  | _ => False
  end.
Proof. vm_compute. repeat split. Qed.

(** src/op/anchor.rs line 143 *)
Example t_op_anchor_no_paren :
  match run_p [] (anchor) (s_ "[a]") with
  | Ok (b, p) => b = false
      /\ ops p = []
      /\ pos p = 0 /\ peek p = Some (token_new LeftSquareBracket 0 1 (mk_pos 0 0 0))
  | _ => False
  end.
Proof. vm_compute. repeat split. Qed.

(** src/op/anchor.rs line 157 *)
Example t_op_anchor_right_paren :
  match run_p [] (anchor) (s_ "[a])") with
  | Ok (b, p) => b = false
      /\ ops p = []
      /\ pos p = 0 /\ peek p = Some (token_new LeftSquareBracket 0 1 (mk_pos 0 0 0))
  | _ => False
  end.
Proof. vm_compute. repeat split. Qed.

(** src/op/bold.rs line 66 *)
Example t_op_bold_happy_path :
  match run_p [] (bold) (s_ "**~~happy~~ _path_**") with
  | Ok (b, p) => b = true
      /\ ops p = [new_start NBold (span_ 0 1 p); new_start NStrikethrough (span_ 1 2 p); new_value (span_ 2 3 p); new_end NStrikethrough (span_ 3 4 p); new_value (span_ 4 5 p); new_start NItalic (span_ 5 6 p); new_value (span_ 6 7 p); new_end NItalic (span_ 7 8 p); new_end NBold (span_ 8 9 p)]
  | _ => False
  end.
Proof. vm_compute. repeat split. Qed.

(** src/op/bold.rs line 86 *)
Example t_op_bold_terminator :
  match run_p [StopTerminator] (bold) (s_ "**~~happy~~ _path_" ++ nl ++ nl ++ s_ "**") with
  | Ok (b, p) => b = false
      /\ ops p = []
      /\ pos p = 0 /\ peek p = Some (token_new Star 0 2 (mk_pos 0 0 0))
  | _ => False
  end.
Proof. vm_compute. repeat split. Qed.

(** src/op/bold.rs line 99 *)
Example t_op_bold_end_of_input :
  match run_p [] (bold) (s_ "**~~happy~~ _path_") with
  | Ok (b, p) => b = false
      /\ ops p = []
      /\ pos p = 0 /\ peek p = Some (token_new Star 0 2 (mk_pos 0 0 0))
  | _ => False
  end.
Proof. vm_compute. repeat split. Qed.

(** src/op/bold.rs line 110 *)
Example t_op_bold_end_of_input_in_nested :
  match run_p [] (bold) (s_ "**~~happy _path_") with
  | Ok (b, p) => b = false
      /\ ops p = []
      /\ pos p = 0 /\ peek p = Some (token_new Star 0 2 (mk_pos 0 0 0))
  | _ => False
  end.
Proof. vm_compute. repeat split. Qed.

(** src/op/bold.rs line 121 *)
Example t_op_bold_text_before_strikethrough :
  match run_p [] (bold) (s_ "**text ~~happy~~ _path_**") with
  | Ok (b, p) => b = true
      /\ ops p = [new_start NBold (span_ 0 1 p); new_value (span_ 1 2 p); new_start NStrikethrough (span_ 2 3 p); new_value (span_ 3 4 p); new_end NStrikethrough (span_ 4 5 p); new_value (span_ 5 6 p); new_start NItalic (span_ 6 7 p); new_value (span_ 7 8 p); new_end NItalic (span_ 8 9 p); new_end NBold (span_ 9 10 p)]
  | _ => False
  end.
Proof. vm_compute. repeat split. Qed.

(** src/op/bold.rs line 142 *)
Example t_op_bold_unclosed_italic :
  match run_p [] (bold) (s_ "**_path**") with
  | Ok (b, p) => b = true
      /\ ops p = [new_start NBold (span_ 0 1 p); new_value (span_ 1 3 p); new_end NBold (span_ 3 4 p)]
  | _ => False
  end.
Proof. vm_compute. repeat split. Qed.

(** src/op/code.rs line 70 *)
Example t_op_code_happy_path :
  match run_p [] (code) (s_ "```rust" ++ nl ++ s_ "println!(""hello"");" ++ nl ++ s_ "```") with
  | Ok (b, p) => b = true
      /\ ops p = [new_start NCode (span_ 0 1 p); new_start NModifier (span_ 0 0 p); new_value (span_ 1 2 p); new_end NModifier (span_ 2 3 p); new_value (span_ 3 10 p); new_end NCode (span_ 10 11 p)]
  | _ => False
  end.
Proof. vm_compute. repeat split. Qed.

(** src/op/code.rs line 87 *)
Example t_op_code_eol_before_lang :
  match run_p [] (code) (s_ "```" ++ nl ++ s_ "println!(""hello"");" ++ nl ++ s_ "```") with
  | Ok (b, p) => b = true
      /\ ops p = [new_start NCode (span_ 0 2 p); new_value (span_ 2 9 p); new_end NCode (span_ 9 10 p)]
  | _ => False
  end.
Proof. vm_compute. repeat split. Qed.

(** src/op/code.rs line 101 *)
Example t_op_code_outer_stops_do_not_interrupt_fence_scan :
  match run_p [StopCollapsibleEnd] (code) (s_ "```" ++ nl ++ s_ "body" ++ nl ++ s_ "%}" ++ nl ++ s_ "```") with
  | Ok (b, p) => b = true
      /\ at_eof p = true
  | _ => False
  end.
Proof. vm_compute. repeat split. Qed.

(** src/op/code.rs line 110 *)
Example t_op_code_do_not_have_closing_token :
  match run_p [] (code) (s_ "```" ++ nl ++ s_ "println!(""hello"");" ++ nl ++ s_ "``") with
  | Ok (b, p) => b = false
      /\ ops p = []
      /\ pos p = 0 /\ peek p = Some (token_new Backtick 0 3 (mk_pos 0 0 0))
  | _ => False
  end.
Proof. vm_compute. repeat split. Qed.

(** src/op/code.rs line 124 *)
Example t_op_code_trailing_eol_consumed :
  match run_p [] (code) (s_ "```" ++ nl ++ s_ "code" ++ nl ++ s_ "```" ++ nl) with
  | Ok (b, p) => b = true
      /\ ops p = [new_start NCode (span_ 0 2 p); new_value (span_ 2 4 p); new_end NCode (span_ 4 6 p)]
      /\ at_eof p = true
  | _ => False
  end.
Proof. vm_compute. repeat split. Qed.

(** src/op/code.rs line 139 *)
Example t_op_code_closing_backticks_not_at_block_boundary :
  match run_p [] (code) (s_ "```" ++ nl ++ s_ "code" ++ nl ++ s_ "```extra") with
  | Ok (b, p) => b = false
      /\ ops p = []
      /\ pos p = 0
  | _ => False
  end.
Proof. vm_compute. repeat split. Qed.

(** src/op/code.rs line 147 *)
Example t_op_code_terminator_in_the_middle_and_do_not_have_closing_token :
  match run_p [] (code) (s_ "```" ++ nl ++ s_ "println!(""hello"");" ++ nl ++ nl ++ nl ++ s_ "``") with
  | Ok (b, p) => b = false
      /\ ops p = []
      /\ pos p = 0 /\ peek p = Some (token_new Backtick 0 3 (mk_pos 0 0 0))
  | _ => False
  end.
Proof. vm_compute. repeat split. Qed.

(** src/op/code_span.rs line 35 *)
Example t_op_code_span_happy_path :
  match run_p [] (code_span) (s_ "`happy path`") with
  | Ok (b, p) => b = true
      /\ ops p = [new_start NCodeSpan (span_ 0 1 p); new_value (span_ 1 2 p); new_end NCodeSpan (span_ 2 3 p)]
  | _ => False
  end.
Proof. vm_compute. repeat split. Qed.

(** src/op/code_span.rs line 49 *)
Example t_op_code_span_terminator :
  match run_p [StopTerminator] (code_span) (s_ "`happy" ++ nl ++ nl ++ s_ "path`") with
  | Ok (b, p) => b = false
      /\ ops p = []
      /\ pos p = 0 /\ peek p = Some (token_new Backtick 0 1 (mk_pos 0 0 0))
  | _ => False
  end.
Proof. vm_compute. repeat split. Qed.

(** src/op/code_span.rs line 65 *)
Example t_op_code_span_no_rhs :
  match run_p [] (code_span) (s_ "`happy path") with
  | Ok (b, p) => b = false
      /\ ops p = []
      /\ pos p = 0 /\ peek p = Some (token_new Backtick 0 1 (mk_pos 0 0 0))
  | _ => False
  end.
Proof. vm_compute. repeat split. Qed.

(** src/op/collapsible.rs line 73 *)
Example t_op_collapsible_happy_path :
  match run_p [] (collapsible_fn) (s_ "{% Title" ++ nl ++ s_ "# Heading" ++ nl ++ nl ++ s_ "text" ++ nl ++ nl ++ s_ "{% nested" ++ nl ++ s_ "![a](u)" ++ nl ++ s_ "%}" ++ nl ++ s_ "%}") with
  | Ok (b, p) => b = true
      /\ ops p = [new_start NCollapsible (span_ 0 2 p); new_start NModifier (Span 0 0); new_value (span_ 2 3 p); new_end NModifier (span_ 3 4 p); new_start NDocument (Span 0 0); new_start NHeading (span_ 4 6 p); new_value (span_ 6 7 p); new_end NHeading (Span 0 0); new_value (span_ 7 8 p); new_start NParagraph (Span 0 0); new_value (span_ 8 9 p); new_end NParagraph (Span 0 0); new_value (span_ 9 10 p); new_start NCollapsible (span_ 10 12 p); new_start NModifier (Span 0 0); new_value (span_ 12 13 p); new_end NModifier (span_ 13 14 p); new_start NDocument (Span 0 0); new_start NImage (span_ 14 15 p); new_start NTitle (span_ 15 16 p); new_value (span_ 16 17 p); new_end NTitle (span_ 17 18 p); new_start NDestination (span_ 18 19 p); new_value (span_ 19 20 p); new_end NDestination (span_ 20 21 p); new_end NImage (span_ 21 22 p); new_end NDocument (Span 0 0); new_end NCollapsible (span_ 22 24 p); new_end NDocument (Span 0 0); new_end NCollapsible (span_ 24 25 p)]
  | _ => False
  end.
Proof. vm_compute. repeat split. Qed.

(** src/op/collapsible.rs line 114 *)
Example t_op_collapsible_no_title :
  match run_p [] (collapsible_fn) (s_ "{%" ++ nl ++ s_ "text%}") with
  | Ok (b, p) => b = false
      /\ ops p = []
      /\ pos p = 0 /\ peek p = Some (token_new Literal 0 2 (mk_pos 0 0 0))
  | _ => False
  end.
Proof. vm_compute. repeat split. Qed.

(** src/op/collapsible.rs line 128 *)
Example t_op_collapsible_no_end_token :
  match run_p [] (collapsible_fn) (s_ "{% Title" ++ nl ++ s_ "# Heading" ++ nl ++ nl ++ s_ "text" ++ nl ++ nl ++ s_ "{% nested" ++ nl ++ s_ "![a](u)" ++ nl ++ s_ "%}" ++ nl) with
  | Ok (b, p) => b = false
      /\ ops p = []
      /\ pos p = 0 /\ peek p = Some (token_new Literal 0 2 (mk_pos 0 0 0))
  | _ => False
  end.
Proof. vm_compute. repeat split. Qed.

(** src/op/collapsible.rs line 142 *)
Example t_op_collapsible_just_heading :
  match run_p [] (collapsible_fn) (s_ "{% Title" ++ nl ++ s_ "# Heading" ++ nl ++ s_ "%}") with
  | Ok (b, p) => b = true
      /\ ops p = [new_start NCollapsible (span_ 0 2 p); new_start NModifier (Span 0 0); new_value (span_ 2 3 p); new_end NModifier (span_ 3 4 p); new_start NDocument (Span 0 0); new_start NHeading (span_ 4 6 p); new_value (span_ 6 7 p); new_end NHeading (Span 0 0); new_end NDocument (Span 0 0); new_end NCollapsible (span_ 8 9 p)]
  | _ => False
  end.
Proof. vm_compute. repeat split. Qed.

(** src/op/collapsible.rs line 163 *)
Example t_op_collapsible_only_two_tokens :
  match run_p [] (collapsible_fn) (s_ "{% ") with
  | Ok (b, p) => b = false
      /\ ops p = []
      /\ pos p = 0 /\ peek p = Some (token_new Literal 0 2 (mk_pos 0 0 0))
  | _ => False
  end.
Proof. vm_compute. repeat split. Qed.

(** src/op/collapsible.rs line 177 *)
Example t_op_collapsible_has_embed :
  match run_p [] (collapsible_fn) (s_ "{% Title" ++ nl ++ s_ "{{foo|bar}}" ++ nl ++ s_ "%}") with
  | Ok (b, p) => b = true
      /\ ops p = [new_start NCollapsible (span_ 0 2 p); new_start NModifier (Span 0 0); new_value (span_ 2 3 p); new_end NModifier (span_ 3 4 p); new_start NDocument (Span 0 0); new_start NEmbed (span_ 4 5 p); new_value (span_ 5 6 p); new_value (span_ 6 7 p); new_value (span_ 7 8 p); new_end NEmbed (span_ 8 10 p); new_end NDocument (Span 0 0); new_end NCollapsible (span_ 10 11 p)]
  | _ => False
  end.
Proof. vm_compute. repeat split. Qed.

(** src/op/destination.rs line 61 *)
Example t_op_destination_happy_path :
  match run_p [] (destination) (s_ "(url)") with
  | Ok (b, p) => b = true
      /\ List.length (ops p) = 3
  | _ => False
  end.
Proof. vm_compute. repeat split. Qed.

(** src/op/destination.rs line 68 *)
Example t_op_destination_unclosed_paren :
  match run_p [] (destination) (s_ "(url") with
  | Ok (b, p) => b = false
      /\ ops p = []
      /\ pos p = 0
  | _ => False
  end.
Proof. vm_compute. repeat split. Qed.

(** src/op/destination.rs line 76 *)
Example t_op_destination_nested_parens :
  match run_p [] (destination) (s_ "(a(b)c)") with
  | Ok (b, p) => b = true
      /\ List.length (ops p) = 3
  | _ => False
  end.
Proof. vm_compute. repeat split. Qed.

(** src/op/embed.rs line 67 *)
Example t_op_embed_happy_path :
  match run_p [] (embed) (s_ "{{happy|path}}") with
  | Ok (b, p) => b = true
      /\ ops p = [new_start NEmbed (span_ 0 1 p); new_value (span_ 1 2 p); new_value (span_ 2 3 p); new_value (span_ 3 4 p); new_end NEmbed (span_ 4 5 p)]
  | _ => False
  end.
Proof. vm_compute. repeat split. Qed.

(** src/op/embed.rs line 83 *)
Example t_op_embed_terminator :
  match run_p [StopTerminator] (embed) (s_ "{{" ++ nl ++ nl ++ s_ "|path}}") with
  | Ok (b, p) => b = false
      /\ ops p = []
      /\ pos p = 0 /\ peek p = Some (token_new LeftCurlyBrace 0 2 (mk_pos 0 0 0))
  | _ => False
  end.
Proof. vm_compute. repeat split. Qed.

(** src/op/embed.rs line 99 *)
Example t_op_embed_do_not_have_closing_token :
  match run_p [] (embed) (s_ "{{happy|path}") with
  | Ok (b, p) => b = false
      /\ ops p = []
      /\ pos p = 0 /\ peek p = Some (token_new LeftCurlyBrace 0 2 (mk_pos 0 0 0))
  | _ => False
  end.
Proof. vm_compute. repeat split. Qed.

(** src/op/embed.rs line 113 *)
Example t_op_embed_closing_braces_not_at_block_boundary :
  match run_p [] (embed) (s_ "{{happy|path}}extra") with
  | Ok (b, p) => b = false
      /\ ops p = []
      /\ pos p = 0
  | _ => False
  end.
Proof. vm_compute. repeat split. Qed.

(** src/op/embed.rs line 121 *)
Example t_op_embed_trailing_eol_consumed :
  match run_p [] (embed) (s_ "{{happy|path}}" ++ nl) with
  | Ok (b, p) => b = true
      /\ ops p = [new_start NEmbed (span_ 0 1 p); new_value (span_ 1 2 p); new_value (span_ 2 3 p); new_value (span_ 3 4 p); new_end NEmbed (span_ 4 6 p)]
      /\ at_eof p = true
  | _ => False
  end.
Proof. vm_compute. repeat split. Qed.

(** src/op/embed.rs line 138 *)
Example t_op_embed_no_pipe :
  match run_p [] (embed) (s_ "{{happy}}") with
  | Ok (b, p) => b = false
      /\ ops p = []
      /\ pos p = 0 /\ peek p = Some (token_new LeftCurlyBrace 0 2 (mk_pos 0 0 0))
  | _ => False
  end.
Proof. vm_compute. repeat split. Qed.

(** src/op/emphasis.rs line 35 *)
Example t_op_emphasis_happy_path :
  match run_p [] (emphasis) (s_ "*happy*") with
  | Ok (b, p) => b = true
      /\ ops p = [new_start NEmphasis (span_ 0 1 p); new_value (span_ 1 2 p); new_end NEmphasis (span_ 2 3 p)]
  | _ => False
  end.
Proof. vm_compute. repeat split. Qed.

(** src/op/emphasis.rs line 49 *)
Example t_op_emphasis_no_closing_token :
  match run_p [] (emphasis) (s_ "*happy") with
  | Ok (b, p) => b = false
      /\ ops p = []
      /\ pos p = 0 /\ peek p = Some (token_new Star 0 1 (mk_pos 0 0 0))
  | _ => False
  end.
Proof. vm_compute. repeat split. Qed.

(** src/op/emphasis.rs line 60 *)
Example t_op_emphasis_terminator :
  match run_p [StopTerminator] (emphasis) (s_ "*ha" ++ nl ++ nl ++ s_ "ppy*") with
  | Ok (b, p) => b = false
      /\ ops p = []
      /\ pos p = 0 /\ peek p = Some (token_new Star 0 1 (mk_pos 0 0 0))
  | _ => False
  end.
Proof. vm_compute. repeat split. Qed.

(** src/op/heading.rs line 55 *)
Example t_op_heading_happy_path :
  match run_p [] (heading) (s_ "## heading [a](u) text") with
  | Ok (b, p) => b = true
      /\ ops p = [new_start NHeading (span_ 0 2 p); new_value (span_ 2 3 p); new_start NAnchor (Span 0 0); new_start NTitle (span_ 3 4 p); new_value (span_ 4 5 p); new_end NTitle (span_ 5 6 p); new_start NDestination (span_ 6 7 p); new_value (span_ 7 8 p); new_end NDestination (span_ 8 9 p); new_end NAnchor (Span 0 0); new_value (span_ 9 11 p); new_end NHeading (Span 0 0)]
  | _ => False
  end.
Proof. vm_compute. repeat split. Qed.

(** src/op/heading.rs line 78 *)
Example t_op_heading_start_with_anchor :
  match run_p [] (heading) (s_ "## [a](u) heading") with
  | Ok (b, p) => b = true
      /\ ops p = [new_start NHeading (span_ 0 2 p); new_start NAnchor (Span 0 0); new_start NTitle (span_ 2 3 p); new_value (span_ 3 4 p); new_end NTitle (span_ 4 5 p); new_start NDestination (span_ 5 6 p); new_value (span_ 6 7 p); new_end NDestination (span_ 7 8 p); new_end NAnchor (Span 0 0); new_value (span_ 8 10 p); new_end NHeading (Span 0 0)]
  | _ => False
  end.
Proof. vm_compute. repeat split. Qed.

(** src/op/heading.rs line 100 *)
Example t_op_heading_broken_anchor :
  match run_p [] (heading) (s_ "## heading [a](u text") with
  | Ok (b, p) => b = true
      /\ ops p = [new_start NHeading (span_ 0 2 p); new_value (span_ 2 8 p); new_end NHeading (Span 0 0)]
  | _ => False
  end.
Proof. vm_compute. repeat split. Qed.

(** src/op/heading.rs line 114 *)
Example t_op_heading_with_terminator :
  match run_p [StopTerminator] (heading) (s_ "## heading" ++ nl ++ nl ++ s_ "text") with
  | Ok (b, p) => b = true
      /\ ops p = [new_start NHeading (span_ 0 2 p); new_value (span_ 2 3 p); new_end NHeading (Span 0 0)]
  | _ => False
  end.
Proof. vm_compute. repeat split. Qed.

(** src/op/heading.rs line 130 *)
Example t_op_heading_have_no_space_before_text :
  match run_p [] (heading) (s_ "##heading" ++ nl ++ nl ++ s_ "text") with
  | Ok (b, p) => b = false
      /\ ops p = []
      /\ pos p = 0 /\ peek p = Some (token_new Hash 0 2 (mk_pos 0 0 0))
  | _ => False
  end.
Proof. vm_compute. repeat split. Qed.

(** src/op/heading.rs line 141 *)
Example t_op_heading_empty_heading :
  match run_p [] (heading) (s_ "# ") with
  | Ok (b, p) => b = true
      /\ ops p = [new_start NHeading (span_ 0 2 p); new_end NHeading (Span 0 0)]
  | _ => False
  end.
Proof. vm_compute. repeat split. Qed.

(** src/op/heading.rs line 154 *)
Example t_op_heading_new_line_check :
  match run_p [] (heading) (s_ "## heading [a](u) text" ++ nl ++ s_ " ") with
  | Ok (b, p) => b = true
      /\ ops p = [new_start NHeading (span_ 0 2 p); new_value (span_ 2 3 p); new_start NAnchor (Span 0 0); new_start NTitle (span_ 3 4 p); new_value (span_ 4 5 p); new_end NTitle (span_ 5 6 p); new_start NDestination (span_ 6 7 p); new_value (span_ 7 8 p); new_end NDestination (span_ 8 9 p); new_end NAnchor (Span 0 0); new_value (span_ 9 13 p); new_end NHeading (Span 0 0)]
  | _ => False
  end.
Proof. vm_compute. repeat split. Qed.

(** src/op/heading.rs line 177 *)
Example t_op_heading_only_one_token :
  match run_p [] (heading) (s_ "##") with
  | Ok (b, p) => b = false
      /\ ops p = []
      /\ pos p = 0 /\ peek p = Some (token_new Hash 0 2 (mk_pos 0 0 0))
  | _ => False
  end.
Proof. vm_compute. repeat split. Qed.

(** src/op/highlight.rs line 121 *)
Example t_op_highlight_happy_path :
  match run_p [] (highlight) (s_ "!! Title" ++ nl ++ s_ "! Icon" ++ nl ++ s_ "_i_ **b**" ++ nl ++ nl ++ s_ "t~~s~~t" ++ nl ++ s_ "!!") with
  | Ok (b, p) => b = true
      /\ ops p = [new_start NHighlight (span_ 0 2 p); new_start NModifier (Span 0 0); new_value (span_ 2 3 p); new_end NModifier (span_ 3 4 p); new_start NIcon (span_ 4 6 p); new_value (span_ 6 7 p); new_end NIcon (span_ 7 8 p); new_start NParagraph (Span 0 0); new_start NItalic (span_ 8 9 p); new_value (span_ 9 10 p); new_end NItalic (span_ 10 11 p); new_value (span_ 11 12 p); new_start NBold (span_ 12 13 p); new_value (span_ 13 14 p); new_end NBold (span_ 14 15 p); new_end NParagraph (Span 0 0); new_value (span_ 15 16 p); new_start NParagraph (Span 0 0); new_value (span_ 16 17 p); new_start NStrikethrough (span_ 17 18 p); new_value (span_ 18 19 p); new_end NStrikethrough (span_ 19 20 p); new_value (span_ 20 22 p); new_end NParagraph (Span 0 0); new_end NHighlight (span_ 22 23 p)]
  | _ => False
  end.
Proof. vm_compute. repeat split. Qed.

(** src/op/highlight.rs line 157 *)
Example t_op_highlight_no_title :
  match run_p [] (highlight) (s_ "!!" ++ nl ++ s_ "! Icon" ++ nl ++ s_ "_i_ **b**" ++ nl ++ nl ++ s_ "t~~s~~t" ++ nl ++ s_ "!!") with
  | Ok (b, p) => b = true
      /\ ops p = [new_start NHighlight (span_ 0 2 p); new_start NIcon (span_ 2 4 p); new_value (span_ 4 5 p); new_end NIcon (span_ 5 6 p); new_start NParagraph (Span 0 0); new_start NItalic (span_ 6 7 p); new_value (span_ 7 8 p); new_end NItalic (span_ 8 9 p); new_value (span_ 9 10 p); new_start NBold (span_ 10 11 p); new_value (span_ 11 12 p); new_end NBold (span_ 12 13 p); new_end NParagraph (Span 0 0); new_value (span_ 13 14 p); new_start NParagraph (Span 0 0); new_value (span_ 14 15 p); new_start NStrikethrough (span_ 15 16 p); new_value (span_ 16 17 p); new_end NStrikethrough (span_ 17 18 p); new_value (span_ 18 20 p); new_end NParagraph (Span 0 0); new_end NHighlight (span_ 20 21 p)]
  | _ => False
  end.
Proof. vm_compute. repeat split. Qed.

(** src/op/highlight.rs line 190 *)
Example t_op_highlight_no_icon :
  match run_p [] (highlight) (s_ "!! Title" ++ nl ++ s_ "_i_ **b**" ++ nl ++ nl ++ s_ "t~~s~~t" ++ nl ++ s_ "!!") with
  | Ok (b, p) => b = true
      /\ ops p = [new_start NHighlight (span_ 0 2 p); new_start NModifier (Span 0 0); new_value (span_ 2 3 p); new_end NModifier (span_ 3 4 p); new_start NParagraph (Span 0 0); new_start NItalic (span_ 4 5 p); new_value (span_ 5 6 p); new_end NItalic (span_ 6 7 p); new_value (span_ 7 8 p); new_start NBold (span_ 8 9 p); new_value (span_ 9 10 p); new_end NBold (span_ 10 11 p); new_end NParagraph (Span 0 0); new_value (span_ 11 12 p); new_start NParagraph (Span 0 0); new_value (span_ 12 13 p); new_start NStrikethrough (span_ 13 14 p); new_value (span_ 14 15 p); new_end NStrikethrough (span_ 15 16 p); new_value (span_ 16 18 p); new_end NParagraph (Span 0 0); new_end NHighlight (span_ 18 19 p)]
  | _ => False
  end.
Proof. vm_compute. repeat split. Qed.

(** src/op/highlight.rs line 223 *)
Example t_op_highlight_no_closing_token :
  match run_p [] (highlight) (s_ "!! Title" ++ nl ++ s_ "_i_ **b**" ++ nl ++ nl ++ s_ "t~~s~~t!!") with
  | Ok (b, p) => b = false
      /\ ops p = []
      /\ pos p = 0 /\ peek p = Some (token_new Bang 0 2 (mk_pos 0 0 0))
  | _ => False
  end.
Proof. vm_compute. repeat split. Qed.

(** src/op/highlight.rs line 234 *)
Example t_op_highlight_no_space_between_start_and_title :
  match run_p [] (highlight) (s_ "!!Title" ++ nl ++ s_ "_i_ **b**" ++ nl ++ nl ++ s_ "t~~s~~t" ++ nl ++ s_ "!!") with
  | Ok (b, p) => b = false
      /\ ops p = []
      /\ pos p = 0 /\ peek p = Some (token_new Bang 0 2 (mk_pos 0 0 0))
  | _ => False
  end.
Proof. vm_compute. repeat split. Qed.

(** src/op/highlight.rs line 245 *)
Example t_op_highlight_terminator_in_title :
  match run_p [StopTerminator] (highlight) (s_ "!! Title" ++ nl ++ nl ++ s_ "_i_ **b**" ++ nl ++ nl ++ s_ "t~~s~~t" ++ nl ++ s_ "!!") with
  | Ok (b, p) => b = false
      /\ ops p = []
      /\ pos p = 0 /\ peek p = Some (token_new Bang 0 2 (mk_pos 0 0 0))
  | _ => False
  end.
Proof. vm_compute. repeat split. Qed.

(** src/op/highlight.rs line 258 *)
Example t_op_highlight_terminator_in_icon :
  match run_p [] (highlight) (s_ "!!" ++ nl ++ s_ "! icon" ++ nl ++ nl ++ s_ "_i_ **b**" ++ nl ++ nl ++ s_ "t~~s~~t" ++ nl ++ s_ "!!") with
  | Ok (b, p) => b = true
      /\ ops p = [new_start NHighlight (span_ 0 2 p); new_start NParagraph (Span 0 0); new_value (span_ 2 5 p); new_end NParagraph (Span 0 0); new_value (span_ 5 6 p); new_start NParagraph (Span 0 0); new_start NItalic (span_ 6 7 p); new_value (span_ 7 8 p); new_end NItalic (span_ 8 9 p); new_value (span_ 9 10 p); new_start NBold (span_ 10 11 p); new_value (span_ 11 12 p); new_end NBold (span_ 12 13 p); new_end NParagraph (Span 0 0); new_value (span_ 13 14 p); new_start NParagraph (Span 0 0); new_value (span_ 14 15 p); new_start NStrikethrough (span_ 15 16 p); new_value (span_ 16 17 p); new_end NStrikethrough (span_ 17 18 p); new_value (span_ 18 20 p); new_end NParagraph (Span 0 0); new_end NHighlight (span_ 20 21 p)]
  | _ => False
  end.
Proof. vm_compute. repeat split. Qed.

(** src/op/highlight.rs line 292 *)
Example t_op_highlight_no_space_before_icon :
  match run_p [] (highlight) (s_ "!! Title" ++ nl ++ s_ "!Icon" ++ nl ++ s_ "!!") with
  | Ok (b, p) => b = true
      /\ ops p = [new_start NHighlight (span_ 0 2 p); new_start NModifier (Span 0 0); new_value (span_ 2 3 p); new_end NModifier (span_ 3 4 p); new_start NParagraph (Span 0 0); new_value (span_ 4 7 p); new_end NParagraph (Span 0 0); new_end NHighlight (span_ 7 8 p)]
  | _ => False
  end.
Proof. vm_compute. repeat split. Qed.

(** src/op/highlight.rs line 311 *)
Example t_op_highlight_only_one_token :
  match run_p [] (highlight) (s_ "!!") with
  | Ok (b, p) => b = false
      /\ ops p = []
      /\ pos p = 0 /\ peek p = Some (token_new Bang 0 2 (mk_pos 0 0 0))
  | _ => False
  end.
Proof. vm_compute. repeat split. Qed.

(** src/op/image.rs line 54 *)
Example t_op_image_missing_title :
  match run_p [] (image) (s_ "!not_a_bracket") with
  | Ok (b, p) => b = false
      /\ ops p = []
      /\ pos p = 0
  | _ => False
  end.
Proof. vm_compute. repeat split. Qed.

(** src/op/image.rs line 62 *)
Example t_op_image_missing_destination :
  match run_p [] (image) (s_ "![title]no_paren") with
  | Ok (b, p) => b = false
      /\ ops p = []
      /\ pos p = 0
  | _ => False
  end.
Proof. vm_compute. repeat split. Qed.

(** src/op/images.rs line 34 *)
Example t_op_images_happy_path :
  match run_p [] (images) (s_ "![a](u)" ++ nl ++ s_ "![a](u)") with
  | Ok (b, p) => b = true
      /\ ops p = [new_start NImages (Span 0 0); new_start NImage (span_ 0 1 p); new_start NTitle (span_ 1 2 p); new_value (span_ 2 3 p); new_end NTitle (span_ 3 4 p); new_start NDestination (span_ 4 5 p); new_value (span_ 5 6 p); new_end NDestination (span_ 6 7 p); new_end NImage (span_ 7 8 p); new_start NImage (span_ 8 9 p); new_start NTitle (span_ 9 10 p); new_value (span_ 10 11 p); new_end NTitle (span_ 11 12 p); new_start NDestination (span_ 12 13 p); new_value (span_ 13 14 p); new_end NDestination (span_ 14 15 p); new_end NImage (Span 0 0); new_end NImages (Span 0 0)]
  | _ => False
  end.
Proof. vm_compute. repeat split. Qed.

(** src/op/images.rs line 63 *)
Example t_op_images_not_an_anchor :
  match run_p [] (images) (s_ "![a](u)" ++ nl ++ s_ "!!foo") with
  | Ok (b, p) => b = false
      /\ ops p = []
      /\ pos p = 0 /\ peek p = Some (token_new Bang 0 1 (mk_pos 0 0 0))
  | _ => False
  end.
Proof. vm_compute. repeat split. Qed.

(** src/op/images.rs line 74 *)
Example t_op_images_no_images_at_all :
  match run_p [] (images) (s_ "not an image") with
  | Ok (b, p) => b = false
      /\ ops p = []
      /\ pos p = 0
  | _ => False
  end.
Proof. vm_compute. repeat split. Qed.

(** src/op/images.rs line 82 *)
Example t_op_images_next_token_can_be_only_terminator :
  match run_p [] (images) (s_ "![a](u)" ++ nl ++ s_ "![a](u)fasdf") with
  | Ok (b, p) => b = false
      /\ ops p = []
      /\ pos p = 0 /\ peek p = Some (token_new Bang 0 1 (mk_pos 0 0 0))
  | _ => False
  end.
Proof. vm_compute. repeat split. Qed.

(** src/op/images.rs line 93 *)
Example t_op_images_new_line_check :
  match run_p [] (images) (s_ "![a](u)" ++ nl ++ s_ "![a](u)" ++ nl) with
  | Ok (b, p) => b = true
      /\ ops p = [new_start NImages (Span 0 0); new_start NImage (span_ 0 1 p); new_start NTitle (span_ 1 2 p); new_value (span_ 2 3 p); new_end NTitle (span_ 3 4 p); new_start NDestination (span_ 4 5 p); new_value (span_ 5 6 p); new_end NDestination (span_ 6 7 p); new_end NImage (span_ 7 8 p); new_start NImage (span_ 8 9 p); new_start NTitle (span_ 9 10 p); new_value (span_ 10 11 p); new_end NTitle (span_ 11 12 p); new_start NDestination (span_ 12 13 p); new_value (span_ 13 14 p); new_end NDestination (span_ 14 15 p); new_end NImage (span_ 15 16 p); new_end NImages (Span 0 0)]
  | _ => False
  end.
Proof. vm_compute. repeat split. Qed.

(** src/op/italic.rs line 36 *)
Example t_op_italic_happy_path :
  match run_p [] (italic) (s_ "_happy_") with
  | Ok (b, p) => b = true
      /\ ops p = [new_start NItalic (span_ 0 1 p); new_value (span_ 1 2 p); new_end NItalic (span_ 2 3 p)]
  | _ => False
  end.
Proof. vm_compute. repeat split. Qed.

(** src/op/italic.rs line 50 *)
Example t_op_italic_no_closing_token :
  match run_p [] (italic) (s_ "_happy") with
  | Ok (b, p) => b = false
      /\ ops p = []
      /\ pos p = 0 /\ peek p = Some (token_new Underscore 0 1 (mk_pos 0 0 0))
  | _ => False
  end.
Proof. vm_compute. repeat split. Qed.

(** src/op/italic.rs line 64 *)
Example t_op_italic_terminator :
  match run_p [StopTerminator] (italic) (s_ "_ha" ++ nl ++ nl ++ s_ "ppy_") with
  | Ok (b, p) => b = false
      /\ ops p = []
      /\ pos p = 0 /\ peek p = Some (token_new Underscore 0 1 (mk_pos 0 0 0))
  | _ => False
  end.
Proof. vm_compute. repeat split. Qed.

(** src/op/list.rs line 79 *)
Example t_op_list_parse_unordered :
  match run_p [] (list_ 0) (s_ "- level 0" ++ nl ++ s_ "- level 0") with
  | Ok (b, p) => b = true
      /\ ops p = [new_start NUnorderedList (Span 0 0); new_start NListItem (span_ 0 2 p); new_start NParagraph (Span 0 0); new_value (span_ 2 4 p); new_end NParagraph (Span 0 0); new_end NListItem (Span 0 0); new_start NListItem (span_ 4 6 p); new_start NParagraph (Span 0 0); new_value (span_ 6 7 p); new_end NParagraph (Span 0 0); new_end NListItem (Span 0 0); new_end NUnorderedList (Span 0 0)]
  | _ => False
  end.
Proof. vm_compute. repeat split. Qed.

(** src/op/list.rs line 103 *)
Example t_op_list_parse_ordered :
  match run_p [] (list_ 0) (s_ "+ level 0" ++ nl ++ s_ "+ same level") with
  | Ok (b, p) => b = true
      /\ ops p = [new_start NOrderedList (Span 0 0); new_start NListItem (span_ 0 2 p); new_start NParagraph (Span 0 0); new_value (span_ 2 4 p); new_end NParagraph (Span 0 0); new_end NListItem (Span 0 0); new_start NListItem (span_ 4 6 p); new_start NParagraph (Span 0 0); new_value (span_ 6 7 p); new_end NParagraph (Span 0 0); new_end NListItem (Span 0 0); new_end NOrderedList (Span 0 0)]
  | _ => False
  end.
Proof. vm_compute. repeat split. Qed.

(** src/op/list.rs line 127 *)
Example t_op_list_parse_mixed :
  match run_p [] (list_ 0) (s_ "+ level 0" ++ nl ++ s_ " - level 0") with
  | Ok (b, p) => b = true
      /\ ops p = [new_start NOrderedList (Span 0 0); new_start NListItem (span_ 0 2 p); new_start NParagraph (Span 0 0); new_value (span_ 2 4 p); new_end NParagraph (Span 0 0); new_start NUnorderedList (Span 0 0); new_start NListItem (span_ 4 7 p); new_start NParagraph (Span 0 0); new_value (span_ 7 8 p); new_end NParagraph (Span 0 0); new_end NListItem (Span 0 0); new_end NUnorderedList (Span 0 0); new_end NListItem (Span 0 0); new_end NOrderedList (Span 0 0)]
  | _ => False
  end.
Proof. vm_compute. repeat split. Qed.

(** src/op/list.rs line 153 *)
Example t_op_list_parse_nested :
  match run_p [] (list_ 0) (s_ "- one" ++ nl ++ s_ " - two") with
  | Ok (b, p) => b = true
      /\ ops p = [new_start NUnorderedList (Span 0 0); new_start NListItem (span_ 0 2 p); new_start NParagraph (Span 0 0); new_value (span_ 2 4 p); new_end NParagraph (Span 0 0); new_start NUnorderedList (Span 0 0); new_start NListItem (span_ 4 7 p); new_start NParagraph (Span 0 0); new_value (span_ 7 8 p); new_end NParagraph (Span 0 0); new_end NListItem (Span 0 0); new_end NUnorderedList (Span 0 0); new_end NListItem (Span 0 0); new_end NUnorderedList (Span 0 0)]
  | _ => False
  end.
Proof. vm_compute. repeat split. Qed.

(** src/op/list.rs line 179 *)
Example t_op_list_eol :
  match run_p [] (list_ 0) (s_ "- one" ++ nl ++ s_ " - two" ++ nl ++ s_ " something") with
  | Ok (b, p) => b = true
      /\ ops p = [new_start NUnorderedList (Span 0 0); new_start NListItem (span_ 0 2 p); new_start NParagraph (Span 0 0); new_value (span_ 2 4 p); new_end NParagraph (Span 0 0); new_start NUnorderedList (Span 0 0); new_start NListItem (span_ 4 7 p); new_start NParagraph (Span 0 0); new_value (span_ 7 11 p); new_end NParagraph (Span 0 0); new_end NListItem (Span 0 0); new_end NUnorderedList (Span 0 0); new_end NListItem (Span 0 0); new_end NUnorderedList (Span 0 0)]
  | _ => False
  end.
Proof. vm_compute. repeat split. Qed.

(** src/op/list.rs line 205 *)
Example t_op_list_mixed_same_level_ordered :
  match run_p [] (list_ 0) (s_ "+ level 0" ++ nl ++ s_ "- same level") with
  | Ok (b, p) => b = true
      /\ ops p = [new_start NOrderedList (Span 0 0); new_start NListItem (span_ 0 2 p); new_start NParagraph (Span 0 0); new_value (span_ 2 7 p); new_end NParagraph (Span 0 0); new_end NListItem (Span 0 0); new_end NOrderedList (Span 0 0)]
  | _ => False
  end.
Proof. vm_compute. repeat split. Qed.

(** src/op/list.rs line 224 *)
Example t_op_list_mixed_same_level_unordered :
  match run_p [] (list_ 0) (s_ "- level 0" ++ nl ++ s_ "+ same level") with
  | Ok (b, p) => b = true
      /\ ops p = [new_start NUnorderedList (Span 0 0); new_start NListItem (span_ 0 2 p); new_start NParagraph (Span 0 0); new_value (span_ 2 7 p); new_end NParagraph (Span 0 0); new_end NListItem (Span 0 0); new_end NUnorderedList (Span 0 0)]
  | _ => False
  end.
Proof. vm_compute. repeat split. Qed.

(** src/op/list.rs line 243 *)
Example t_op_list_multiple_levels_unordered :
  match run_p [] (list_ 0) (s_ "- Level 0" ++ nl ++ s_ " - Level 1" ++ nl ++ s_ "  - Level 2" ++ nl ++ s_ " - Level 1" ++ nl ++ s_ "- Level 0" ++ nl ++ s_ " - Level 1" ++ nl ++ s_ "  - Level 2" ++ nl ++ s_ "- Level 0") with
  | Ok (b, p) => b = true
      /\ ops p = [new_start NUnorderedList (Span 0 0); new_start NListItem (span_ 0 2 p); new_start NParagraph (Span 0 0); new_value (span_ 2 4 p); new_end NParagraph (Span 0 0); new_start NUnorderedList (Span 0 0); new_start NListItem (span_ 4 7 p); new_start NParagraph (Span 0 0); new_value (span_ 7 9 p); new_end NParagraph (Span 0 0); new_start NUnorderedList (Span 0 0); new_start NListItem (span_ 9 12 p); new_start NParagraph (Span 0 0); new_value (span_ 12 14 p); new_end NParagraph (Span 0 0); new_end NListItem (Span 0 0); new_end NUnorderedList (Span 0 0); new_end NListItem (Span 0 0); new_start NListItem (span_ 14 17 p); new_start NParagraph (Span 0 0); new_value (span_ 17 19 p); new_end NParagraph (Span 0 0); new_end NListItem (Span 0 0); new_end NUnorderedList (Span 0 0); new_end NListItem (Span 0 0); new_start NListItem (span_ 19 21 p); new_start NParagraph (Span 0 0); new_value (span_ 21 23 p); new_end NParagraph (Span 0 0); new_start NUnorderedList (Span 0 0); new_start NListItem (span_ 23 26 p); new_start NParagraph (Span 0 0); new_value (span_ 26 28 p); new_end NParagraph (Span 0 0); new_start NUnorderedList (Span 0 0); new_start NListItem (span_ 28 31 p); new_start NParagraph (Span 0 0); new_value (span_ 31 33 p); new_end NParagraph (Span 0 0); new_end NListItem (Span 0 0); new_end NUnorderedList (Span 0 0); new_end NListItem (Span 0 0); new_end NUnorderedList (Span 0 0); new_end NListItem (Span 0 0); new_start NListItem (span_ 33 35 p); new_start NParagraph (Span 0 0); new_value (span_ 35 36 p); new_end NParagraph (Span 0 0); new_end NListItem (Span 0 0); new_end NUnorderedList (Span 0 0)]
  | _ => False
  end.
Proof. vm_compute. repeat split. Qed.

(** src/op/list.rs line 307 *)
Example t_op_list_multiple_levels_ordered :
  match run_p [] (list_ 0) (s_ "+ Level 0" ++ nl ++ s_ " + Level 1" ++ nl ++ s_ "  + Level 2" ++ nl ++ s_ " + Level 1" ++ nl ++ s_ "+ Level 0" ++ nl ++ s_ " + Level 1" ++ nl ++ s_ "  + Level 2" ++ nl ++ s_ "+ Level 0") with
  | Ok (b, p) => b = true
      /\ ops p = [new_start NOrderedList (Span 0 0); new_start NListItem (span_ 0 2 p); new_start NParagraph (Span 0 0); new_value (span_ 2 4 p); new_end NParagraph (Span 0 0); new_start NOrderedList (Span 0 0); new_start NListItem (span_ 4 7 p); new_start NParagraph (Span 0 0); new_value (span_ 7 9 p); new_end NParagraph (Span 0 0); new_start NOrderedList (Span 0 0); new_start NListItem (span_ 9 12 p); new_start NParagraph (Span 0 0); new_value (span_ 12 14 p); new_end NParagraph (Span 0 0); new_end NListItem (Span 0 0); new_end NOrderedList (Span 0 0); new_end NListItem (Span 0 0); new_start NListItem (span_ 14 17 p); new_start NParagraph (Span 0 0); new_value (span_ 17 19 p); new_end NParagraph (Span 0 0); new_end NListItem (Span 0 0); new_end NOrderedList (Span 0 0); new_end NListItem (Span 0 0); new_start NListItem (span_ 19 21 p); new_start NParagraph (Span 0 0); new_value (span_ 21 23 p); new_end NParagraph (Span 0 0); new_start NOrderedList (Span 0 0); new_start NListItem (span_ 23 26 p); new_start NParagraph (Span 0 0); new_value (span_ 26 28 p); new_end NParagraph (Span 0 0); new_start NOrderedList (Span 0 0); new_start NListItem (span_ 28 31 p); new_start NParagraph (Span 0 0); new_value (span_ 31 33 p); new_end NParagraph (Span 0 0); new_end NListItem (Span 0 0); new_end NOrderedList (Span 0 0); new_end NListItem (Span 0 0); new_end NOrderedList (Span 0 0); new_end NListItem (Span 0 0); new_start NListItem (span_ 33 35 p); new_start NParagraph (Span 0 0); new_value (span_ 35 36 p); new_end NParagraph (Span 0 0); new_end NListItem (Span 0 0); new_end NOrderedList (Span 0 0)]
  | _ => False
  end.
Proof. vm_compute. repeat split. Qed.

(** src/op/list.rs line 371 *)
Example t_op_list_empty_body :
  match run_p [] (list_ 0) (s_ "- ") with
  | Ok (b, p) => b = true
      /\ ops p = [new_start NUnorderedList (Span 0 0); new_start NListItem (span_ 0 2 p); new_start NParagraph (Span 0 0); new_end NParagraph (Span 0 0); new_end NListItem (Span 0 0); new_end NUnorderedList (Span 0 0)]
  | _ => False
  end.
Proof. vm_compute. repeat split. Qed.

(** src/op/list.rs line 389 *)
Example t_op_list_no_nested_ordered_list :
  match run_p [] (list_ 0) (s_ "+ level 0" ++ nl ++ s_ " + ") with
  | Ok (b, p) => b = true
      /\ ops p = [new_start NOrderedList (Span 0 0); new_start NListItem (span_ 0 2 p); new_start NParagraph (Span 0 0); new_value (span_ 2 4 p); new_end NParagraph (Span 0 0); new_start NOrderedList (Span 0 0); new_start NListItem (span_ 4 7 p); new_start NParagraph (Span 0 0); new_end NParagraph (Span 0 0); new_end NListItem (Span 0 0); new_end NOrderedList (Span 0 0); new_end NListItem (Span 0 0); new_end NOrderedList (Span 0 0)]
  | _ => False
  end.
Proof. vm_compute. repeat split. Qed.

(** src/op/list.rs line 414 *)
Example t_op_list_no_nested_unordered_list :
  match run_p [] (list_ 0) (s_ "+ level 0" ++ nl ++ s_ " - ") with
  | Ok (b, p) => b = true
      /\ ops p = [new_start NOrderedList (Span 0 0); new_start NListItem (span_ 0 2 p); new_start NParagraph (Span 0 0); new_value (span_ 2 4 p); new_end NParagraph (Span 0 0); new_start NUnorderedList (Span 0 0); new_start NListItem (span_ 4 7 p); new_start NParagraph (Span 0 0); new_end NParagraph (Span 0 0); new_end NListItem (Span 0 0); new_end NUnorderedList (Span 0 0); new_end NListItem (Span 0 0); new_end NOrderedList (Span 0 0)]
  | _ => False
  end.
Proof. vm_compute. repeat split. Qed.

(** src/op/metadata.rs line 37 *)
Example t_op_metadata_happy_path :
  match run_p [] (Parser.metadata) (s_ "---" ++ nl ++ s_ "content" ++ nl ++ s_ "---") with
  | Ok (b, p) => b = true
      /\ ops p = [new_start NMetadata (span_ 0 1 p); new_value (span_ 1 4 p); new_end NMetadata (span_ 4 5 p)]
  | _ => False
  end.
Proof. vm_compute. repeat split. Qed.

(** src/op/metadata.rs line 51 *)
Example t_op_metadata_no_closing_delimiter :
  match run_p [] (Parser.metadata) (s_ "---" ++ nl ++ s_ "content") with
  | Ok (b, p) => b = false
      /\ ops p = []
      /\ pos p = 0 /\ peek p = Some (token_new Minus 0 3 (mk_pos 0 0 0))
  | _ => False
  end.
Proof. vm_compute. repeat split. Qed.

(** src/op/metadata.rs line 62 *)
Example t_op_metadata_no_content :
  match run_p [] (Parser.metadata) (s_ "---" ++ nl ++ s_ "---") with
  | Ok (b, p) => b = true
      /\ ops p = [new_start NMetadata (span_ 0 1 p); new_value (span_ 1 2 p); new_end NMetadata (span_ 2 3 p)]
  | _ => False
  end.
Proof. vm_compute. repeat split. Qed.

(** src/op/metadata.rs line 76 *)
Example t_op_metadata_only_opening_token :
  match run_p [] (Parser.metadata) (s_ "---") with
  | Ok (b, p) => b = false
      /\ ops p = []
      /\ pos p = 0 /\ peek p = Some (token_new Minus 0 3 (mk_pos 0 0 0))
  | _ => False
  end.
Proof. vm_compute. repeat split. Qed.

(** src/op/mod.rs line 551 *)
Example t_op_mod_escape :
  parse ([175%N] ++ s_ "\\\_(" ++ [12484%N] ++ s_ ")\_/" ++ [175%N]) = Ok [new_start NDocument (Span 0 0); new_start NParagraph (Span 0 0); new_value (Materialized ([175%N] ++ s_ "\_(" ++ [12484%N] ++ s_ ")_/" ++ [175%N])); new_end NParagraph (Span 0 0); new_end NDocument (Span 0 0)].
Proof. vm_compute. repeat split. Qed.

(** src/op/strikethrough.rs line 36 *)
Example t_op_strikethrough_happy_path :
  match run_p [] (strikethrough) (s_ "~~happy~~") with
  | Ok (b, p) => b = true
      /\ ops p = [new_start NStrikethrough (span_ 0 1 p); new_value (span_ 1 2 p); new_end NStrikethrough (span_ 2 3 p)]
  | _ => False
  end.
Proof. vm_compute. repeat split. Qed.

(** src/op/strikethrough.rs line 50 *)
Example t_op_strikethrough_no_closing_token :
  match run_p [] (strikethrough) (s_ "~~happy") with
  | Ok (b, p) => b = false
      /\ ops p = []
      /\ pos p = 0 /\ peek p = Some (token_new Tilde 0 2 (mk_pos 0 0 0))
  | _ => False
  end.
Proof. vm_compute. repeat split. Qed.

(** src/op/strikethrough.rs line 61 *)
Example t_op_strikethrough_terminator :
  match run_p [StopTerminator] (strikethrough) (s_ "~~ha" ++ nl ++ nl ++ s_ "ppy~~") with
  | Ok (b, p) => b = false
      /\ ops p = []
      /\ pos p = 0 /\ peek p = Some (token_new Tilde 0 2 (mk_pos 0 0 0))
  | _ => False
  end.
Proof. vm_compute. repeat split. Qed.

(** src/op/thematic_break.rs line 27 *)
Example t_op_thematic_break_happy_path :
  match run_p [] (thematic_break) (s_ "-----") with
  | Ok (b, p) => b = true
      /\ ops p = [new_start NThematicBreak (Span 0 0); new_value (span_ 0 1 p); new_end NThematicBreak (Span 0 0)]
  | _ => False
  end.
Proof. vm_compute. repeat split. Qed.

(** src/op/to_yamd.rs line 490 *)
Example t_op_to_yamd_single_paragraph :
  deserialize (s_ "hello world") = Ok (yamd_new None [YParagraph [PText (s_ "hello world")]]).
Proof. vm_compute. repeat split. Qed.

(** src/op/to_yamd.rs line 504 *)
Example t_op_to_yamd_heading_with_anchor :
  deserialize (s_ "## heading [a](u) text") = Ok (yamd_new None [YHeading 2 [HText (s_ "heading "); HAnchor (s_ "a") (s_ "u"); HText (s_ " text")]]).
Proof. vm_compute. repeat split. Qed.

(** src/op/to_yamd.rs line 528 *)
Example t_op_to_yamd_bold_with_nested :
  deserialize (s_ "**~~happy~~ _path_**") = Ok (yamd_new None [YParagraph [PBold [BStrike (s_ "happy"); BText (s_ " "); BItalic (s_ "path")]]]).
Proof. vm_compute. repeat split. Qed.

(** src/op/to_yamd.rs line 549 *)
Example t_op_to_yamd_code_block :
  deserialize (s_ "```rust" ++ nl ++ s_ "let a=1;" ++ nl ++ s_ "```") = Ok (yamd_new None [code_new (s_ "rust") (s_ "let a=1;")]).
Proof. vm_compute. repeat split. Qed.

(** src/op/to_yamd.rs line 560 *)
Example t_op_to_yamd_single_image :
  deserialize (s_ "![alt](src)") = Ok (yamd_new None [YImage (mk_image (s_ "alt") (s_ "src"))]).
Proof. vm_compute. repeat split. Qed.

(** src/op/to_yamd.rs line 571 *)
Example t_op_to_yamd_multiple_images :
  deserialize (s_ "![a](u)" ++ nl ++ s_ "![a2](u2)") = Ok (yamd_new None [YImages [mk_image (s_ "a") (s_ "u"); mk_image (s_ "a2") (s_ "u2")]]).
Proof. vm_compute. repeat split. Qed.

(** src/op/to_yamd.rs line 585 *)
Example t_op_to_yamd_highlight_with_icon :
  deserialize (s_ "!! Title" ++ nl ++ s_ "! Icon" ++ nl ++ s_ "text" ++ nl ++ s_ "!!") = Ok (yamd_new None [YHighlight (Some ((s_ "Title"))) (Some ((s_ "Icon"))) [[PText (s_ "text")]]]).
Proof. vm_compute. repeat split. Qed.

(** src/op/to_yamd.rs line 606 *)
Example t_op_to_yamd_unordered_list_nested :
  deserialize (s_ "- one" ++ nl ++ s_ " - two") = Ok (yamd_new None [YListNode (YList LUnordered 0 [YItem [PText (s_ "one")] (Some ((YList LUnordered 1 [YItem [PText (s_ "two")] None])))])]).
Proof. vm_compute. repeat split. Qed.

(** src/op/to_yamd.rs line 634 *)
Example t_op_to_yamd_three_level_nested_list :
  deserialize (s_ "- L0" ++ nl ++ s_ " - L1" ++ nl ++ s_ "  - L2") = Ok (yamd_new None [YListNode (YList LUnordered 0 [YItem [PText (s_ "L0")] (Some ((YList LUnordered 1 [YItem [PText (s_ "L1")] (Some ((YList LUnordered 2 [YItem [PText (s_ "L2")] None])))])))])]).
Proof. vm_compute. repeat split. Qed.

(** src/op/to_yamd.rs line 669 *)
Example t_op_to_yamd_embed_node :
  deserialize (s_ "{{youtube|123}}") = Ok (yamd_new None [YEmbed (s_ "youtube") (s_ "123")]).
Proof. vm_compute. repeat split. Qed.

(** src/op/to_yamd.rs line 680 *)
Example t_op_to_yamd_collapsible_empty :
  deserialize (s_ "{% collapsible" ++ nl ++ nl ++ s_ "%}") = Ok (yamd_new None [YCollapsible (s_ "collapsible") []]).
Proof. vm_compute. repeat split. Qed.

(** src/op/to_yamd.rs line 691 *)
Example t_op_to_yamd_thematic_break :
  deserialize (s_ "-----") = Ok (yamd_new None [YThematicBreak]).
Proof. vm_compute. repeat split. Qed.

(** src/op/to_yamd.rs line 699 *)
Example t_op_to_yamd_metadata_test :
  deserialize (s_ "---" ++ nl ++ s_ "title: test" ++ nl ++ s_ "---" ++ nl ++ nl ++ s_ "hello") = Ok (yamd_new (Some ((s_ "title: test"))) [YParagraph [PText (s_ "hello")]]).
Proof. vm_compute. repeat split. Qed.

(** src/op/to_yamd.rs line 713 *)
Example t_op_to_yamd_code_span_and_emphasis :
  deserialize (s_ "`code` *em*") = Ok (yamd_new None [YParagraph [PCodeSpan (s_ "code"); PText (s_ " "); PEmphasis (s_ "em")]]).
Proof. vm_compute. repeat split. Qed.

(** src/op/to_yamd.rs line 734 *)
Example t_op_to_yamd_full_document :
  deserialize (s_ "---" ++ nl ++ s_ "title: test" ++ nl ++ s_ "date: 2022-01-01T00:00:00+02:00" ++ nl ++ s_ "image: image" ++ nl ++ s_ "preview: preview" ++ nl ++ s_ "tags:" ++ nl ++ s_ "- tag1" ++ nl ++ s_ "- tag2" ++ nl ++ s_ "---" ++ nl ++ nl ++ s_ "# hello" ++ nl ++ nl ++ s_ "```rust" ++ nl ++ s_ "let a=1;" ++ nl ++ s_ "```" ++ nl ++ nl ++ s_ "t**b**" ++ nl ++ nl ++ s_ "![a](u)" ++ nl ++ nl ++ s_ "![a](u)" ++ nl ++ s_ "![a2](u2)" ++ nl ++ nl ++ s_ "!! H" ++ nl ++ s_ "! I" ++ nl ++ s_ "~~s~~" ++ nl ++ nl ++ s_ "_I_" ++ nl ++ s_ "!!" ++ nl ++ nl ++ s_ "-----" ++ nl ++ nl ++ s_ "- one" ++ nl ++ s_ " - two" ++ nl ++ nl ++ s_ "+ first" ++ nl ++ s_ " + second" ++ nl ++ nl ++ s_ "{{youtube|123}}" ++ nl ++ nl ++ s_ "{{cloudinary_gallery|cloud_name&tag}}" ++ nl ++ nl ++ s_ "{% collapsible" ++ nl ++ nl ++ s_ "%}" ++ nl ++ nl ++ s_ "{% one more collapsible" ++ nl ++ nl ++ s_ "%}" ++ nl ++ nl ++ s_ "+" ++ nl ++ nl ++ s_ "-" ++ nl ++ nl ++ s_ "![](" ++ nl ++ nl ++ s_ "```" ++ nl ++ nl ++ s_ "end") = Ok (yamd_new (Some ((s_ "title: test" ++ nl ++ s_ "date: 2022-01-01T00:00:00+02:00" ++ nl ++ s_ "image: image" ++ nl ++ s_ "preview: preview" ++ nl ++ s_ "tags:" ++ nl ++ s_ "- tag1" ++ nl ++ s_ "- tag2"))) [YHeading 1 [HText (s_ "hello")]; code_new (s_ "rust") (s_ "let a=1;"); YParagraph [PText (s_ "t"); PBold [BText (s_ "b")]]; YImage (mk_image (s_ "a") (s_ "u")); YImages [mk_image (s_ "a") (s_ "u"); mk_image (s_ "a2") (s_ "u2")]; YHighlight (Some ((s_ "H"))) (Some ((s_ "I"))) [[PStrike (s_ "s")]; [PItalic (s_ "I")]]; YThematicBreak; YListNode (YList LUnordered 0 [YItem [PText (s_ "one")] (Some ((YList LUnordered 1 [YItem [PText (s_ "two")] None])))]); YListNode (YList LOrdered 0 [YItem [PText (s_ "first")] (Some ((YList LOrdered 1 [YItem [PText (s_ "second")] None])))]); YEmbed (s_ "youtube") (s_ "123"); YEmbed (s_ "cloudinary_gallery") (s_ "cloud_name&tag"); YCollapsible (s_ "collapsible") []; YCollapsible (s_ "one more collapsible") []; YParagraph [PText (s_ "+")]; YParagraph [PText (s_ "-")]; YParagraph [PText (s_ "![](")]; YParagraph [PText (s_ "```")]; YParagraph [PText (s_ "end")]]).
Proof. vm_compute. repeat split. Qed.

(** src/op/to_yamd.rs line 865 *)
Example t_op_to_yamd_multiple_fallbacks_in_a_row :
  deserialize (s_ "1" ++ nl ++ nl ++ s_ "2" ++ nl ++ nl ++ s_ "3") = Ok (yamd_new None [YParagraph [PText (s_ "1")]; YParagraph [PText (s_ "2")]; YParagraph [PText (s_ "3")]]).
Proof. vm_compute. repeat split. Qed.

(** src/op/to_yamd.rs line 883 *)
Example t_op_to_yamd_multiple_fallbacks_before_non_fallback :
  deserialize (s_ "1" ++ nl ++ nl ++ s_ "2" ++ nl ++ nl ++ s_ "3" ++ nl ++ nl ++ s_ "# header") = Ok (yamd_new None [YParagraph [PText (s_ "1")]; YParagraph [PText (s_ "2")]; YParagraph [PText (s_ "3")]; YHeading 1 [HText (s_ "header")]]).
Proof. vm_compute. repeat split. Qed.

(** src/op/to_yamd.rs line 902 *)
Example t_op_to_yamd_node_should_start_from_delimiter :
  deserialize (s_ "text - text") = Ok (yamd_new None [YParagraph [PText (s_ "text - text")]]).
Proof. vm_compute. repeat split. Qed.

(** src/op/to_yamd.rs line 916 *)
Example t_op_to_yamd_collapsible_with_body :
  deserialize (s_ "{% title" ++ nl ++ nl ++ s_ "paragraph text" ++ nl ++ nl ++ s_ "%}") = Ok (yamd_new None [YCollapsible (s_ "title") [YParagraph [PText (s_ "paragraph text")]]]).
Proof. vm_compute. repeat split. Qed.

(** src/op/to_yamd.rs line 936 *)
Example t_op_to_yamd_ordered_list_nested :
  deserialize (s_ "+ one" ++ nl ++ s_ " + two") = Ok (yamd_new None [YListNode (YList LOrdered 0 [YItem [PText (s_ "one")] (Some ((YList LOrdered 1 [YItem [PText (s_ "two")] None])))])]).
Proof. vm_compute. repeat split. Qed.

(** src/op/to_yamd.rs line 964 *)
Example t_op_to_yamd_strikethrough_in_bold :
  deserialize (s_ "**~~text~~**") = Ok (yamd_new None [YParagraph [PBold [BStrike (s_ "text")]]]).
Proof. vm_compute. repeat split. Qed.

(** src/op/to_yamd.rs line 983 *)
Example t_op_to_yamd_italic_in_bold :
  deserialize (s_ "**_text_**") = Ok (yamd_new None [YParagraph [PBold [BItalic (s_ "text")]]]).
Proof. vm_compute. repeat split. Qed.

(** src/op/to_yamd.rs line 1002 *)
Example t_op_to_yamd_highlight_without_icon :
  deserialize (s_ "!! Title" ++ nl ++ s_ "text" ++ nl ++ s_ "!!") = Ok (yamd_new None [YHighlight (Some ((s_ "Title"))) None [[PText (s_ "text")]]]).
Proof. vm_compute. repeat split. Qed.

(** src/op/to_yamd.rs line 1023 *)
Example t_op_to_yamd_empty_input :
  deserialize [] = Ok (yamd_new None []).
Proof. vm_compute. repeat split. Qed.

(** src/op/to_yamd.rs line 1031 *)
Example t_op_to_yamd_utf8_content :
  deserialize (s_ "## " ++ [129300%N] ++ nl ++ nl ++ s_ "[link " ++ [128521%N] ++ s_ "](url)") = Ok (yamd_new None [YHeading 2 [HText ([129300%N])]; YParagraph [PAnchor (s_ "link " ++ [128521%N]) (s_ "url")]]).
Proof. vm_compute. repeat split. Qed.

(** tests/round_trip.rs line 26 *)
Example t_tests_round_trip_highlight_body_with_double_bang :
  deserialize (display_yamd (yamd_new None [YHighlight (Some ((s_ "title"))) (Some ((s_ "icon"))) [[PText (s_ "body with !! inside")]]])) = Ok (yamd_new None [YHighlight (Some ((s_ "title"))) (Some ((s_ "icon"))) [[PText (s_ "body with !! inside")]]]).
Proof. vm_compute. repeat split. Qed.

(** tests/round_trip.rs line 40 *)
Example t_tests_round_trip_paragraph_text_with_terminator :
  deserialize (display_yamd (yamd_new None [YParagraph [PText (s_ "text" ++ nl ++ nl ++ s_ "more")]])) = Ok (yamd_new None [YParagraph [PText (s_ "text" ++ nl ++ nl ++ s_ "more")]]).
Proof. vm_compute. repeat split. Qed.

(** tests/round_trip.rs line 45 *)
Example t_tests_round_trip_paragraph_text_with_backslash :
  deserialize (display_yamd (yamd_new None [YParagraph [PText (s_ "text \ more")]])) = Ok (yamd_new None [YParagraph [PText (s_ "text \ more")]]).
Proof. vm_compute. repeat split. Qed.

(** tests/round_trip.rs line 50 *)
Example t_tests_round_trip_paragraph_text_with_double_backslash :
  deserialize (display_yamd (yamd_new None [YParagraph [PText (s_ "text \\ more")]])) = Ok (yamd_new None [YParagraph [PText (s_ "text \\ more")]]).
Proof. vm_compute. repeat split. Qed.

(** tests/round_trip.rs line 55 *)
Example t_tests_round_trip_paragraph_text_with_special_chars :
  deserialize (display_yamd (yamd_new None [YParagraph [PText (s_ "**not bold** _not italic_")]])) = Ok (yamd_new None [YParagraph [PText (s_ "**not bold** _not italic_")]]).
Proof. vm_compute. repeat split. Qed.

(** tests/round_trip.rs line 62 *)
Example t_tests_round_trip_list_item_text_with_dash_after_newline :
  deserialize (display_yamd (yamd_new None [YListNode (YList LUnordered 0 [YItem [PText (s_ "first" ++ nl ++ s_ "- second")] None])])) = Ok (yamd_new None [YListNode (YList LUnordered 0 [YItem [PText (s_ "first" ++ nl ++ s_ "- second")] None])]).
Proof. vm_compute. repeat split. Qed.

(** tests/round_trip.rs line 77 *)
Example t_tests_round_trip_list_item_text_with_plus_after_newline :
  deserialize (display_yamd (yamd_new None [YListNode (YList LOrdered 0 [YItem [PText (s_ "first" ++ nl ++ s_ "+ second")] None])])) = Ok (yamd_new None [YListNode (YList LOrdered 0 [YItem [PText (s_ "first" ++ nl ++ s_ "+ second")] None])]).
Proof. vm_compute. repeat split. Qed.

(** tests/round_trip.rs line 92 *)
Example t_tests_round_trip_empty_string_italic :
  deserialize (display_yamd (yamd_new None [YParagraph [PItalic []]])) = Ok (yamd_new None [YParagraph [PItalic []]]).
Proof. vm_compute. repeat split. Qed.

(** tests/round_trip.rs line 97 *)
Example t_tests_round_trip_empty_string_bold :
  display_par_node (PBold [BText []]) = [].
Proof. vm_compute. repeat split. Qed.

(** tests/round_trip.rs line 103 *)
Example t_tests_round_trip_empty_string_code_span :
  display_par_node (PCodeSpan []) = [].
Proof. vm_compute. repeat split. Qed.

(** tests/round_trip.rs line 109 *)
Example t_tests_round_trip_unicode_emoji_in_paragraph :
  deserialize (display_yamd (yamd_new None [YParagraph [PText (s_ "hello " ++ [129300%N] ++ s_ " world " ++ [127881%N])]])) = Ok (yamd_new None [YParagraph [PText (s_ "hello " ++ [129300%N] ++ s_ " world " ++ [127881%N])]]).
Proof. vm_compute. repeat split. Qed.

(** tests/round_trip.rs line 114 *)
Example t_tests_round_trip_unicode_emoji_in_heading :
  deserialize (display_yamd (yamd_new None [YHeading 1 [HText (s_ "hello " ++ [129300%N])]])) = Ok (yamd_new None [YHeading 1 [HText (s_ "hello " ++ [129300%N])]]).
Proof. vm_compute. repeat split. Qed.

(** tests/round_trip.rs line 119 *)
Example t_tests_round_trip_backslash_at_end_of_text :
  deserialize (display_yamd (yamd_new None [YParagraph [PText (s_ "text ending with \")]])) = Ok (yamd_new None [YParagraph [PText (s_ "text ending with \")]]).
Proof. vm_compute. repeat split. Qed.

(** tests/round_trip.rs line 124 *)
Example t_tests_round_trip_consecutive_special_chars :
  deserialize (display_yamd (yamd_new None [YParagraph [PText (s_ "***___~~~```###!!!")]])) = Ok (yamd_new None [YParagraph [PText (s_ "***___~~~```###!!!")]]).
Proof. vm_compute. repeat split. Qed.

(** tests/round_trip.rs line 129 *)
Example t_tests_round_trip_metadata_round_trip :
  deserialize (display_yamd (yamd_new (Some ((s_ "key: value" ++ nl ++ s_ "title: test"))) [YParagraph [PText (s_ "body")]])) = Ok (yamd_new (Some ((s_ "key: value" ++ nl ++ s_ "title: test"))) [YParagraph [PText (s_ "body")]]).
Proof. vm_compute. repeat split. Qed.

(** tests/round_trip.rs line 138 *)
Example t_tests_round_trip_metadata_with_triple_dash :
  deserialize (display_yamd (yamd_new (Some ((s_ "key: ---value"))) [YParagraph [PText (s_ "body")]])) = Ok (yamd_new (Some ((s_ "key: ---value"))) [YParagraph [PText (s_ "body")]]).
Proof. vm_compute. repeat split. Qed.

(** tests/round_trip.rs line 147 *)
Example t_tests_round_trip_full_document_round_trip :
  deserialize (display_yamd (yamd_new (Some ((s_ "title: test"))) [YHeading 1 [HText (s_ "Title")]; YParagraph [PText (s_ "Hello "); PBold [BText (s_ "bold")]; PText (s_ " and "); PItalic (s_ "italic")]; code_new (s_ "rust") (s_ "fn main() {}"); YThematicBreak; YListNode (YList LUnordered 0 [YItem [PText (s_ "item 1")] None; YItem [PText (s_ "item 2")] None])])) = Ok (yamd_new (Some ((s_ "title: test"))) [YHeading 1 [HText (s_ "Title")]; YParagraph [PText (s_ "Hello "); PBold [BText (s_ "bold")]; PText (s_ " and "); PItalic (s_ "italic")]; code_new (s_ "rust") (s_ "fn main() {}"); YThematicBreak; YListNode (YList LUnordered 0 [YItem [PText (s_ "item 1")] None; YItem [PText (s_ "item 2")] None])]).
Proof. vm_compute. repeat split. Qed.

(** tests/round_trip.rs line 176 *)
Example t_tests_round_trip_highlight_body_starts_with_list_marker :
  deserialize (display_yamd (yamd_new None [YHighlight (Some ((s_ "title"))) (Some ((s_ "icon"))) [[PText (s_ "- not a list")]]])) = Ok (yamd_new None [YHighlight (Some ((s_ "title"))) (Some ((s_ "icon"))) [[PText (s_ "- not a list")]]]).
Proof. vm_compute. repeat split. Qed.

(** tests/round_trip.rs line 190 *)
Example t_tests_round_trip_highlight_body_starts_with_heading_marker :
  deserialize (display_yamd (yamd_new None [YHighlight (Some ((s_ "title"))) (Some ((s_ "icon"))) [[PText (s_ "# not a heading")]]])) = Ok (yamd_new None [YHighlight (Some ((s_ "title"))) (Some ((s_ "icon"))) [[PText (s_ "# not a heading")]]]).
Proof. vm_compute. repeat split. Qed.

(** tests/round_trip.rs line 204 *)
Example t_tests_round_trip_collapsible_body_starts_with_highlight_marker :
  deserialize (display_yamd (yamd_new None [YCollapsible (s_ "title") [YParagraph [PText (s_ "!! not a highlight")]]])) = Ok (yamd_new None [YCollapsible (s_ "title") [YParagraph [PText (s_ "!! not a highlight")]]]).
Proof. vm_compute. repeat split. Qed.

(** tests/round_trip.rs line 217 *)
Example t_tests_round_trip_top_level_paragraph_starts_with_list_marker :
  deserialize (display_yamd (yamd_new None [YParagraph [PText (s_ "- not a list")]])) = Ok (yamd_new None [YParagraph [PText (s_ "- not a list")]]).
Proof. vm_compute. repeat split. Qed.

(** tests/round_trip.rs line 222 *)
Example t_tests_round_trip_top_level_paragraph_starts_with_highlight_marker :
  deserialize (display_yamd (yamd_new None [YParagraph [PText (s_ "!! not a highlight")]])) = Ok (yamd_new None [YParagraph [PText (s_ "!! not a highlight")]]).
Proof. vm_compute. repeat split. Qed.

(** tests/round_trip.rs line 229 *)
Example t_tests_round_trip_collapsible_body_starts_with_list_marker :
  deserialize (display_yamd (yamd_new None [YCollapsible (s_ "title") [YParagraph [PText (s_ "- not a list")]]])) = Ok (yamd_new None [YCollapsible (s_ "title") [YParagraph [PText (s_ "- not a list")]]]).
Proof. vm_compute. repeat split. Qed.
