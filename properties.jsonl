{"id": "C01", "title": "deserialize is total", "statement": "For every input, deserialize returns a document: no index/slice/insert goes out of bounds, no slice cuts a UTF-8 character, no debug_assert fires, no expect() fails and no parsing loop runs forever.", "quantifier": "every input string (any length, any Unicode scalar values)", "why_tests_cant": "Fuzzing samples inputs; absence of panics and termination must hold for all of them.", "anchors": ["src/lib.rs:deserialize", "src/op/mod.rs:parse", "src/op/parser.rs:Parser", "src/op/document.rs:document", "src/op/highlight.rs:highlight", "src/op/to_yamd.rs:to_yamd"]}
{"id": "C02", "title": "Lexer ranges are valid, ordered and non-empty", "statement": "Every token produced by Lexer has a non-empty byte range inside the input, both ends on character boundaries, its position.byte_index equals the start of its range, and ranges of successive tokens are disjoint and strictly increasing.", "quantifier": "every input string (any length, any Unicode scalar values) and every pair of successive tokens", "why_tests_cant": "Users slice the input by token ranges; one bad range on one input panics.", "anchors": ["src/lexer/mod.rs:Lexer", "src/lexer/token.rs:Token"]}
{"id": "C03", "title": "Lexer loses only escape backslashes", "statement": "Concatenating the text of all tokens gives the input with exactly the escaping backslashes removed (scan left to right: a backslash is dropped and the next character kept verbatim; a lone backslash at the very end is dropped).", "quantifier": "every input string (any length, any Unicode scalar values)", "why_tests_cant": "A conservation law over all inputs.", "anchors": ["src/lexer/mod.rs:Lexer::parse", "src/lexer/mod.rs:Lexer::emit_literal_if_started"]}
{"id": "C04", "title": "Escaping is context independent", "statement": "A character that follows an escaping backslash, whatever it is and wherever it stands, is the first character of a Literal token flagged escaped; conversely every token flagged escaped is a Literal that is immediately preceded by an escaping backslash, and a gap between two successive tokens is exactly one such backslash.", "quantifier": "every input string (any length, any Unicode scalar values) and every position of a backslash in it", "why_tests_cant": "README promises it for any character in any context.", "anchors": ["src/lexer/mod.rs:Lexer::parse", "src/lexer/token.rs:Token::escaped"]}
{"id": "C05", "title": "Token kinds describe token text", "statement": "For every token its text is exactly what the TokenKind documentation says: runs of one character for the 'one or more' kinds, exactly one fixed character / pair for the 'exactly one' kinds, one line ending for Eol, two line endings for Terminator, and a non-empty rest for Literal.", "quantifier": "every input string (any length, any Unicode scalar values) and every token", "why_tests_cant": "Parsers dispatch only on kind and length.", "anchors": ["src/lexer/token.rs:TokenKind", "src/lexer/mod.rs:Lexer::parse"]}
{"id": "C06", "title": "Maximal munch", "statement": "No two successive tokens without a gap have the same run kind, no two successive tokens are both Eol, no two gap-free successive tokens are unescaped Literals: the token stream is the unique maximal tokenisation described by a small lexical grammar.", "quantifier": "every input string (any length, any Unicode scalar values)", "why_tests_cant": "Delimiter lengths (2 stars, 3 backticks, 5 dashes) are only meaningful if runs are maximal for every input.", "anchors": ["src/lexer/mod.rs:Lexer::take_while", "src/lexer/mod.rs:Lexer::eol"]}
{"id": "C07", "title": "Token positions", "statement": "position.row of a token is the number of unescaped line endings before it and position.column is the number of characters between the last unescaped line ending and the token, not counting escaping backslashes; in particular column 0 means first token or token right after Eol/Terminator.", "quantifier": "every input string (any length, any Unicode scalar values) and every token", "why_tests_cant": "Block recognition relies on column 0.", "anchors": ["src/lexer/mod.rs:Lexer::next_char", "src/lexer/mod.rs:Lexer::eol", "src/lexer/token.rs:Position"]}
{"id": "C08", "title": "Lexer iterator protocol", "statement": "Calling next() repeatedly yields finitely many tokens, no more than the input has characters, then None for ever.", "quantifier": "every input string (any length, any Unicode scalar values) and every number of next() calls", "why_tests_cant": "History property of a stateful iterator.", "anchors": ["src/lexer/mod.rs:Iterator for Lexer"]}
{"id": "C09", "title": "parse emits balanced events", "statement": "In the op stream of parse, every End closes the most recently opened Start of the same node and nothing stays open.", "quantifier": "every input string (any length, any Unicode scalar values)", "why_tests_cant": "Backtracking (truncate/insert) must restore balance on every path; the repo test checks one document.", "anchors": ["src/op/mod.rs:parse", "src/op/parser.rs:Parser::ops", "src/op/paragraph.rs:paragraph", "src/op/list.rs:list_inner", "src/op/images.rs:images"]}
{"id": "C10", "title": "parse emits only the documented nestings", "statement": "In the op stream every node occurs only under the parents the node documentation allows (e.g. Bold contains only text, Italic, Strikethrough; Heading only text and Anchor; Anchor is Title then Destination; Highlight is optional Modifier, optional Icon, then Paragraphs; list items hold one Paragraph and at most one nested list).", "quantifier": "every input string (any length, any Unicode scalar values)", "why_tests_cant": "Consumers of the stream and to_yamd rely on it for all inputs.", "anchors": ["src/op/mod.rs:Node", "src/op/*.rs"]}
{"id": "C11", "title": "Source bytes are covered exactly once by the op stream", "statement": "Reading the content of all ops of parse in order gives the whole source, each byte exactly once, without the escaping backslashes. (As stated in the repo test all_source_bytes_are_covered_exactly_once.) Exact truth to be settled: which bytes, if any, are missing.", "quantifier": "every input string (any length, any Unicode scalar values)", "why_tests_cant": "The repo test checks one hand-written document.", "anchors": ["src/op/mod.rs:all_source_bytes_are_covered_exactly_once", "src/op/collapsible.rs:collapsible"]}
{"id": "C12", "title": "Spans in the op stream are valid and ordered", "statement": "Every Content::Span in the stream of parse is a valid character-aligned byte range of the input, and the non-empty spans come in increasing, non-overlapping order.", "quantifier": "every input string (any length, any Unicode scalar values)", "why_tests_cant": "Users slice the source with them.", "anchors": ["src/op/parser.rs:Parser::span", "src/op/mod.rs:Content"]}
{"id": "C13", "title": "Contents are borrowed unless escaping forces a copy", "statement": "Content::as_str of an op equals the concatenated text of the tokens it stands for; a Materialized content occurs only if an escaping backslash lies inside it; so an input without backslash yields only Spans.", "quantifier": "every input string (any length, any Unicode scalar values)", "why_tests_cant": "Zero-copy and faithfulness claim for every op of every input.", "anchors": ["src/op/mod.rs:Content::from_tokens", "src/op/parser.rs:Parser::span"]}
{"id": "C14", "title": "Start/End ops carry exactly the delimiters", "statement": "In the stream of parse the text of Start/End ops is the node's delimiter: ** for Bold, _ for Italic, ~~, `, *, [ ], ( ), ! for Image, {{ and }}, ```, !!, {% and %} (plus at most the following space or line ending), 1-6 # and one space for Heading, indentation + marker + one space for ListItem.", "quantifier": "every input string (any length, any Unicode scalar values) and every op", "why_tests_cant": "Editors/formatters highlight delimiters from the stream.", "anchors": ["src/op/*.rs"]}
{"id": "C15", "title": "Shape of the whole stream, metadata only in front", "statement": "The stream of parse is one Document, optionally preceded by one Metadata; Metadata appears nowhere else and only if the input starts with a run of exactly three dashes.", "quantifier": "every input string (any length, any Unicode scalar values)", "why_tests_cant": "For all inputs.", "anchors": ["src/op/mod.rs:parse", "src/op/metadata.rs:metadata"]}
{"id": "C16", "title": "try_to_yamd accepts exactly the depth-balanced streams", "statement": "For any hand-built stream whose spans are valid, try_to_yamd returns Ok iff no prefix has more Ends than Starts and the totals agree; otherwise it returns Err(UnbalancedOpStream); it never panics.", "quantifier": "every finite op sequence over all node kinds, every source", "why_tests_cant": "Unit tests try one unbalanced stream.", "anchors": ["src/op/to_yamd.rs:try_to_yamd"]}
{"id": "C17", "title": "try_to_yamd rejects an End that does not match its Start", "statement": "(Documented on UnbalancedOpStream.) A stream with an End whose node differs from the Start it closes is rejected.", "quantifier": "every finite op sequence", "why_tests_cant": "Documented contract over all hand-built streams.", "anchors": ["src/op/to_yamd.rs:UnbalancedOpStream", "src/op/to_yamd.rs:try_to_yamd"]}
{"id": "C18", "title": "to_yamd drops nothing of a parsed stream", "statement": "On the stream of parse none of the silent catch-all arms of to_yamd is ever taken: a strict variant that fails in every such arm gives the same document.", "quantifier": "every input string (any length, any Unicode scalar values)", "why_tests_cant": "The 'coverage: defensive catchall' comments claim unreachability for all inputs.", "anchors": ["src/op/to_yamd.rs:try_to_yamd"]}
{"id": "C19", "title": "Heading level is 1 to 6", "statement": "Every Heading in a deserialized document has level 1..6 equal to the number of # in front of it.", "quantifier": "every input string (any length, any Unicode scalar values) and every heading at any nesting", "why_tests_cant": "as u8 truncation and level bounds must hold for all inputs.", "anchors": ["src/op/heading.rs:is_hash", "src/op/to_yamd.rs:extract_heading_level"]}
{"id": "C20", "title": "List levels", "statement": "In a deserialized document every list is non-empty, outermost lists have level 0, the nested list of an item has level one more than the list of the item.", "quantifier": "every input string (any length, any Unicode scalar values) and every list at any nesting", "why_tests_cant": "Recursive structure of unbounded depth.", "anchors": ["src/op/list.rs:list_inner", "src/op/to_yamd.rs:count_list_depth"]}
{"id": "C21", "title": "Images groups at least two", "statement": "A deserialized Images node holds at least two images (one image is an Image).", "quantifier": "every input string (any length, any Unicode scalar values)", "why_tests_cant": "For all inputs.", "anchors": ["src/op/images.rs:images"]}
{"id": "C22", "title": "Trimmed code and metadata", "statement": "Deserialized Code.code never ends with a line feed; metadata neither starts nor ends with one; texts of list items and highlight paragraphs never end with one.", "quantifier": "every input string (any length, any Unicode scalar values)", "why_tests_cant": "For all inputs.", "anchors": ["src/op/to_yamd.rs:try_to_yamd", "src/nodes/code.rs:Code::new", "src/nodes/yamd.rs:Yamd::new"]}
{"id": "C23", "title": "Text nodes are non-empty and never adjacent", "statement": "In a deserialized document no Text node of a paragraph, bold or heading is empty and no two Text nodes stand next to each other.", "quantifier": "every input string (any length, any Unicode scalar values)", "why_tests_cant": "For all inputs and all backtracking paths.", "anchors": ["src/op/paragraph.rs:paragraph", "src/op/bold.rs:bold", "src/op/heading.rs:heading"]}
{"id": "C24", "title": "Inline nodes are in normal form", "statement": "Deserialized Emphasis, CodeSpan, Strikethrough are never empty, Bold always has content, and two nodes whose delimiters would fuse (star/star, tilde/tilde, backtick/backtick) are never adjacent.", "quantifier": "every input string (any length, any Unicode scalar values)", "why_tests_cant": "For all inputs.", "anchors": ["src/op/emphasis.rs", "src/op/code_span.rs", "src/op/strikethrough.rs", "src/op/bold.rs", "src/lexer/mod.rs:take_while"]}
{"id": "C25", "title": "A blank line always ends a paragraph or heading", "statement": "No text under Paragraph or Heading in the op stream contains a Terminator token (an unescaped blank line), at any nesting.", "quantifier": "every input string (any length, any Unicode scalar values)", "why_tests_cant": "Stop-condition stack discipline for all nestings.", "anchors": ["src/op/document.rs:document", "src/op/highlight.rs:highlight", "src/op/parser.rs:StopCondition"]}
{"id": "C26", "title": "Escaping everything yields plain text", "statement": "Putting a backslash in front of every character of any non-empty string (including line feeds, backslashes, markers) deserializes to one paragraph with one text node that is exactly that string.", "quantifier": "every non-empty string", "why_tests_cant": "README's escaping promise over all strings.", "anchors": ["src/lexer/mod.rs:Lexer::parse", "src/op/paragraph.rs:paragraph"]}
{"id": "C27", "title": "Plain text is itself", "statement": "A non-empty string without special characters and line endings deserializes to one paragraph with one text node equal to it, and serializes back to the same string.", "quantifier": "every string over non-special characters", "why_tests_cant": "Over all such strings.", "anchors": ["src/lib.rs:deserialize", "src/nodes/paragraph.rs"]}
{"id": "C28", "title": "Paragraph round-trip", "statement": "For a paragraph of inline nodes in normal form, deserialize(to_string()) gives the paragraph back, whatever special characters the texts contain.", "quantifier": "every list of inline nodes (text, bold with nested nodes, italic, strikethrough, emphasis, code span, anchor) in normal form, over all strings allowed by an explicit predicate", "why_tests_cant": "Escaping of every text in every neighbourhood; proptest samples single-node paragraphs.", "anchors": ["src/nodes/paragraph.rs", "src/nodes/bold.rs", "src/nodes/italic.rs", "src/nodes/emphasis.rs", "src/nodes/strikethrough.rs", "src/nodes/code_span.rs", "src/nodes/anchor.rs"]}
{"id": "C29", "title": "Heading round-trip", "statement": "Heading of level 1..6 with text and anchors round-trips, brackets included, unless a link [t](u) can be read from a text where it has none.", "quantifier": "all levels, all bodies allowed by an explicit predicate", "why_tests_cant": "All strings.", "anchors": ["src/nodes/heading.rs", "src/op/heading.rs"]}
{"id": "C30", "title": "Image and Images round-trip", "statement": "Image and Images (at least two) round-trip for all alt and src allowed by an explicit predicate.", "quantifier": "all lists of images", "why_tests_cant": "All strings and lengths.", "anchors": ["src/nodes/image.rs", "src/nodes/images.rs", "src/op/image.rs", "src/op/images.rs"]}
{"id": "C31", "title": "Code round-trip", "statement": "Code blocks round-trip for every lang and every code text that does not start or end with a line feed, including fences, backslashes and any delimiters inside.", "quantifier": "all lang/code strings allowed by an explicit predicate", "why_tests_cant": "All strings.", "anchors": ["src/nodes/code.rs", "src/op/code.rs"]}
{"id": "C32", "title": "Embed and ThematicBreak round-trip", "statement": "Embed round-trips for every kind and args; ThematicBreak round-trips.", "quantifier": "all strings allowed by an explicit predicate", "why_tests_cant": "All strings.", "anchors": ["src/nodes/embed.rs", "src/op/embed.rs", "src/nodes/thematic_break.rs"]}
{"id": "C33", "title": "Highlight round-trip", "statement": "Highlight with any combination of title/icon and any paragraphs, all but the first possibly empty, round-trips.", "quantifier": "all titles, icons and bodies allowed by an explicit predicate", "why_tests_cant": "All strings, lengths.", "anchors": ["src/nodes/highlight.rs", "src/op/highlight.rs"]}
{"id": "C34", "title": "List round-trip", "statement": "Lists of any depth and branching with levels matching the nesting round-trip.", "quantifier": "all list trees allowed by an explicit predicate", "why_tests_cant": "Unbounded recursion depth.", "anchors": ["src/nodes/list.rs", "src/nodes/list_item.rs", "src/op/list.rs"]}
{"id": "C35", "title": "Collapsible round-trip", "statement": "Collapsibles nested to any depth with arbitrary blocks inside round-trip.", "quantifier": "all trees allowed by an explicit predicate", "why_tests_cant": "Unbounded recursion depth.", "anchors": ["src/nodes/collapsible.rs", "src/op/collapsible.rs"]}
{"id": "C36", "title": "Metadata round-trip", "statement": "Metadata round-trips: deserialize(to_string()) returns the same metadata.", "quantifier": "every metadata string", "why_tests_cant": "All strings; Display does not escape metadata.", "anchors": ["src/nodes/yamd.rs", "src/op/metadata.rs"]}
{"id": "C37", "title": "Document round-trip", "statement": "deserialize(y.to_string()) == y for every document in normal form.", "quantifier": "every document: optional metadata, any number of blocks of all ten kinds, nested to any depth, satisfying an explicit decidable predicate", "why_tests_cant": "The README's headline promise; proptest samples it.", "anchors": ["src/nodes/yamd.rs", "src/lib.rs:deserialize"]}
{"id": "C38", "title": "Reformatting is stable", "statement": "deserialize(deserialize(s).to_string()) == deserialize(s) for every input s.", "quantifier": "every input string (any length, any Unicode scalar values)", "why_tests_cant": "Formatter idempotence for all inputs.", "anchors": ["src/lib.rs:deserialize", "src/nodes/*.rs:Display"]}
{"id": "C39", "title": "Fenced code is opaque to enclosing blocks", "statement": "A fence inside a collapsible is not ended by %}, !!, list markers or blank lines inside the code.", "quantifier": "every code text, every nesting depth", "why_tests_cant": "All strings.", "anchors": ["src/op/code.rs:code", "src/op/parser.rs:with_no_stops"]}
{"id": "C40", "title": "README precedence example", "statement": "The list item ``- `one\\n- two` `` is one item whose code span contains the line break and '- two' (README, Precedence).", "quantifier": "the README example and all of its shape", "why_tests_cant": "Documentation claim about all inputs of that shape.", "anchors": ["src/lib.rs", "src/op/list.rs", "src/op/parser.rs:at_list_boundary"]}
{"id": "C41", "title": "Nesting depth is unbounded and preserved", "statement": "For every n there is an input of linear length whose document nests n collapsibles, and it is parsed back with depth exactly n.", "quantifier": "every natural number n", "why_tests_cant": "Unbounded depth.", "anchors": ["src/op/collapsible.rs", "src/op/document.rs"]}
{"id": "C42", "title": "Joining documents", "statement": "The concatenation of two serialized normal-form documents with a blank line in between deserializes to the concatenation of the bodies.", "quantifier": "every pair of normal-form documents", "why_tests_cant": "All pairs.", "anchors": ["src/nodes/yamd.rs", "src/op/document.rs"]}
{"id": "C43", "title": "Unclosed constructs stay text", "statement": "A document has a Collapsible, Highlight, Code block, Embed or Metadata only if the source contains the corresponding closing delimiter as a token at the required place; otherwise everything is kept as text.", "quantifier": "every input string (any length, any Unicode scalar values)", "why_tests_cant": "All inputs.", "anchors": ["src/op/collapsible.rs", "src/op/highlight.rs", "src/op/code.rs", "src/op/embed.rs", "src/op/metadata.rs"]}
{"id": "C44", "title": "to_yamd gives every op stream its documented meaning", "statement": "A stream of ops has a meaning given by a grammar over its events (Start n ... End n with the children documented for n): a paragraph stands for its inline nodes in order, an anchor for its title text and destination text, a heading for the number of # in its Start, a list for its items at its nesting depth, a code block for its modifier and its text without final line feeds, a highlight for title, icon and paragraphs, and so on; text in several Value ops is joined in order; blank lines stand for nothing. Whenever a stream (parsed or hand-built) stands for a document, to_yamd returns exactly this document; the stream of parse stands for exactly one document, the one deserialize returns. Hand-built headings and embeds may carry any text: the level is then the number of leading # modulo 256, and kind and arguments are the first and the third value, empty if missing. Two streams one after the other stand for the blocks of both.", "quantifier": "every op stream over every source, and every input of parse", "why_tests_cant": "the relation between arbitrarily nested streams and documents is recursive; tests compare a few fixed documents, and round-trip tests cannot see a mistake made consistently in reading and writing", "anchors": ["src/op/to_yamd.rs: to_yamd, try_to_yamd, Frame", "src/op/mod.rs: Op, OpKind, Node", "src/nodes/*.rs"]}
{"id": "C45", "title": "The imperative parser equals a functional reference parser", "statement": "parse(source) returns exactly the flattened syntax trees of a parser that works on the list of tokens alone: without a cursor that is moved back, without a shared op list that is truncated and inserted into, and without re-scanning. In particular a failed attempt leaves no trace (no op, no moved cursor) other than a `{%` that is turned into text for good.", "quantifier": "every input string", "why_tests_cant": "backtracking bugs need particular combinations of a failed construct and what follows it", "anchors": ["src/op/parser.rs", "src/op/*.rs"]}
{"id": "C46", "title": "A node ends at the first closing token", "statement": "The text of a metadata block, link or image title, italic, strikethrough, emphasis, code span, the end of a bold, a code block, an embed, a modifier or an icon contains no token that would close the node: the node ends at the first closing token after its start.", "quantifier": "every input string, every such node of its op stream", "why_tests_cant": "greedy or lazy matching agree on documents with one closing delimiter", "anchors": ["src/op/bold.rs", "src/op/italic.rs", "src/op/code.rs", "src/op/embed.rs", "src/op/modifier.rs", "src/op/metadata.rs"]}
{"id": "C47", "title": "Images, code blocks and embeds end with their line", "statement": "When the parser emits an image, a code block or an embed, its closing delimiter is the last thing on its line: the node includes the line end, or a line end, a blank line or the end of input follows, or the next token starts a line.", "quantifier": "every input string, every such node", "why_tests_cant": "text after the closing delimiter is an unusual input", "anchors": ["src/op/image.rs", "src/op/code.rs", "src/op/embed.rs"]}
{"id": "C48", "title": "Block starts stand at the start of a line, modifiers do not", "statement": "Headings, thematic breaks, lists and list items start with a token at column 0; a modifier (title of a collapsible or highlight, language of a code block) starts on the line of the opening delimiter, so its first token is never at column 0.", "quantifier": "every input string, every such node", "why_tests_cant": "all positions of all markers in all contexts", "anchors": ["src/op/heading.rs", "src/op/thematic_break.rs", "src/op/list.rs", "src/op/modifier.rs"]}
{"id": "C49", "title": "Links end at the balancing parenthesis", "statement": "The destination of a link ends at the `)` that balances its `(`. Only if the source has no balancing `)` it ends at a `)` after which the same paragraph or heading has no further `)`.", "quantifier": "every input string, every link in a paragraph or heading", "why_tests_cant": "nested and unbalanced parentheses of any depth", "anchors": ["src/op/destination.rs", "src/op/anchor.rs"]}
{"id": "C50", "title": "Reformatting sources without escapes", "statement": "For a source without backslashes and carriage returns, the document is read back unchanged from its Display text if and only if the document has none of a few listed features (settled, Settled.v): a paragraph that starts like a heading of level 2 to 6 or that is written like a row of images, code or the first block of a collapsible or highlight that starts with a line feed, a highlight that is empty or starts with an empty paragraph, or a first highlight paragraph that looks like an icon line. Formatting such a document twice is formatting it once. A boolean test on the document decides the case.", "quantifier": "every source without backslash and CR, every document", "why_tests_cant": "all combinations of delimiters that delimit nothing and have to be escaped again", "anchors": ["src/lib.rs", "src/nodes/yamd.rs", "src/nodes/paragraph.rs", "src/nodes/list_item.rs", "src/op/mod.rs"]}
{"id": "C51", "title": "The parser sees shapes, not texts", "statement": "If the tokens of two sources agree in kind, in whether they start a line, and (for the repeated-character kinds) in length, then the two op streams have the same kinds in the same order, and corresponding ops stand for the same ranges of tokens.", "quantifier": "every pair of input strings", "why_tests_cant": "relates two runs of the parser on unboundedly many inputs; a test fixes the texts", "anchors": ["src/op/op.rs", "src/op/parser.rs", "src/op/mod.rs"]}
{"id": "C52", "title": "Windows line endings", "statement": "Replacing every line feed of a source by CR LF gives the same op kinds, and each op stands for the replaced text, provided the source has no carriage return and no escaped line feed. The document is not just the replaced one, because only line feeds are trimmed: code, list item texts, highlight paragraphs and metadata keep the line endings that would have been trimmed, but for the last line feed (and metadata also those in front). Without these it is exactly the document of the source with its line feeds replaced.", "quantifier": "every input string without CR and without escaped LF", "why_tests_cant": "every position of a line ending in every construct", "anchors": ["src/lexer/mod.rs", "src/op/mod.rs", "src/nodes/code.rs", "src/op/to_yamd.rs", "src/nodes/yamd.rs"]}
{"id": "C53", "title": "Replacing ordinary text", "statement": "Replacing each character without syntactic meaning by any nonempty string of such characters commutes with parsing (op by op), with deserialize and with Display: the outcome is the same document with the texts replaced.", "quantifier": "every input string, every document, every replacement of ordinary characters by nonempty ordinary strings", "why_tests_cant": "a statement about all contents and all byte lengths at once, i.e. that no code path looks at ordinary text or depends on its length", "anchors": ["src/lexer/mod.rs", "src/op/mod.rs", "src/op/to_yamd.rs", "src/nodes/mod.rs"]}
{"id": "C54", "title": "Offsets are UTF-8 byte offsets", "statement": "The slices of the model are the slices of the UTF-8 encoding (RFC 3629) of the source, and panic exactly where a Rust slice panics (out of range, or not at a character boundary). All token ranges and all nonempty op spans can be sliced in this sense.", "quantifier": "every string, every pair of offsets; every token and op of every input string", "why_tests_cant": "all mixtures of 1 to 4 byte characters at every offset", "anchors": ["src/lexer/mod.rs", "src/op/mod.rs"]}
{"id": "C55", "title": "Display escapes in one pass", "statement": "The text Display writes for any document is determined by a grammar in which every text is escaped in one pass from left to right: a fixed set of characters per kind of text gets a backslash, and a few patterns (blank lines, `%}`, `**`, `!!`, fences, list markers at line starts) get one. Taking the backslashes away gives the text again.", "quantifier": "every document, also hand-built ones that cannot be read back", "why_tests_cant": "the implementation is a chain of up to nine replacements whose order matters; all interactions of escapes", "anchors": ["src/nodes/paragraph.rs", "src/nodes/bold.rs", "src/nodes/anchor.rs", "src/nodes/code.rs", "src/nodes/embed.rs", "src/nodes/highlight.rs", "src/nodes/list.rs", "src/nodes/collapsible.rs", "src/nodes/yamd.rs"]}
{"id": "C56", "title": "The property tests for all values of their generators", "statement": "Every test of tests/round_trip_proptest.rs holds for every value its generators can produce, with the bounds on lengths dropped, except for the three whose generators contain headings: those hold when no heading text opens a link, and `[]()` is a generated heading text for which they fail.", "quantifier": "every generated text, URL, node, and document, of any length", "why_tests_cant": "proptest samples 256 values per run; the failing heading texts need the four pieces `[`, `]`, `(`, `)` in this order", "anchors": ["tests/round_trip_proptest.rs", "src/nodes/heading.rs"]}
{"id": "C57", "title": "No inline node is missed", "statement": "At no token of a text inside a paragraph, heading or bold node can an inline node be read up to the end of that paragraph, heading or bold node: no link `[…](…)`, no pair of `~~`, `_`, `` ` `` or `*`, and no pair of `**` without delimiters of nested nodes in between.", "quantifier": "every source, every text event inside a paragraph, heading or bold node, every token of the text", "why_tests_cant": "tests show that given nodes are found, not that every delimiter left in a text is really unpaired", "anchors": ["src/op/paragraph.rs", "src/op/heading.rs", "src/op/bold.rs", "src/op/anchor.rs", "src/op/destination.rs"]}
{"id": "C58", "title": "No block is missed", "statement": "From the tokens of a paragraph that stands in a document (top level or inside a collapsible) no heading, thematic break, list or sequence of image lines can be read, and from those tokens together with the rest of the source no code block, embed or highlight (embeds and highlights without a `%}` at the start of a line inside).", "quantifier": "every source, every paragraph of every document", "why_tests_cant": "tests show that given blocks are found; that no text which has the form of a block ever becomes a paragraph needs all sources", "anchors": ["src/op/document.rs", "src/op/paragraph.rs", "src/op/heading.rs", "src/op/code.rs", "src/op/embed.rs", "src/op/highlight.rs", "src/op/images.rs", "src/op/list.rs", "src/op/thematic_break.rs"]}
{"id": "C59", "title": "What the node documentation says", "statement": "The documentation of the nodes is true: empty emphasis, strikethrough, code span and bold nodes and groups of fewer than two images never survive a round trip; list items never start with whitespace; the arguments of an embed contain no blank line; every example in the tables is read as stated. Exact truth to be settled: the statements about empty nodes and short groups hold for every document; those about list items and embeds, one image example and one highlight example are false.", "quantifier": "every document that contains such a node anywhere; every example of the documentation", "why_tests_cant": "the claims say that no document of a kind is ever read back; the false ones have no test", "anchors": ["src/nodes/emphasis.rs", "src/nodes/strikethrough.rs", "src/nodes/code_span.rs", "src/nodes/bold.rs", "src/nodes/images.rs", "src/nodes/image.rs", "src/nodes/list_item.rs", "src/nodes/embed.rs", "src/nodes/yamd.rs"]}
{"id": "C60", "title": "Parts separated by a blank line are read on their own", "statement": "If a source is read as a document whose paragraphs do not begin like an unclosed block, and it does not end in a line break or an escaping backslash, then appending a blank line and any other source without metadata reads as the first document followed by the nodes of the second. The same for any number of parts. A leading blank line changes nothing for a source without metadata. Each condition is needed.", "quantifier": "all pairs of sources, all lists of sources", "why_tests_cant": "the parser backtracks over the rest of the input; tests compose only a few documents", "anchors": ["src/op/document.rs", "src/op/paragraph.rs", "src/op/parser.rs", "src/lexer/mod.rs", "src/op/to_yamd.rs"]}
{"id": "C61", "title": "Contents made of tokens", "statement": "Content::from_tokens is the concatenated text of any tokens that can be sliced, borrowed exactly if there are no gaps; Content::from agrees with it exactly if there are no gaps and otherwise includes what is between the tokens; is_empty holds exactly if as_str is empty; Parser::span's shortcut for slices without escaped tokens never changes the result; the names of token kinds differ.", "quantifier": "all sources, all token lists (not only those of the lexer), all contents, all slices of the tokens of any source", "why_tests_cant": "the unit tests try one slice with a gap and one without; the shortcut is sound only because of how the lexer marks escapes", "anchors": ["src/op/mod.rs", "src/op/parser.rs", "src/lexer/token.rs"]}
{"id": "C62", "title": "Machine integers do not overflow", "statement": "If usize can hold the length of the source in bytes, the lexer with overflow-checked usize additions (byte offsets, columns, rows, token ends) gives the same tokens and never panics; if there are at most i32::MAX tokens, the i32 counter of parentheses in destination never overflows, from any state of the parser; one token more can overflow it.", "quantifier": "all sources, all widths of usize, all parser states, all widths of the counter", "why_tests_cant": "an overflow needs sources of gigabytes", "anchors": ["src/lexer/mod.rs:61", "src/lexer/mod.rs:100", "src/lexer/mod.rs:120", "src/op/destination.rs:16"]}
{"id": "C63", "title": "No text is lost", "statement": "The text of the document (the strings its nodes hold, in the order of the source) is the source without escaping backslashes and without some delimiter characters: no other character is lost, added or moved. So the characters that are neither delimiters nor backslashes are exactly those of the source, in the same order, and the text is never longer than the source. Display keeps the ordinary characters of every document, also of one that no source gives, so formatting any document and reading it back never loses or moves an ordinary character.", "quantifier": "all sources; all documents", "why_tests_cant": "tests compare a few documents; a text lost in some rare nesting or fallback (an unclosed node, a trimmed title, an empty item) is not among them", "anchors": ["src/op/to_yamd.rs:1", "src/lib.rs:101", "src/nodes/yamd.rs:266"]}
{"id": "C64", "title": "Borders of blocks", "statement": "A paragraph, heading, image or group of images of the document reaches to an empty line or to the end of the source, a list also to a line that starts with a list marker; inside a collapsible they may end in front of a closing brace at the start of a line as well. Inside a collapsible no block except code and nested collapsibles holds a closing brace at the start of a line. Images, code blocks, embeds, highlights and collapsibles take the line ending behind them. The document of a collapsible starts at the start of a line, and the title line of a nested collapsible is not directly followed by a closing brace.", "quantifier": "all sources, every block of their op streams", "why_tests_cant": "needs every combination of a block with what follows it and with the nesting around it", "anchors": ["src/op/paragraph.rs:1", "src/op/image.rs:1", "src/op/images.rs:1", "src/op/list.rs:1", "src/op/embed.rs:1", "src/op/highlight.rs:1", "src/op/collapsible.rs:52"]}
{"id": "C65", "title": "No collapsible is missed", "statement": "No block other than a collapsible starts where a collapsible can be read: at a line that starts with {% followed by a space or the end of the line, when a later line starts with %} and no line between starts with {%, %} or three backticks (and the %} does not directly follow a title line). This holds for the blocks of the document and for the blocks in a collapsible, also after other collapsibles were tried and given up.", "quantifier": "all sources, every block of their op streams", "why_tests_cant": "a failed attempt at an outer collapsible turns tokens into text; needs every combination of failed attempts around a complete collapsible", "anchors": ["src/op/collapsible.rs:1", "src/op/document.rs:1", "src/op/modifier.rs:1"]}
{"id": "C66", "title": "Parsing takes polynomially many token reads, but not cubically many", "statement": "The parser with a counter of token reads (peek, get, eat, each stop condition tested by at_eof, the tokens of each span) gives the same result as the parser, and its count is at most 6000 (n+1)^6 for a source of n characters, and at most 6000 (n+1)^5 (1+b) if b of them are opening braces: turning the opening of a failed collapsible into text keeps backtracking from being exponential. No linear bound holds: n opening brackets take at least n*n/2 reads. No cubic bound holds either: m unclosed collapsible openings followed by k opening brackets take at least k(k-1)m(m+1)/4 reads.", "quantifier": "all sources; for the lower bounds all numbers of brackets and openings", "why_tests_cant": "a bound on the running time for all inputs; benchmarks only sample some sizes and shapes", "anchors": ["src/op/parser.rs:238", "src/op/parser.rs:256", "src/op/collapsible.rs:27", "src/op/document.rs:51", "src/op/highlight.rs:31", "src/op/list.rs:14"]}
{"id": "C67", "title": "What a failed attempt to read a collapsible block leaves behind is not seen, except through an empty block", "statement": "The parser turns the {% of a failed attempt to read a collapsible block into a literal, and keeps it so even if the attempt was part of an outer one that fails too and is parsed anew in another context. If no line that starts with {% and a space is directly followed by a line that starts with %}, then the result is that of a parser that changes no token and whose only context is whether it is inside of a collapsible block. Without that condition it is not: there is a source in which a block `{% C` + `%}` at the top level is a paragraph because of an abandoned attempt before it.", "quantifier": "all sources without an empty titled block; the counterexample is one source", "why_tests_cant": "the state is only seen through nested failed attempts whose contexts differ; the condition under which it is invisible needs a proof over all nestings", "anchors": ["src/op/collapsible.rs:27", "src/op/parser.rs:238", "src/op/document.rs:51", "src/op/modifier.rs:8"]}
{"id": "C68", "title": "The call stack of the parser is at most as high as the input has tokens, and no fixed height suffices", "statement": "The parser with a measure of its call stack (the largest number of calls of the four recursive functions document, collapsible, list and list item that are active at one time) gives the same result as the parser, and the height is at most three more than the number of tokens, so than the number of characters. No fixed bound holds: m unclosed openings of collapsible blocks, three bytes each, reach at least height 2m although the result has no collapsible block at all.", "quantifier": "all sources; for the lower bound all numbers of openings", "why_tests_cant": "a bound on the stack for all inputs, and a family of small flat documents whose stack grows without bound; tests only sample some depths", "anchors": ["src/op/document.rs:51", "src/op/collapsible.rs:27", "src/op/list.rs:14", "src/op/list.rs:54"]}
{"id": "C69", "title": "Writing a parsed document takes at most twice the size of its source", "statement": "For every source s, the text that Display writes for deserialize(s) has at most twice the bytes of s and at most twice the characters of s; the backslashes that escape characters in s count for nothing in the bound. The factor 2 is the best one: for every n of at least 3 there is a source of n characters that is written with exactly 2n.", "quantifier": "all sources; for the sharpness all n >= 3", "why_tests_cant": "the bound weighs all separators, markers and escapes that Display inserts against what the parser must have consumed, for every shape of document; tests compare single outputs", "anchors": ["src/nodes/yamd.rs:267", "src/nodes/paragraph.rs:158", "src/nodes/paragraph.rs:171", "src/lib.rs:101"]}
{"id": "C70", "title": "Op streams and documents are linear in the source", "statement": "For every source with t tokens, the op stream of parse has at most 3t+2 ops and the document of deserialize has at most t+1 nodes (structs and texts), so at most 3n+2 ops and n+1 nodes for n characters. Both factors are the best ones: for every m a source with m+4 tokens has 3m+7 ops, and a source with 2m+1 tokens has 2m+2 nodes.", "quantifier": "all sources; for the sharpness all m", "why_tests_cant": "that no input makes the parser emit more than a constant number of ops for a token (for instance empty paragraphs at one place) is about all inputs; tests measure single ones", "anchors": ["src/op/mod.rs:237", "src/op/parser.rs", "src/op/highlight.rs:53", "src/lib.rs:101"]}
{"id": "C71", "title": "The token statistics are exact", "statement": "For every readable file and every iteration order of the hash map, `token_stat` prints the number of tokens of the lexer, and a table that lists every kind that occurs exactly once with its exact number, larger numbers first, with all values beginning in column 22; it panics exactly if the file cannot be read or the path is not valid unicode. The output is determined when no two kinds occur equally often; with ties it is not (two orders of the map give two outputs).", "quantifier": "all files, paths and iteration orders", "why_tests_cant": "the utils crate has no tests, and the order of a std HashMap differs from run to run: a test sees one order of one file", "anchors": ["utils/src/commands/token_stat.rs:5", "utils/src/commands/token_stat.rs:37", "src/lexer/token.rs:55"]}
{"id": "C72", "title": "The random text has the length asked for, up to one piece", "statement": "For every sequence of random numbers, the text of `random(length, max_literal_len)` has at least `length` bytes and less than `length` plus the longest piece (4*(max-1) bytes for max >= 4, otherwise 2), is empty for length 0 and consists of valid characters. With max >= 4 there is no panic, and the loop ends once more than length*(max+1) of the numbers drawn are valid characters; with max <= 3 and length > 0 there are numbers that make `gen_range(3..max)` panic. Each of the 21 fixed pieces alone is one token of the kind with that number.", "quantifier": "all lengths, maxima and sequences of random numbers", "why_tests_cant": "the function draws from the thread's random generator: a test sees one sequence and cannot force the one that panics", "anchors": ["utils/src/commands/random.rs:4", "utils/src/commands/random.rs:34", "utils/src/commands/random.rs:63", "utils/src/main.rs:16"]}
{"id": "C73", "title": "Documents survive serde", "statement": "With the serde feature, every document is read back unchanged from the value it is written as, so different documents are written differently; reading any value ends with a document or an error, what is read can be written and read again, the order of map entries does not matter at any depth, and optional fields may be left out. Reading does not go through the constructors: there are values read as documents that no source deserializes to.", "quantifier": "all documents, all sources and all values", "why_tests_cant": "the derives are generated code without tests in the repository; a test serializes a few documents and cannot cover all nestings, values and orders of entries", "anchors": ["src/nodes/yamd.rs:12", "src/nodes/yamd.rs:253", "src/nodes/paragraph.rs:9", "src/nodes/heading.rs:70", "src/nodes/list.rs:9", "src/nodes/list_item.rs:30"]}
{"id": "C74", "title": "Exactly the tame documents survive formatting", "statement": "A document is tame if and only if the text Display writes for it has no carriage return and deserialize reads that very document back from it. So for every document written without a carriage return, a test that neither writes nor parses says whether it survives, and every document of a source without carriage returns survives formatting exactly if it is tame. The sources without carriage returns that formatting leaves as they are, character for character, are exactly the texts written for tame documents. Tame documents that are written the same are the same; documents that can be read but are not tame may be written the same.", "quantifier": "all documents: any metadata, any number of blocks of all ten kinds, nested to any depth, with any texts", "why_tests_cant": "a test finds single documents that survive or do not; that no survivor is missed by the predicate is a statement about all documents, including those no generator builds", "anchors": ["src/nodes/yamd.rs", "src/nodes/paragraph.rs", "src/nodes/heading.rs", "src/nodes/highlight.rs", "src/nodes/list.rs", "src/nodes/collapsible.rs", "src/nodes/images.rs", "src/lib.rs:deserialize"]}
{"id": "C75", "title": "No fixed number of formatting rounds is enough", "statement": "Formatting (reading a text and writing the document) always gives a text, but no fixed number of rounds reaches a text that stays the same: for every n there is a source of n+9 characters, without backslashes and carriage returns, whose first n formatted texts all differ and which stays from then on. Code loses the line feeds it starts with one in each round. The backslashes of metadata are halved in each round.", "quantifier": "all numbers of rounds; all tame code with any number of line feeds in front; all even numbers of backslashes", "why_tests_cant": "round trip tests format once or twice; that every fixed number of rounds is too small is a statement about all numbers", "anchors": ["src/nodes/code.rs", "src/op/code.rs", "src/op/modifier.rs", "src/nodes/yamd.rs", "src/op/metadata.rs", "src/lib.rs:deserialize"]}
{"id": "C76", "title": "The lexer is linear and its queue is small", "statement": "The lexer with a counter of character reads (calls of next and peek of the character iterator) gives the same tokens as the lexer, and reads between n+1 and 3n+2 times for an input of n characters. Between calls of next the queue of finished tokens holds at most one token, and inside a call at most two, the capacity it is created with, so it never grows.", "quantifier": "every input string; every state of the lexer reached by any number of calls of next", "why_tests_cant": "a benchmark measures single inputs; that no input makes the lexer read a character more than three times or queue a third token is a statement about all inputs", "anchors": ["src/lexer/mod.rs:Lexer::new", "src/lexer/mod.rs:next_char", "src/lexer/mod.rs:next_is", "src/lexer/mod.rs:take_while", "src/lexer/mod.rs:parse", "src/lexer/mod.rs:advance"]}
{"id": "C77", "title": "The documents that can be read, exactly", "statement": "deserialize returns a document for some text if and only if the document is normal: no empty texts, code spans, emphasis or strikethroughs, no empty bold, no neighbouring texts or neighbours whose delimiters would run together, no empty paragraph at any depth, no line feed at the end of a highlight paragraph, list item or code, headings of level 1 to 6, list levels counted from 0, at least two images in an image group, and no line feed around the metadata. Nothing else is required: titles, icons, links, embeds, languages and texts can hold any characters. Every normal document is read from one text, in which each character of a text is escaped, so this text loses nothing and differs for different documents.", "quantifier": "every document value; every input string for the other direction", "why_tests_cant": "a test can show that one document is reachable; that every normal document is, and that no input at all gives another one, covers infinitely many documents and infinitely many inputs", "anchors": ["src/lib.rs:deserialize", "src/op/to_yamd.rs:to_yamd", "src/op/mod.rs:parse", "src/nodes/yamd.rs:Yamd", "src/op/document.rs:document"]}
{"id": "C78", "title": "The token lists that can occur, exactly", "statement": "The lexer returns a token list for some text if and only if the list is made of pieces with a text of their kind of which no two neighbours clash. Two neighbours clash when the second is not escaped and they would be read differently together: a run followed by the same character, a literal followed by a literal or a space, a line ending followed by a line ending or a blank line, a single left brace followed by a percent sign, a percent sign or carriage return at the end of a literal followed by a right brace or a line feed. Writing the pieces one after the other is the only text for them, up to a lone backslash at the end. So tokens that stand next to each other, read on their own, are the same tokens, and the tokens of two texts are the tokens of the two together if and only if the last and the first do not clash and no dangling backslash meets anything but pairs of backslashes.", "quantifier": "every token list, every input string, every way to cut one", "why_tests_cant": "a test shows one text and its tokens; which of the infinitely many token lists occur, and at which of all cuts of all texts lexing can be done in parts, needs the whole automaton", "anchors": ["src/lexer/mod.rs:Lexer", "src/lexer/mod.rs:parse", "src/lexer/mod.rs:take_while", "src/lexer/mod.rs:eol", "src/lexer/token.rs:TokenKind"]}
{"id": "C79", "title": "Checked integer arithmetic never fails in the whole parser", "statement": "Take the lexer and every function of the parser with each addition and subtraction checked against the range of its type (positions, indexes, nesting levels and counts are usize, the counter of parentheses is i32) so that a result out of range panics. If usize can hold the number of bytes of the source and the source has at most 2^31 + 1 characters, this parser gives the same operations as the one with unbounded numbers, and deserialize the same document; it never panics. The bounds are exact: one byte more than usize can hold, or a link of 2^31 + 2 characters that only opens parentheses, overflows.", "quantifier": "all sources, all widths of usize, all ranges of the counter", "why_tests_cant": "an overflow needs a source of gigabytes, and the index that is about to overflow differs from one parser function to the next", "anchors": ["src/op/parser.rs:63", "src/op/parser.rs:102", "src/op/parser.rs:167", "src/op/parser.rs:175", "src/op/parser.rs:256", "src/op/list.rs:14", "src/op/images.rs:3", "src/op/destination.rs:10", "src/op/code.rs:18", "src/op/highlight.rs:53"]}
{"id": "C80", "title": "The exact length of text that nested blocks need", "statement": "If the document read from a source has a block with c collapsibles in one another around a list with d levels, then 12c + d*d + 5d <= 2n + 2, where n is the number of characters of the source, and even of the source without its escaping backslashes. For every c and d, not both 0, there is a source for which this is an equality. So n characters nest lists at most about the square root of 2n deep and collapsibles at most (n+1)/6 deep. The height of the document (lists and collapsibles in one another), so the recursion depth of whatever walks over it, is at most (n+7)/6, and for each height from 3 on there is a source that meets this.", "quantifier": "all sources, all numbers of collapsibles and list levels", "why_tests_cant": "tests try single depths; that no shorter text reaches a depth is a statement about all texts of that length", "anchors": ["src/op/list.rs:14", "src/op/list.rs:54", "src/op/collapsible.rs:27", "src/op/to_yamd.rs", "src/nodes/list.rs", "src/nodes/collapsible.rs"]}
{"id": "C81", "title": "Exactly the blank sources give the empty document", "statement": "deserialize gives the empty document, and formatting gives the empty text, exactly for the sources that are an even number of line breaks (each with or without a carriage return), possibly followed by one final backslash. A test that goes through the text once decides this. Content can still be lost by formatting: two paragraphs of one escaped line feed each are written as four line feeds which read as nothing. For sources without carriage returns an even number of such paragraphs is the only document that formatting loses entirely.", "quantifier": "all sources", "why_tests_cant": "that nothing but blank sources vanishes is a statement about every other text", "anchors": ["src/lib.rs:deserialize", "src/lexer/mod.rs", "src/op/document.rs", "src/nodes/yamd.rs"]}
