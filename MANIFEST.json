{"claims": [
 {"property": "C01", "status": "proved", "theorems": ["C01_deserialize_total", "C01_parse_total"], "note": "parse and deserialize; Display is a total function of the model; recursion depth is not modelled"},
 {"property": "C02", "status": "proved", "theorems": ["C02_lexer_ranges"], "note": "every input; boundary is stated on the list of characters"},
 {"property": "C03", "status": "proved", "theorems": ["C03_lexer_text"], "note": ""},
 {"property": "C04", "status": "proved", "theorems": ["C04_escaped_char", "C04_escaped_token", "C04_gaps"], "note": "both directions and the size of the gaps"},
 {"property": "C05", "status": "proved", "theorems": ["C05_token_kinds"], "note": ""},
 {"property": "C06", "status": "proved", "theorems": ["C06_lexer_is_grammar", "C06_maximal_munch"], "note": "the lexer equals a small lexical grammar; neighbouring tokens are maximal"},
 {"property": "C07", "status": "proved", "theorems": ["C07_positions", "C07_column_zero"], "note": ""},
 {"property": "C08", "status": "proved", "theorems": ["C08_iterator_protocol"], "note": ""},
 {"property": "C09", "status": "proved", "theorems": ["C09_balanced"], "note": ""},
 {"property": "C10", "status": "proved", "theorems": ["C10_document_type"], "note": "the document type is StreamSpec.v"},
 {"property": "C11", "status": "proved", "theorems": ["C11_coverage_refuted", "C11_coverage", "C11_coverage_exact"], "note": "refuted as stated in the repo test: the line ending before %} may be covered by no op; proved that nothing else is missing"},
 {"property": "C12", "status": "proved", "theorems": ["C12_spans"], "note": ""},
 {"property": "C13", "status": "proved", "theorems": ["C13_copies", "C13_no_copies"], "note": ""},
 {"property": "C14", "status": "proved", "theorems": ["C14_delimiters"], "note": ""},
 {"property": "C15", "status": "proved", "theorems": ["C15_stream_shape"], "note": ""},
 {"property": "C16", "status": "proved", "theorems": ["C16_try_to_yamd"], "note": "hypothesis: the contents that are read are valid slices; with a bad span slicing panics (Example hand_panics)"},
 {"property": "C17", "status": "proved", "theorems": ["C17_mismatch_refuted"], "note": "refuted: a mismatched End is accepted"},
 {"property": "C18", "status": "proved", "theorems": ["C18_nothing_dropped", "C18_strict"], "note": "Strict.v fails in every catch-all arm"},
 {"property": "C19", "status": "proved", "theorems": ["C19_heading_level", "C19_heading_hashes"], "note": ""},
 {"property": "C20", "status": "proved", "theorems": ["C20_list_levels"], "note": ""},
 {"property": "C21", "status": "proved", "theorems": ["C21_images"], "note": ""},
 {"property": "C22", "status": "proved", "theorems": ["C22_code_trimmed", "C22_metadata_trimmed", "C22_texts_trimmed", "C22_code_new", "C22_yamd_new"], "note": ""},
 {"property": "C23", "status": "proved", "theorems": ["C23_texts", "C23_bold_texts", "C23_heading_texts"], "note": ""},
 {"property": "C24", "status": "proved", "theorems": ["C24_inline"], "note": ""},
 {"property": "C25", "status": "proved", "theorems": ["C25_no_blank_line"], "note": "also for images, groups of images, thematic breaks, lists and list items; an embed can contain a blank line (C59)"},
 {"property": "C26", "status": "proved", "theorems": ["C26_escape_all"], "note": ""},
 {"property": "C27", "status": "proved", "theorems": ["C27_plain"], "note": "plain: no \\ * _ ~ ` [ { % LF CR anywhere, no # ! - + at the start"},
 {"property": "C28", "status": "proved", "theorems": ["C28_paragraph_refuted", "C28_paragraph"], "note": "proved for tame_paragraph (Tame.v); refuted without the condition on three line feeds"},
 {"property": "C29", "status": "proved", "theorems": ["C29_heading"], "note": "condition tame_heading: no text of the heading opens a link (opens_link), since Display does not escape [ there"},
 {"property": "C30", "status": "proved", "theorems": ["C30_image", "C30_images"], "note": ""},
 {"property": "C31", "status": "proved", "theorems": ["C31_code"], "note": "condition tame_code: no CR, code does not start or end with LF"},
 {"property": "C32", "status": "proved", "theorems": ["C32_embed", "C32_thematic_break"], "note": ""},
 {"property": "C33", "status": "proved", "theorems": ["C33_highlight"], "note": "condition tame_highlight"},
 {"property": "C34", "status": "proved", "theorems": ["C34_list"], "note": "condition tame_list; any depth"},
 {"property": "C35", "status": "proved", "theorems": ["C35_collapsible"], "note": "condition tame_block; any depth"},
 {"property": "C36", "status": "proved", "theorems": ["C36_metadata_refuted", "C36_metadata"], "note": "refuted as stated: Display does not escape metadata; proved for tame_meta"},
 {"property": "C37", "status": "proved", "theorems": ["C37_document", "C37_decidable", "C37_injective"], "note": "tame_doc is sufficient and decidable; by C74 it is necessary for documents written without CR"},
 {"property": "C38", "status": "proved", "theorems": ["C38_reformat_refuted", "C38_reformat"], "note": "refuted as stated, with ten kinds of inputs in PropRefuted.v; proved for tame documents"},
 {"property": "C39", "status": "proved", "theorems": ["C39_code_opaque"], "note": "any list of titles that Display writes as they are"},
 {"property": "C40", "status": "proved", "theorems": ["C40_precedence_refuted"], "note": "refuted: the parser gives two list items"},
 {"property": "C41", "status": "proved", "theorems": ["C41_depth"], "note": "length in characters"},
 {"property": "C42", "status": "proved", "theorems": ["C42_join"], "note": "both bodies non-empty, the second without metadata, the last block of the first does not end with LF"},
 {"property": "C43", "status": "proved", "theorems": ["C43_closed"], "note": "for every delimited node, inline ones too; that all text is kept is C11"},
 {"property": "C44", "status": "proved", "theorems": ["C44_to_yamd", "C44_parse", "C44_twice", "C44_hand_heading", "C44_hand_embed"], "note": "meaning of a stream as a grammar (Meaning.v), without a stack"},
 {"property": "C45", "status": "proved", "theorems": ["C45_reference"], "note": "fparse (FParser.v) is the reference"},
 {"property": "C46", "status": "proved", "theorems": ["C46_first_closer"], "note": "position given by the text the ops before stand for (covered)"},
 {"property": "C47", "status": "proved", "theorems": ["C47_line_end"], "note": ""},
 {"property": "C48", "status": "proved", "theorems": ["C48_line_start"], "note": ""},
 {"property": "C49", "status": "proved", "theorems": ["C49_destination"], "note": "nesting counts parenthesis tokens"},
 {"property": "C50", "status": "proved", "theorems": ["C50_tame", "C50_reformat", "C50_idempotent", "C50_stable_iff", "C50_decidable", "C50_stable_test"], "note": "raw sources; the document is read back from its text if and only if it is settled (Settled.v, decidable); PropRaw.v has sources on both sides"},
 {"property": "C51", "status": "proved", "theorems": ["C51_kinds", "C51_ranges"], "note": "alike, stands, in_order: ShapeSpec.v"},
 {"property": "C52", "status": "proved", "theorems": ["C52_ops", "C52_document_refuted", "C52_document", "C52_strip"], "note": "ops and documents; the naive document claim is refuted, the exact difference is proved (what is left over: WinSpec.v)"},
 {"property": "C53", "status": "proved", "theorems": ["C53_ops", "C53_document", "C53_display"], "note": "ordinary = not special, not space, percent sign, CR or LF"},
 {"property": "C54", "status": "proved", "theorems": ["C54_slice", "C54_panic", "C54_encoding", "C54_tokens", "C54_spans"], "note": "for all lists of code points; scalar values give bytes below 256"},
 {"property": "C55", "status": "proved", "theorems": ["C55_display", "C55_replace", "C55_unescape"], "note": "grammar in EscapeSpec.v"},
 {"property": "C56", "status": "proved", "theorems": ["C56_italic", "C56_emphasis", "C56_strikethrough", "C56_code_span", "C56_anchor", "C56_bold", "C56_image", "C56_code", "C56_embed", "C56_highlight", "C56_list", "C56_collapsible", "C56_heading_refuted", "C56_mixed_body_refuted", "C56_document_refuted", "C56_heading", "C56_mixed_body", "C56_document"], "note": "generators in GenSpec.v; the tests that generate headings are refuted by []() and proved for texts that open no link"},
 {"property": "C57", "status": "proved", "theorems": ["C57_none_missed"], "note": "what can be read is stated on the tokens of lex in MissSpec.v"},
 {"property": "C58", "status": "proved", "theorems": ["C58_no_block_missed"], "note": "the forms of the blocks are stated on the tokens of lex in MissSpec.v"},
 {"property": "C59", "status": "proved", "theorems": ["C59_empty_nodes", "C59_empty_display", "C59_short_images", "C59_one_image", "C59_list_item_refuted", "C59_list_item_tab_refuted", "C59_embed_blank_line_refuted", "C59_image_example_refuted", "C59_highlight_example_refuted"], "note": "`_empty_nodes`, `_empty_display`, `_short_images`, `_one_image` hold for all documents; the `_refuted` theorems give the inputs for the false sentences"},
 {"property": "C60", "status": "proved", "theorems": ["C60_parts_read_alone", "C60_parts_read", "C60_leading_blank", "C60_unclosed_code_refuted", "C60_unclosed_highlight_refuted", "C60_unclosed_collapsible_refuted", "C60_unclosed_embed_refuted", "C60_unclosed_metadata_refuted", "C60_escape_at_end_refuted", "C60_line_feed_at_end_refuted", "C60_carriage_return_at_end_refuted", "C60_second_metadata_refuted"], "note": "`_parts_read_alone`, `_parts_read`, `_leading_blank`; the `_refuted` theorems show that each condition is needed"},
 {"property": "C61", "status": "proved", "theorems": ["C61_from_tokens", "C61_from", "C61_from_text", "C61_is_empty", "C61_span", "C61_names"], "note": "the first four theorems hold for hand-made tokens as well"},
 {"property": "C62", "status": "proved", "theorems": ["C62_lexer", "C62_destination", "C62_destination_any_width", "C62_destination_longer_refuted", "C62_lexer_longer_refuted"], "note": "C62_destination_longer_refuted shows that the limit of 2^31 - 1 tokens is exact; the parser's other additions and subtractions are in C79"},
 {"property": "C63", "status": "proved", "theorems": ["C63_text_kept", "C63_ordinary_kept", "C63_no_longer", "C63_display", "C63_format"], "note": "the delimiter characters are line feed, carriage return, space and * _ ~ ` [ ] ( ) { } % ! # - + |; which of them are dropped is said by C45-C60, not by this property"},
 {"property": "C64", "status": "proved", "theorems": ["C64_block_end", "C64_block_in_collapsible", "C64_inner_document", "C64_line_ending", "C64_nested_title"], "note": ""},
 {"property": "C65", "status": "proved", "theorems": ["C65_no_collapsible_missed", "C65_no_nested_collapsible_missed"], "note": ""},
 {"property": "C66", "status": "proved", "theorems": ["C66_counted_parser", "C66_reads_polynomial", "C66_reads_braces", "C66_linear_reads_refuted", "C66_brackets_quadratic", "C66_unclosed_quartic", "C66_cubic_reads_refuted"], "note": "Counts token reads of the parser after lexing; moving ops in the op vector, allocation and the lexer are not counted."},
 {"property": "C67", "status": "proved", "theorems": ["C67_plain_parser", "C67_plain_parser_refuted"], "note": "The equality holds for all sources without an empty titled block; the general equality is refuted by C67_plain_parser_refuted."},
 {"property": "C68", "status": "proved", "theorems": ["C68_same_parser", "C68_height_tokens", "C68_height_linear", "C68_openings_deep", "C68_bounded_height_refuted"], "note": "Counts active calls, not bytes of stack. The recursion of Display and Drop over the finished tree is bounded by its height (C80_height); to_yamd is a loop."},
 {"property": "C69", "status": "proved", "theorems": ["C69_display_bytes", "C69_display_chars", "C69_display_unescaped", "C69_doubled"], "note": "Both in bytes and in characters. Holds for documents that come from a source; arbitrary values built by hand are not bounded by anything, as they have no source."},
 {"property": "C70", "status": "proved", "theorems": ["C70_ops_tokens", "C70_nodes_tokens", "C70_linear", "C70_ops_reached", "C70_nodes_reached"], "note": "The bounds with their constants are met by the empty text, by one letter and by an empty list item."},
 {"property": "C71", "status": "proved", "theorems": ["C71_token_stat", "C71_panics", "C71_determined", "C71_order_refuted", "C71_names", "C71_tab"], "note": "The claim that the output does not depend on the order of the map is refuted by `a*` (C71_order_refuted)."},
 {"property": "C72", "status": "proved", "theorems": ["C72_length", "C72_no_panic", "C72_small_max_refuted", "C72_ends", "C72_exact_length_refuted", "C72_pieces"], "note": "The help text (\"Length of a sequence in bytes\") is refuted as an exact length (C72_exact_length_refuted); max_literal_len <= 3 can panic (C72_small_max_refuted). Random numbers are a list of draws; a list that is used up is OutOfFuel."},
 {"property": "C73", "status": "proved", "theorems": ["C73_round_trip", "C73_parsed", "C73_injective", "C73_total", "C73_again", "C73_order", "C73_defaults", "C73_errors", "C73_normalised_refuted"], "note": "Serde.v follows the documented behaviour of the derive macros for self-describing formats; heading levels are u8, hence at most 255. That everything read is normalised is refuted by a code block that ends with a line feed (C73_normalised_refuted)."},
 {"property": "C74", "status": "proved", "theorems": ["C74_kept", "C74_block", "C74_test", "C74_reformat", "C74_fixed", "C74_injective", "C74_injective_refuted"], "note": "The condition on carriage returns is needed: the text of one carriage return is read back, but is not tame (example cr_kept)."},
 {"property": "C75", "status": "proved", "theorems": ["C75_rounds_total", "C75_no_fixed_number", "C75_code", "C75_metadata"], "note": "Whether repeated formatting always comes to rest is not proved; it does for the families here and for settled raw sources and tame documents (C50, C74)."},
 {"property": "C76", "status": "proved", "theorems": ["C76_same_lexer", "C76_reads_linear", "C76_reads_all", "C76_queue"], "note": "Counts calls of next and peek of the iterator; pushes and pops of the queue are not counted, but there are as many as tokens."},
 {"property": "C77", "status": "proved", "theorems": ["C77_image", "C77_source", "C77_lossless", "C77_source_injective"], "note": "source is a writer of the specification, not of the code; the Display of the code keeps only the tame documents (C74)."},
 {"property": "C78", "status": "proved", "theorems": ["C78_image", "C78_text", "C78_same", "C78_part", "C78_cut"], "note": "annotate puts byte offsets, columns and rows on pieces (LexSpec.v); that the lexer computes the pieces is C06."},
 {"property": "C79", "status": "proved", "theorems": ["C79_parse", "C79_deserialize", "C79_bytes_refuted", "C79_counter_refuted", "C79_i32_refuted"], "note": "ParserMachine.v repeats every parser function with checked arithmetic; to_yamd and Display do no arithmetic other than the cast to u8 of the heading level, which is modelled as mod 256."},
 {"property": "C80", "status": "proved", "theorems": ["C80_bound", "C80_unescaped", "C80_reached", "C80_levels", "C80_collapsibles", "C80_height", "C80_height_exact"], "note": "The bound is reached for every pair (c, d) other than (0, 0). It bounds the recursion depth that nested lists and collapsibles cause; the size of a stack frame is not modelled."},
 {"property": "C81", "status": "proved", "theorems": ["C81_empty", "C81_formatted", "C81_test", "C81_content_stays_refuted", "C81_vanishing"], "note": "C81_content_stays_refuted records that a readable document with content can be formatted to a blank source, so the second round of formatting loses it (line feeds in texts are escaped only in pairs)."}
]}
