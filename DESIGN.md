# Formal model of yamd in Rocq/Coq 8.16.1

The development lives in `rocq/theories` (logical name `Verif`). It only uses the Coq
standard library.

## What is modelled

| model file | code in /repo | contents |
|---|---|---|
| `Base.v` | Rust `char`, `str`, `String::replace`, `trim_*`, slicing | characters are code points (`N`), strings are lists of them; byte offsets are `nat` sums of UTF-8 lengths; slicing off a character boundary or out of range is `Panic` |
| `Lexer.v` | `src/lexer/mod.rs`, `src/lexer/token.rs` | the lexer state machine as written: pending literal, pending token, queue, `next` |
| `Ops.v` | `src/op/mod.rs` | `Content`, `Node`, `OpKind`, `Op`, `as_str`, `from_tokens` |
| `Parser.v` | `src/op/parser.rs` and every node parser in `src/op/*.rs` | the token cursor, the stop-condition stack, backtracking by truncating `ops`, `ops.insert`, `flip_to_literal` |
| `Ast.v` | `src/nodes/*.rs` | all node types, constructors that normalise, `Display` |
| `ToYamd.v` | `src/op/to_yamd.rs` | the frame stack, every arm of every match, `try_to_yamd`, `to_yamd` |
| `Api.v` | `src/lib.rs`, `src/op/mod.rs` 237-242 | `parse`, `deserialize` |
| `Utils.v` | `utils/src/commands/*.rs` | `token_stat` with an arbitrary order of the hash map, `random` on a list of draws |
| `Serde.v` | the `serde` derives on `src/nodes/*.rs` | writing to and reading from values with null, strings, numbers, sequences and maps (JSON) |

Every panic site of the code (slice, `insert`, `debug_assert!`, `expect`, `unwrap`, `unreachable!`) is an explicit
`Panic` value; every loop or recursion that is not structural runs on fuel with an explicit
`OutOfFuel` value. No theorem treats either as a normal result; C01 proves both unreachable.

## What is not modelled

* machine integers: `usize` and `i32` are unbounded in the model. `Machine.v` and `ParserMachine.v` have the lexer and the
  whole parser with range-checked integers, and C62 and C79 prove that they do the same. The only narrowing cast, `as u8`
  in `extract_heading_level`, is modelled as `mod 256`.
* the size in bytes of the stack frames, so the input at which the recursive descent overflows the stack (C68 bounds and exhibits the number of active calls), allocation failure, running time other than the number of token reads of the parser (C66).
* the `From` impls that only inject into an enum, `Debug`/`PartialEq` derives,
  `benches`, `fuzz`, the argument parsing (`clap`) of `utils`.
* Rust ownership: `&mut` becomes state passing; `Peekable<CharIndices>` is the list of remaining (offset, char) pairs.

## Trusted base

* the Coq 8.16.1 kernel (and `vm_compute` for examples and refutations);
* `Print Assumptions` stands under each theorem of the `Prop*.v` files and prints "Closed under the global
  context" for all of them: no axiom is used, not even one of the standard library. (A whole-library check
  such as `coqchk -o` also lists the fields of `Coq.ssr.ssrunder.Under_rel`, which the standard library
  loads together with `Lia`/`ssreflect` support files; no theorem here depends on them.)
* the reading of the Rust code recorded in the comments of the model (file and lines), checked by porting the repository's unit tests to `Tests.v` as computations;
* `Serde.v` models code that the macros of the serde crate generate; it follows serde's documentation, not its source. Limits of the
  format (JSON readers stop at a nesting of 128) are not in it.

## Files

| file | contents |
|---|---|
| `Base` … `Api` | the model (table above) |
| `Tests` | the repository's unit tests as computations on the model |
| `LexSpec`, `LexProofs`, `LexFacts` | lexical grammar; the lexer equals it; facts on token lists |
| `FParser` | functional parser on token lists giving concrete syntax trees |
| `Refine`, `Refine2`, `Refine3` | the model of the Rust parser emits exactly the flattened trees, never panics, never runs out of fuel |
| `Wf`, `TokFacts` | shape of the trees, texts of token segments |
| `StreamSpec` | **specification**: events, balance, document type, delimiters |
| `StreamProofs`, `2`, `3` | the op stream follows the specification |
| `Lines`, `LineProofs` | where exactly a node starts and ends: first closing token, line starts and ends, link destinations |
| `Strict` | **specification**: `to_yamd` that fails where the code silently drops |
| `TreeAst` | the document of a syntax tree equals `to_yamd` of its ops |
| `AstSpec`, `AstProofs` | **specification** of the normal form of documents; proofs |
| `Meaning`, `MeaningProofs` | **specification**: the document an op stream stands for, as a grammar over events; `to_yamd` computes it |
| `HandBuilt` | `try_to_yamd` on arbitrary op streams |
| `Tame`, `Runs`, `TameDec` | **specification** of the documents that round trip; a boolean checker |
| `Units`, `ULex`, `Stops` | texts with explicit escapes ("units"): rendering, tokens of rendered units, stop conditions on units |
| `LinkUnits`, `Inline`, `AstUnits`, `Calm`, `Blocks`, `Docs`, `Highlight`, `Lists` | the functional parser on units, node by node |
| `UBlocks`, `UList`, `UDocs` | `Display` writes those units; every tame document is read back |
| `Plain` | corollaries: escaped text, plain text, nesting, joining |
| `Settled`, `SettledDec` | sources without escapes and the documents of them that `Display` keeps, with a decision procedure |
| `RawLex`, `RawTree`, `RawLinks`, `RawAst` | tokens and trees of sources without escapes; their documents are mild, and tame if settled |
| `Mild`, `Unsettled`, `UnsettledHl`, `UnsettledDoc` | mild blocks; a mild document that is read back from its text is settled |
| `ShapeSpec` | **specification**: tokens that look alike, replacements of ordinary characters, line endings |
| `Shapes`, `Swap`, `SwapAst` | the parser depends on token shapes only; replacements commute with lexer, parser, `to_yamd` and `Display` |
| `WinSpec`, `Win` | what CR LF line endings leave behind in a document |
| `Utf8Spec`, `Utf8` | **specification** of UTF-8 and of Rust's slicing rule; the offsets of the model are byte offsets |
| `EscapeSpec`, `Escapes` | **specification**: the text of a document with one-pass escaping; `Display` writes it |
| `GenSpec`, `Gen` | **specification**: the values of the generators of tests/round_trip_proptest.rs; they are tame |
| `MissSpec`, `MissProofs` | **specification**: token lists at whose start a node can be read; no text holds such a place |
| `PropDocs.v` | C59: sentences and examples of the documentation |
| `LocalSpec.v`, `Local.v`, `PropLocal.v` | C60: sources cut at blank lines |
| `Content.v`, `Tests2.v`, `PropContent.v` | C61: rest of the interface of `Content`, `TokenKind: Display`; ported tests of op/parser.rs, op/mod.rs, op/document.rs |
| `Machine.v`, `MachineProofs.v`, `PropMachine.v` | C62: the lexer and `destination` with range-checked integers |
| `TextSpec.v`, `Texts.v`, `TextDisplay.v`, `PropText.v` | C63: the text of a document |
| `Borders.v`, `BorderSpec.v`, `BorderProofs.v`, `PropBorders.v` | C64: what follows a block |
| `Collapse.v`, `PropCollapse.v` | C65: no collapsible is missed |
| `Steps.v`, `StepsProofs.v`, `StepsBound.v`, `StepsFinal.v`, `StepsLow.v`, `StepsQuartic.v`, `StepsBraces.v`, `PropSteps.v` | C66: number of token reads |
| `Kin.v`, `MemorySpec.v`, `Memory.v`, `PropMemory.v` | C67: the parser without memory of failed attempts |
| `HeightSpec.v`, `Height.v`, `HeightLow.v`, `PropHeight.v` | C68: height of the call stack |
| `Spaced.v`, `Grow.v`, `GrowTree.v`, `GrowFinal.v`, `PropGrow.v` | C69: size of a document written again |
| `SizeSpec.v`, `Size.v`, `SizeLow.v`, `PropSize.v` | C70: number of ops and of nodes |
| `Utils.v`, `UtilSpec.v`, `UtilProofs.v`, `PropUtils.v` | C71, C72: the commands of the utils crate |
| `Serde.v`, `SerdeSpec.v`, `SerdeProofs.v`, `PropSerde.v` | C73: the serde feature |
| `Span`, `Written`, `BackInline`, `BackPar`, `BackHead`, `BackFlat`, `BackBody`, `BackColl`, `BackHl`, `BackList`, `BackShown`, `BackDoc`, `BackIff`, `PropBack` | C74: a document that is read back from its text is tame, for each kind of block and for documents |
| `RoundsSpec`, `Rounds`, `PropRounds` | C75: repeated formatting |
| `LexCount`, `LexCountProofs`, `PropLexCount` | C76: the reads and the queue of the lexer |
| `NormalSpec`, `ImageInline`, `ImageLists`, `ImageHighlight`, `ImageDocs`, `ImageNormal`, `PropImage` | C77: the image of `deserialize` |
| `TokenSpec`, `Tokens`, `PropTokens` | C78: which pieces can be neighbours, and cutting of texts |
| `ParserMachine`, `ParserMachineProofs`, `CounterOverflow`, `PropParserMachine` | C79: the whole parser with range-checked integers |
| `NestSpec`, `Nest`, `NestLow`, `NestHeight`, `PropNest` | C80: the exact length that nested blocks need |
| `BlankSpec`, `Blank`, `BlankDisplay`, `Vanish`, `PropBlank` | C81: the sources of the empty document |
| `PropLexer`, `PropParser`, `PropLines`, `PropAst`, `PropMeaning`, `PropRoundTrip`, `PropRaw`, `PropShapes`, `PropUtf8`, `PropEscape`, `PropGen`, `PropRefuted` | the theorems, each with `Print Assumptions` and a concrete case |

## Tame documents

`tame_doc` (Tame.v) is a predicate on the document alone. It excludes what `Display` cannot write (empty texts,
adjacent texts, an odd run of three or more line feeds in an inline node, a first line that looks like a heading of
level 2 to 6, a paragraph made of image sources, code that starts with a line feed, …). `PropRefuted.v` has a witness
for the main exclusions. Carriage returns are excluded everywhere, which is stricter than necessary: one that does not
stand before a line feed round trips.

## Proof plan

1. Lexer: a token-at-a-time lexical grammar (`LexSpec.v`) is proved equal to the state machine; all lexer properties (C02–C08) are proved on the grammar.
2. Parser: a functional list-based parser produces concrete syntax trees. The imperative model is proved to produce exactly the flattened tree. Totality (C01), balance (C09), nesting (C10), coverage (C11), spans (C12, C13), delimiters (C14), shape (C15), terminators (C25), unclosed constructs (C43) are proved on trees.
3. `to_yamd`: acceptance (C16, C17), strict variant (C18), AST of a tree, and the invariants of the resulting document (C19–C24).
4. Display: strings as escape units; lexing of rendered units; round trip per node and for whole documents (C26–C38, C42).
5. Concrete facts: C39, C40, C41.

| property | modelled by | how it is proved |
|---|---|---|
| C01 | all of the above | refinement gives `Ok` for lexer, parser and `to_yamd`; fuel bounds by token-count measures |
| C02–C08 | `Lexer.v` | induction over the lexical grammar, after refinement of the state machine |
| C09, C10, C14, C15, C25, C43 | `Parser.v` | induction on the functional parser / tree |
| C11 | `Parser.v` | the full statement is refuted by `{% Title\n# Heading\n%}`; exact version: everything except the line ending in front of a closing `%}` |
| C12, C13 | `Parser.v`, `Ops.v` | token ranges are increasing (C02) and tree leaves are token intervals |
| C16 | `ToYamd.v` | induction on the op list |
| C17 | `ToYamd.v` | refuted by a two-op stream |
| C18–C24 | `ToYamd.v` | `to_yamd (flatten t)` is the AST of the tree; invariants by induction on trees |
| C26, C27 | all | lexing of fully escaped / plain strings, then computation of the parser |
| C28–C37, C42 | `Ast.v` + all | round trip through escape units |
| C38 | all | refuted by several witnesses; proved for documents in normal form |
| C39, C41 | all | induction on nesting |
| C40 | all | refuted by computation |
| C44 | `ToYamd.v` | induction on the grammar of meanings; for parsed streams the meaning is built from the tree |
| C45 | `Parser.v` | the refinement proof itself |
| C46–C49 | `Parser.v` | a property of every node together with the tokens after it (`tight`), by induction on the functional parser; transferred to the op stream by locating each `Start`/`End` pair in the tree |
| C50 | `Api.v` | what the lexer and the stop conditions exclude from every text of the tree (`RawLex`, `RawTree`) gives `tame_doc`; then C37. Conversely a mild block that the parser reads back from its units is settled (`Unsettled*`) |
| C51–C53 | all | relational reading of the functional parser (same shapes give trees that cut at the same places); a replacement gives tokens of the same shapes |
| C54 | `Base.v` | character boundaries of the encoded text are the sums of character lengths; the encoding is injective |
| C55 | `Ast.v` | a replacement after a one-pass escape is a one-pass escape with one more character or pattern, if they do not interfere |
| C56 | `Ast.v` + all | every generated value is tame; then C37 |
| C57 | `Parser.v` | the inline parsers succeed on every token list with an opening and a closing token and no stop in between; what a text skips was tried |
| C58 | `Parser.v` | every block parser succeeds on every token list of its form; a paragraph is read only after all of them failed on the same tokens |
| C59 | `Ast.v`, `Parser.v` | normal form of deserialized documents (C21, C23, C24) excludes such nodes; false sentences by computation |
| C60 | `Lexer.v`, `Parser.v`, `ToYamd.v` | tokens of a source cut at a blank line; every parser function ignores what follows a terminator unless an open block is unfinished |
| C61 | `Ops.v`, `Content.v`, `Parser.v` | slices of neighbouring ranges concatenate; tokens of the lexer have a gap only before an escaped token |
| C62 | `Machine.v`, `Lexer.v`, `Parser.v` | lexer invariant: row, column plus the number of characters to come and offset plus bytes to come stay within the length; counter plus tokens to come stay within the limit |
| C63 | `TextSpec.v`, `LexFacts.v` (`unescape`), `Ast.v` | induction over well-formed trees: every tree keeps the text of its tokens (`keeps`), the texts of all tokens are the unescaped source; `replace` only inserts backslashes |
| C64 | `BorderSpec.v`, `MissSpec.v`, `StreamSpec.v` | `Borders.v`: induction over the reference parser with the list of stop conditions (`docs_bord`: what follows each block of a document), stable when an unclosed `{%` is turned into text; located in the op stream as for C47 and C58 |
| C65 | `BorderSpec.v`, `MissSpec.v`, `StreamSpec.v` | `Collapse.v`: the attempt succeeds on every such token list (`coll_read`); only an opening without such a body is ever turned into text (`docs_sflips`, induction over the reference parser); located in the op stream as for C64 |
| C66 | `Steps.v` (counted copy of `Parser.v`) | `StepsProofs.v`: erasing the counter gives `Parser.v`; `StepsBound.v`: cost per function with the stop stack bounded by the position; a document costs a fixed amount per token consumed plus one full pass per opening turned into text (`docs_within`); `StepsLow.v`: the bracket family; `StepsQuartic.v`: unclosed openings before brackets, by induction on the openings; `StepsBraces.v`: the upper bound by the number of braces |
| C67 | `MemorySpec.v` (`pdoc`, `pcoll`, `pparse`, `empty_block`) | `Kin.v`: no parser but `fcollapsible` sees flips; `Memory.v`: parsers depend on the stop stack only through what it stops (`alter`), fuel and depth do not matter to `pcoll` (`dead_any`), flipped openings are those of failing attempts (`stale`, `docs_plain`) |
| C68 | `HeightSpec.v` (`Parser.v` with the height of the stack) | `Height.v`: erasing the height gives `Parser.v`; each of the four functions is bounded by the tokens that are left, and every level of recursion eats two tokens before it calls the next; `HeightLow.v`: unclosed openings |
| C69 | `byte_len` and `length` only | `Spaced.v`: in a parsed tree a blank line stands between a paragraph and a following block; `Grow.v`: cost of a document, an upper bound of the text C55 allows for it; `GrowTree.v`: the cost is paid twice by the tokens of the tree; `GrowFinal.v`: both instances and the runs of tildes that are doubled |
| C70 | `SizeSpec.v`: number of nodes of a document; ops and tokens are counted by `length` | `Size.v`: what every node of a tree has to spare, from the shapes (`Wf.v`) and the blank lines between paragraphs (`Spaced.v`); `SizeLow.v`: highlights with blank lines only, paragraphs of one letter |
| C71 | `UtilSpec.v`: number of tokens of a kind, decimal numbers, lines with column 22, tables | `UtilProofs.v`: the fold over the lexer, the sort, `tab` |
| C72 | `UtilSpec.v`: scalar values; lengths by `byte_len` | `UtilProofs.v`: one pass of the loop, then induction on the draws |
| C73 | `SerdeSpec.v`: values up to the order of map entries; nodes of a document from `AstSpec.v` | `SerdeProofs.v`: fuel from the depth of values, induction on documents |
| C74 | `Tame.v`: `tame_doc`, without parser and `Display`; `TameDec.v`: the test | `Span`, `Written`, `Back*`: what was read determines where nodes, lines and blocks of the written text begin and end |
| C75 | `RoundsSpec.v`: `format`, `rounds` | `Rounds`: what code with a line feed in front and metadata of backslashes are read as |
| C76 | `LexCount.v`: the lexer with a counter, `reached` | `LexCountProofs`: three reads are paid by each character taken |
| C77 | `NormalSpec.v`: `normal` on the shape of the document, `source` a text for it | `Image*`: each block is read from its escaped text; `ImageNormal` for the converse |
| C78 | `TokenSpec.v`: `clash`, `token_list`, `meets` | `Tokens.v`: a piece followed by a text that cannot continue it is scanned alone, and the converse; blank lines are taken apart and merged again |
| C79 | `ParserMachine.v`: the parser with range-checked integers | `ParserMachineProofs.v`: both parsers go through the same states; in each of them the position is at most the number of tokens and every level on the stack is less than the position at which it was pushed |
| C80 | `NestSpec.v`: collapsibles and list levels in one another, on documents only | `Nest.v`: the characters that each line of a nested block needs, added up over the tree; `NestLow.v`: texts of that length are lexed and parsed for all depths |
| C81 | `BlankSpec.v`: even numbers of line breaks, as a relation and as a test | `Blank.v`: such texts are the ones with terminator tokens only, and every other token becomes part of a block; `BlankDisplay.v`: no block of a readable document is written as the empty text; `Vanish.v`: what is written as line feeds only |
