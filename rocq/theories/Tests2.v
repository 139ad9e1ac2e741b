(** The tests of the parser's helpers and of the contents of ops, and the tests over the whole of
    [TEST_CASE] (continues Tests.v). *)
From Verif Require Import Base Lexer Ops Parser Ast ToYamd Api Content Tests.
From Coq Require Import String.
Open Scope list_scope.

(** src/op/mod.rs 247-302 *)
Definition test_case : str := s_ "---
title: test
date: 2022-01-01T00:00:00+02:00
image: image
preview: preview
tags:
- tag1
- tag2
---

# hello

```rust
let a=1;
```

t**b**

![a](u)

![a](u)
![a2](u2)

!! H
! I
~~s~~

_I_
!!

-----

- one
 - two

+ first
 + second

{{youtube|123}}

{{cloudinary_gallery|cloud_name&tag}}

{% collapsible

%}

{% one more collapsible

%}

+

-

![](

```

end

\*escaped\*".
Definition test_ops : list op := match parse test_case with Ok l => l | _ => [] end.
Definition kind_at (i : nat) (l : list op) : option op_kind := option_map op_kind_of (nth_error l i).
Definition text_at (s : str) (i : nat) (l : list op) : option (outcome str) := option_map (fun o => as_str s (op_content o)) (nth_error l i).

(** How often each byte is covered by a span. *)
Fixpoint covers (n i : nat) (l : list op) : nat :=
  match l with
  | [] => 0
  | o :: r => (match op_content o with Span a b => if (a <=? i) && (i <? b) then 1 else 0 | Materialized _ => 0 end) + covers n i r
  end.
Example t_op_mod_all_source_bytes_are_covered_exactly_once :
  let esc := byte_len test_case - 11 in
  forallb (fun i => covers 0 i test_ops =? (if i <? esc then 1 else 0)) (seq 0 (byte_len test_case)) = true
  /\ slice test_case esc (byte_len test_case) = Ok (s_ "\*escaped\*").
Proof. vm_compute. repeat split. Qed.
Fixpoint balance (stack : list node) (l : list op) : bool :=
  match l with
  | [] => match stack with [] => true | _ => false end
  | o :: r => match op_kind_of o with
              | Start n => balance (n :: stack) r
              | End n => match stack with m :: st => node_eqb m n && balance st r | [] => false end
              | Value => balance stack r
              end
  end.
Example t_op_mod_start_end_balance : balance [] test_ops = true.
Proof. vm_compute. reflexivity. Qed.
Example t_op_mod_document_level_block_sequence :
  List.length test_ops = 158
  /\ kind_at 5 test_ops = Some (Start NHeading)
  /\ kind_at 9 test_ops = Some (Start NCode)
  /\ kind_at 16 test_ops = Some (Start NParagraph)
  /\ kind_at 23 test_ops = Some (Start NImage)
  /\ kind_at 32 test_ops = Some (Start NImages)
  /\ kind_at 51 test_ops = Some (Start NHighlight)
  /\ kind_at 72 test_ops = Some (Start NThematicBreak)
  /\ kind_at 76 test_ops = Some (Start NUnorderedList)
  /\ kind_at 91 test_ops = Some (Start NOrderedList)
  /\ kind_at 106 test_ops = Some (Start NEmbed)
  /\ kind_at 112 test_ops = Some (Start NEmbed)
  /\ kind_at 118 test_ops = Some (Start NCollapsible)
  /\ kind_at 126 test_ops = Some (Start NCollapsible)
  /\ kind_at 134 test_ops = Some (Start NParagraph)
  /\ kind_at 138 test_ops = Some (Start NParagraph)
  /\ kind_at 142 test_ops = Some (Start NParagraph)
  /\ kind_at 146 test_ops = Some (Start NParagraph)
  /\ kind_at 150 test_ops = Some (Start NParagraph).
Proof. vm_compute. repeat split. Qed.
Example t_op_mod_metadata_is_parsed :
  kind_at 0 test_ops = Some (Start NMetadata) /\ kind_at 2 test_ops = Some (End NMetadata)
  /\ match text_at test_case 1 test_ops with Some (Ok x) => starts_with (s_ "title: test") (tl x) | _ => false end = true.
Proof. vm_compute. repeat split. Qed.
Example t_op_mod_document_wraps_body : kind_at 3 test_ops = Some (Start NDocument) /\ kind_at 157 test_ops = Some (End NDocument).
Proof. vm_compute. repeat split. Qed.
Example t_op_mod_fallback_paragraphs_have_correct_content :
  kind_at 134 test_ops = Some (Start NParagraph)
  /\ kind_at 135 test_ops = Some (Value)
  /\ text_at test_case 135 test_ops = Some (Ok (s_ "+"))
  /\ kind_at 136 test_ops = Some (End NParagraph)
  /\ kind_at 138 test_ops = Some (Start NParagraph)
  /\ kind_at 139 test_ops = Some (Value)
  /\ text_at test_case 139 test_ops = Some (Ok (s_ "-"))
  /\ kind_at 140 test_ops = Some (End NParagraph)
  /\ kind_at 142 test_ops = Some (Start NParagraph)
  /\ kind_at 143 test_ops = Some (Value)
  /\ text_at test_case 143 test_ops = Some (Ok (s_ "![]("))
  /\ kind_at 144 test_ops = Some (End NParagraph)
  /\ kind_at 146 test_ops = Some (Start NParagraph)
  /\ kind_at 147 test_ops = Some (Value)
  /\ text_at test_case 147 test_ops = Some (Ok (s_ "```"))
  /\ kind_at 148 test_ops = Some (End NParagraph)
  /\ kind_at 150 test_ops = Some (Start NParagraph)
  /\ kind_at 151 test_ops = Some (Value)
  /\ text_at test_case 151 test_ops = Some (Ok (s_ "end"))
  /\ kind_at 152 test_ops = Some (End NParagraph).
Proof. vm_compute. repeat split. Qed.

Example t_op_mod_content_span_as_str : as_str (s_ "hello world") (Span 0 5) = Ok (s_ "hello").
Proof. reflexivity. Qed.
Example t_op_mod_content_materialized_as_str : as_str (s_ "ignored source") (Materialized (s_ "hello")) = Ok (s_ "hello").
Proof. reflexivity. Qed.
Example t_op_mod_content_span_to_string : content_to_string (s_ "hello world") (Span 0 5) = Ok (s_ "hello").
Proof. reflexivity. Qed.
Example t_op_mod_content_from_non_contiguous_tokens_materializes :
  from_tokens [token_new Literal 0 1 (mk_pos 0 0 0); mk_token Literal 2 3 (mk_pos 2 1 0) true; token_new Literal 3 4 (mk_pos 3 2 0)] (s_ "a\!b")
  = Ok (Materialized (s_ "a!b")).
Proof. reflexivity. Qed.
Example t_op_mod_content_from_contiguous_tokens_stays_span : from_tokens [token_new Literal 0 5 (mk_pos 0 0 0)] (s_ "hello") = Ok (Span 0 5).
Proof. reflexivity. Qed.
Example t_op_mod_content_empty_span_as_str : as_str (s_ "anything") (Span 0 0) = Ok [].
Proof. reflexivity. Qed.
Example t_op_mod_content_is_empty :
  content_is_empty (Span 0 0) = true /\ content_is_empty (Span 0 5) = false /\ content_is_empty (Materialized []) = true
  /\ content_is_empty (Materialized (s_ "hi")) = false.
Proof. repeat split. Qed.
Example t_op_mod_content_from_empty_tokens : from_tokens [] (s_ "source") = Ok (Span 0 0).
Proof. reflexivity. Qed.
Example t_op_mod_content_from_token_slice : content_from [token_new Literal 0 5 (mk_pos 0 0 0)] = Ok (Span 0 5).
Proof. reflexivity. Qed.
Example t_op_mod_content_from_empty_token_slice : content_from [] = Ok (Span 0 0).
Proof. reflexivity. Qed.
Example t_op_mod_content_from_token_array : content_from [token_new Literal 0 3 (mk_pos 0 0 0)] = Ok (Span 0 3).
Proof. reflexivity. Qed.
Example t_op_mod_content_from_token_vec : content_from [token_new Literal 0 5 (mk_pos 0 0 0)] = Ok (Span 0 5).
Proof. reflexivity. Qed.

(** src/lexer/token.rs 129-171 *)
Example t_lexer_token_token_kind_display : kind_name Terminator = s_ "Terminator" /\ kind_name CollapsibleStart = s_ "CollapsibleStart" /\ kind_name Literal = s_ "Literal".
Proof. repeat split. Qed.
Example t_lexer_token_token_new : let t := token_new Literal 0 5 (mk_pos 0 0 0) in kind t = Literal /\ (t_start t, t_end t) = (0, 5) /\ escaped t = false.
Proof. repeat split. Qed.

(** src/op/parser.rs 323-521 *)
Definition from_ (s : str) : parser := match parser_from s with Ok p => p | _ => mk_parser [] [] 0 [] [] end.
Definition of_kind (k : token_kind) (t : token) : bool := kind_eqb (kind t) k.
Example t_op_parser_eat_matches_and_consumes : let (r, p) := eat (of_kind Literal) (from_ (s_ "hello world")) in r = Some (0, 1) /\ pos p = 1.
Proof. vm_compute. repeat split. Qed.
Example t_op_parser_eat_no_match_does_not_advance : let (r, p) := eat (of_kind Star) (from_ (s_ "hello world")) in r = None /\ pos p = 0.
Proof. vm_compute. repeat split. Qed.
Example t_op_parser_eat_at_eof_returns_none : fst (eat (of_kind Literal) (from_ [])) = None.
Proof. reflexivity. Qed.
Example t_op_parser_at_matches_without_consuming : at_ (of_kind Literal) (from_ (s_ "hello")) = true.
Proof. reflexivity. Qed.
Example t_op_parser_at_no_match : at_ (of_kind Star) (from_ (s_ "hello")) = false.
Proof. reflexivity. Qed.
Example t_op_parser_at_eof_returns_false : at_ (of_kind Literal) (from_ []) = false.
Proof. reflexivity. Qed.
Example t_op_parser_next_at_eof_is_noop : pos (next (from_ [])) = 0.
Proof. reflexivity. Qed.
Example t_op_parser_flip_to_literal_out_of_range_is_noop : flip_to_literal 100 (from_ (s_ "hi")) = from_ (s_ "hi").
Proof. reflexivity. Qed.
Example t_op_parser_eat_seq_matches_sequence : let (r, p) := eat_seq [of_kind Hash; of_kind Space] (from_ (s_ "# hello")) in r = Some (0, 2) /\ pos p = 2.
Proof. vm_compute. repeat split. Qed.
Example t_op_parser_eat_seq_backtracks_on_partial_match : let (r, p) := eat_seq [of_kind Hash; of_kind Star] (from_ (s_ "# hello")) in r = None /\ pos p = 0.
Proof. vm_compute. repeat split. Qed.
Example t_op_parser_eat_seq_single_predicate : let (r, p) := eat_seq [of_kind Literal] (from_ (s_ "hello")) in r <> None /\ pos p = 1.
Proof. vm_compute. split; [discriminate|reflexivity]. Qed.
Example t_op_parser_eat_until_finds_match : exists p, eat_until (of_kind Eol) (from_ (s_ "hello" ++ nl ++ s_ "world")) = Ok (Some ((0, 1), (1, 2)), p).
Proof. eexists. vm_compute. reflexivity. Qed.
Definition stops (st : list stop_condition) (p : parser) : parser := set_stack st p.
Example t_op_parser_eat_until_eof_hit : exists p, eat_until (of_kind Star) (stops [StopTerminator] (from_ (s_ "hello" ++ nl ++ nl ++ s_ "world"))) = Ok (None, p) /\ pos p = 0.
Proof. eexists. vm_compute. repeat split. Qed.
Example t_op_parser_eat_until_no_match_at_eof : exists p, eat_until (of_kind Star) (from_ (s_ "hello")) = Ok (None, p) /\ pos p = 0.
Proof. eexists. vm_compute. repeat split. Qed.
Example t_op_parser_at_eof_empty_stack_not_at_end : at_eof (from_ (s_ "hello")) = false.
Proof. reflexivity. Qed.
Example t_op_parser_at_eof_empty_stack_at_end : at_eof (from_ []) = true.
Proof. reflexivity. Qed.
Example t_op_parser_at_eof_terminator_on_stack :
  exists p, with_eof StopTerminator (fun p => Ok ((at_eof p, at_eof (next p)), next p)) (from_ (s_ "hello" ++ nl ++ nl ++ s_ "world")) = Ok ((false, true), p).
Proof. eexists. vm_compute. reflexivity. Qed.
Example t_op_parser_eof_guard_pops_on_drop :
  exists p, with_eof StopTerminator (fun p => Ok (at_eof (next p), next p)) (from_ (s_ "hello" ++ nl ++ nl ++ s_ "world")) = Ok (true, p) /\ at_eof p = false.
Proof. eexists. vm_compute. repeat split. Qed.
Example t_op_parser_list_kind_node : list_kind_node Unordered = NUnorderedList /\ list_kind_node Ordered = NOrderedList.
Proof. repeat split. Qed.
Example t_op_parser_nested_guards_pop_in_order :
  exists p, with_eof StopTerminator (fun p => let! (b, q) := with_eof StopHighlightEnd (fun p => Ok (at_eof p, p)) (next p) in Ok ((at_eof (next p), b, at_eof q), q))
    (from_ (s_ "hello" ++ nl ++ nl ++ s_ "world")) = Ok ((true, true, true), p).
Proof. eexists. vm_compute. reflexivity. Qed.

(** src/op/paragraph.rs 69-82, src/op/thematic_break.rs 42-48 *)
Example t_op_paragraph_text_only : exists p, paragraph (from_ (s_ "hello world")) = Ok (tt, p)
  /\ ops p = [new_start NParagraph (Span 0 0); new_value (Span 0 11); new_end NParagraph (Span 0 0)].
Proof. eexists. vm_compute. repeat split. Qed.
Example t_op_thematic_break_not_enough_dashes : thematic_break (from_ (s_ "---")) = Ok (false, from_ (s_ "---")).
Proof. vm_compute. reflexivity. Qed.
(** src/op/to_yamd.rs 1058-1061 *)
Example t_op_to_yamd_unclosed_frame_errors : try_to_yamd [new_start NHeading no_content] [] = Ok None.
Proof. vm_compute. reflexivity. Qed.

(** src/op/document.rs 84-190 *)
Definition document_ops (s : str) : list op := match document (3 * List.length (tokens (from_ s)) + 5) (from_ s) with Ok p => ops p | _ => [] end.
Example t_op_document_code_block_consumes_trailing_eol :
  let s := s_ "```" ++ nl ++ s_ "code" ++ nl ++ s_ "```" ++ nl ++ s_ "paragraph_text" in let l := document_ops s in
  List.length l = 8 /\ kind_at 0 l = Some (Start NDocument) /\ kind_at 1 l = Some (Start NCode) /\ kind_at 2 l = Some (Value) /\ kind_at 3 l = Some (End NCode) /\ kind_at 4 l = Some (Start NParagraph) /\ kind_at 5 l = Some (Value) /\ text_at s 5 l = Some (Ok (s_ "paragraph_text")) /\ kind_at 6 l = Some (End NParagraph) /\ kind_at 7 l = Some (End NDocument).
Proof. vm_compute. repeat split. Qed.
Example t_op_document_collapsible_block_consumes_trailing_eol :
  let s := s_ "{% Title" ++ nl ++ s_ "text" ++ nl ++ s_ "%}" ++ nl ++ s_ "paragraph_text" in let l := document_ops s in
  List.length l = 15 /\ kind_at 0 l = Some (Start NDocument) /\ kind_at 1 l = Some (Start NCollapsible) /\ kind_at 2 l = Some (Start NModifier) /\ kind_at 3 l = Some (Value) /\ text_at s 3 l = Some (Ok (s_ "Title")) /\ kind_at 4 l = Some (End NModifier) /\ kind_at 5 l = Some (Start NDocument) /\ kind_at 6 l = Some (Start NParagraph) /\ kind_at 7 l = Some (Value) /\ kind_at 8 l = Some (End NParagraph) /\ kind_at 9 l = Some (End NDocument) /\ kind_at 10 l = Some (End NCollapsible) /\ kind_at 11 l = Some (Start NParagraph) /\ kind_at 12 l = Some (Value) /\ text_at s 12 l = Some (Ok (s_ "paragraph_text")) /\ kind_at 13 l = Some (End NParagraph) /\ kind_at 14 l = Some (End NDocument).
Proof. vm_compute. repeat split. Qed.
Example t_op_document_embed_block_consumes_trailing_eol :
  let s := s_ "{{a|b}}" ++ nl ++ s_ "paragraph_text" in let l := document_ops s in
  List.length l = 10 /\ kind_at 0 l = Some (Start NDocument) /\ kind_at 1 l = Some (Start NEmbed) /\ kind_at 2 l = Some (Value) /\ text_at s 2 l = Some (Ok (s_ "a")) /\ kind_at 3 l = Some (Value) /\ text_at s 3 l = Some (Ok (s_ "|")) /\ kind_at 4 l = Some (Value) /\ text_at s 4 l = Some (Ok (s_ "b")) /\ kind_at 5 l = Some (End NEmbed) /\ kind_at 6 l = Some (Start NParagraph) /\ kind_at 7 l = Some (Value) /\ text_at s 7 l = Some (Ok (s_ "paragraph_text")) /\ kind_at 8 l = Some (End NParagraph) /\ kind_at 9 l = Some (End NDocument).
Proof. vm_compute. repeat split. Qed.
Example t_op_document_highlight_block_consumes_trailing_eol :
  let s := s_ "!! Title" ++ nl ++ s_ "text" ++ nl ++ s_ "!!" ++ nl ++ s_ "paragraph_text" in let l := document_ops s in
  List.length l = 13 /\ kind_at 0 l = Some (Start NDocument) /\ kind_at 1 l = Some (Start NHighlight) /\ kind_at 2 l = Some (Start NModifier) /\ kind_at 3 l = Some (Value) /\ text_at s 3 l = Some (Ok (s_ "Title")) /\ kind_at 4 l = Some (End NModifier) /\ kind_at 5 l = Some (Start NParagraph) /\ kind_at 6 l = Some (Value) /\ kind_at 7 l = Some (End NParagraph) /\ kind_at 8 l = Some (End NHighlight) /\ kind_at 9 l = Some (Start NParagraph) /\ kind_at 10 l = Some (Value) /\ text_at s 10 l = Some (Ok (s_ "paragraph_text")) /\ kind_at 11 l = Some (End NParagraph) /\ kind_at 12 l = Some (End NDocument).
Proof. vm_compute. repeat split. Qed.
Definition emits (n : node) (s : str) : bool := existsb (fun o => match op_kind_of o with Start m => node_eqb m n | _ => false end) (document_ops s).
Example t_op_document_every_block_fixture_parses_to_its_node :
  emits NCode (s_ "```" ++ nl ++ s_ "code" ++ nl ++ s_ "```") = true /\ emits NCollapsible (s_ "{% Title" ++ nl ++ s_ "text" ++ nl ++ s_ "%}") = true
  /\ emits NEmbed (s_ "{{a|b}}") = true /\ emits NHighlight (s_ "!! Title" ++ nl ++ s_ "text" ++ nl ++ s_ "!!") = true.
Proof. vm_compute. repeat split. Qed.
