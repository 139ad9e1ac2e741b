(** Theorems about src/lexer/mod.rs (properties C02-C08). *)
From Verif Require Import Base Lexer LexSpec LexProofs LexFacts.

(** The lexer computes the lexical grammar of LexSpec.v on every input (in particular it neither
    panics nor runs out of fuel). *)
Theorem C06_lexer_is_grammar : forall s, lex s = Ok (spec_tokens s).
Proof. exact lex_correct. Qed.
Print Assumptions C06_lexer_is_grammar.

Theorem C02_lexer_ranges : forall s ts, lex s = Ok ts ->
  (forall t, In t ts ->
     t_start t < t_end t /\ boundary s (t_start t) /\ boundary s (t_end t)
     /\ t_end t <= byte_len s /\ byte_index (t_pos t) = t_start t)
  /\ (forall i j t u, i < j -> nth_error ts i = Some t -> nth_error ts j = Some u ->
        t_end t <= t_start u).
Proof. exact lexer_ranges. Qed.
Print Assumptions C02_lexer_ranges.

Theorem C03_lexer_text : forall s ts, lex s = Ok ts -> concat_texts s ts = Ok (unescape s).
Proof. exact lexer_text. Qed.
Print Assumptions C03_lexer_text.

Theorem C04_escaped_char : forall a c b ts,
  lex (a ++ c_bslash :: c :: b) = Ok ts -> dangling a = false ->
  exists t x, In t ts /\ kind t = Literal /\ escaped t = true /\ t_start t = byte_len a + 1
    /\ token_text (a ++ c_bslash :: c :: b) t = Ok (c :: x).
Proof. exact escaped_char_token. Qed.
Print Assumptions C04_escaped_char.

Theorem C04_escaped_token : forall s ts t, lex s = Ok ts -> In t ts -> escaped t = true ->
  kind t = Literal /\ exists a c b, s = a ++ c_bslash :: c :: b /\ dangling a = false
    /\ t_start t = byte_len a + 1.
Proof. exact escaped_token_char. Qed.
Print Assumptions C04_escaped_token.

Theorem C04_gaps : forall s ts, lex s = Ok ts ->
  (forall t, nth_error ts 0 = Some t -> t_start t = if escaped t then 1 else 0)
  /\ (forall i t u, nth_error ts i = Some t -> nth_error ts (S i) = Some u ->
        t_start u = t_end t + if escaped u then 1 else 0).
Proof. exact token_gaps. Qed.
Print Assumptions C04_gaps.

Theorem C05_token_kinds : forall s ts t, lex s = Ok ts -> In t ts ->
  exists txt, token_text s t = Ok txt /\ kind_text (kind t) (escaped t) txt.
Proof. exact token_kinds. Qed.
Print Assumptions C05_token_kinds.

Theorem C06_maximal_munch : forall s ts i t u, lex s = Ok ts ->
  nth_error ts i = Some t -> nth_error ts (S i) = Some u ->
  neighbours_ok (kind t) (kind u) (escaped u).
Proof. exact maximal_munch. Qed.
Print Assumptions C06_maximal_munch.

Theorem C07_positions : forall s ts t, lex s = Ok ts -> In t ts ->
  exists a b, s = a ++ b /\ byte_len a = t_start t
    /\ line_col 0 0 a = (row (t_pos t), column (t_pos t)).
Proof. exact token_positions. Qed.
Print Assumptions C07_positions.

Theorem C07_column_zero : forall s ts i u, lex s = Ok ts -> nth_error ts i = Some u ->
  (column (t_pos u) = 0 <->
   i = 0 \/ exists j t, i = S j /\ nth_error ts j = Some t /\ (kind t = Eol \/ kind t = Terminator)).
Proof. exact column_zero. Qed.
Print Assumptions C07_column_zero.

Theorem C08_iterator_protocol : forall s, exists ts, lex s = Ok ts /\ length ts <= length s
  /\ forall n, nexts n (lexer_new s) = Ok (firstn n (map Some ts ++ repeat None n)).
Proof. exact iterator_protocol. Qed.
Print Assumptions C08_iterator_protocol.

(** A case where the hypotheses hold and every clause says something: two-byte and four-byte
    characters, an escape, a run, a merged blank line, a dangling backslash. *)
Definition sample : str :=
  [233%N; c_bslash; c_star; 128512%N; c_star; c_star; c_nl; c_cr; c_nl; c_lcurly; c_percent; c_bslash].

Example sample_tokens : lex sample = Ok
  [ mk_token Literal 0 2 (mk_pos 0 0 0) false;
    mk_token Literal 3 8 (mk_pos 3 1 0) true;
    mk_token Star 8 10 (mk_pos 8 3 0) false;
    mk_token Terminator 10 13 (mk_pos 10 5 0) false;
    mk_token CollapsibleStart 13 15 (mk_pos 13 0 2) false ].
Proof. vm_compute. reflexivity. Qed.

Example sample_text : concat_texts sample
    [ mk_token Literal 0 2 (mk_pos 0 0 0) false;
      mk_token Literal 3 8 (mk_pos 3 1 0) true;
      mk_token Star 8 10 (mk_pos 8 3 0) false;
      mk_token Terminator 10 13 (mk_pos 10 5 0) false;
      mk_token CollapsibleStart 13 15 (mk_pos 13 0 2) false ]
  = Ok [233%N; c_star; 128512%N; c_star; c_star; c_nl; c_cr; c_nl; c_lcurly; c_percent].
Proof. vm_compute. reflexivity. Qed.

(** The escape hypothesis of C04 is not vacuous, and a backslash that is itself escaped does not
    meet it. *)
Example dangling_cases :
  dangling [233%N] = false /\ dangling [c_bslash; c_bslash] = false
  /\ dangling [c_bslash; c_bslash; c_bslash] = true.
Proof. vm_compute. auto. Qed.
