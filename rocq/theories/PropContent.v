(** Contents made of tokens (C61). *)
From Coq Require Import String.
From Verif Require Import Base Lexer Ops Parser Content.
Open Scope list_scope.

(** [Content::from_tokens] is the text of the tokens, whatever the tokens are; it is borrowed exactly if there are no gaps. *)
Theorem C61_from_tokens : forall source ts xs, token_texts source ts xs ->
  exists c, from_tokens ts source = Ok c /\ as_str source c = Ok (List.concat xs) /\ ((exists a b, c = Span a b) <-> no_gaps ts).
Proof. exact from_tokens_text. Qed.
Print Assumptions C61_from_tokens.
(** [Content::from] is the same exactly if there are no gaps; otherwise it keeps what is between the tokens. *)
Theorem C61_from : forall source ts, content_from ts = from_tokens ts source <-> no_gaps ts.
Proof. exact from_is_from_tokens. Qed.
Print Assumptions C61_from.
Theorem C61_from_text : forall source t ts x, slice source (t_start t) (t_end (last (t :: ts) t)) = Ok x ->
  exists c, content_from (t :: ts) = Ok c /\ as_str source c = Ok x.
Proof. exact from_text. Qed.
Print Assumptions C61_from_text.
(** [Content::is_empty] says whether the text is empty, also for spans outside of the source. *)
Theorem C61_is_empty : forall source c, content_is_empty c = true <-> as_str source c = Ok [].
Proof. exact empty_text. Qed.
Print Assumptions C61_is_empty.
(** The shortcut of [Parser::span] for tokens without escapes changes nothing. *)
Theorem C61_span : forall s ts p a b, lex s = Ok ts -> source p = s -> tokens p = ts -> a <= b <= List.length ts ->
  span (a, b) p = from_tokens (firstn (b - a) (skipn a ts)) s.
Proof. exact span_is_from_tokens. Qed.
Print Assumptions C61_span.
(** Different kinds have different names. *)
Theorem C61_names : forall a b, kind_name a = kind_name b -> a = b.
Proof. exact kind_name_inj. Qed.
Print Assumptions C61_names.

Definition gap : str := s_ "a\!b".
Definition gap_tokens : list token := [token_new Literal 0 1 (mk_pos 0 0 0); mk_token Literal 2 4 (mk_pos 2 1 0) true].
Example C61_case : lex gap = Ok gap_tokens /\ token_texts gap gap_tokens [s_ "a"; s_ "!b"] /\ ~ no_gaps gap_tokens
  /\ from_tokens gap_tokens gap = Ok (Materialized (s_ "a!b")) /\ content_from gap_tokens = Ok (Span 0 4).
Proof.
  split; [vm_compute; reflexivity|]. split; [repeat constructor|]. split; [intros (H & _); discriminate H|]. split; reflexivity.
Qed.
