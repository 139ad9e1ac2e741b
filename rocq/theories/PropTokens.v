(** Theorems about the token lists of src/lexer/mod.rs (property C78). *)
From Coq Require Import String.
From Verif Require Import Base Lexer LexSpec LexProofs LexFacts TokenSpec Tokens.

(** The token lists the lexer can return, exactly. *)
Theorem C78_image : forall ts, (exists s, lex s = Ok ts) <-> exists ps, token_list ps /\ ts = annotate 0 0 0 ps.
Proof. exact lex_image. Qed.
Print Assumptions C78_image.

(** Writing the pieces one after the other is a text for them. *)
Theorem C78_text : forall ps, token_list ps -> lex (flat_map p_src ps) = Ok (annotate 0 0 0 ps).
Proof. exact lex_tokens. Qed.
Print Assumptions C78_text.

(** It is the only one, up to a lone backslash at the end. *)
Theorem C78_same : forall s s', pieces s = pieces s' <->
  exists w tl tl', s = (w ++ tl)%list /\ s' = (w ++ tl')%list /\ dangling w = false
    /\ (tl = [] \/ tl = [c_bslash]) /\ (tl' = [] \/ tl' = [c_bslash]).
Proof. exact same_pieces. Qed.
Print Assumptions C78_same.

(** Neighbouring tokens read on their own are the same tokens. *)
Theorem C78_part : forall s a b c, pieces s = (a ++ b ++ c)%list -> lex (flat_map p_src b) = Ok (annotate 0 0 0 b).
Proof. exact lex_part. Qed.
Print Assumptions C78_part.

(** When the tokens of two texts are the tokens of the two together. *)
Theorem C78_cut : forall a b, pieces (a ++ b) = (pieces a ++ pieces b)%list <->
  (dangling a = true -> exists n, b = repeat c_bslash (2 * n)) /\ meets (pieces a) (pieces b).
Proof. exact cut_text. Qed.
Print Assumptions C78_cut.

(** Two braces, a percent sign, a lone carriage return at the end of an escaped literal in front of a
    line feed: neighbours that are nearly a pair. *)
Definition near : list piece :=
  [mk_piece LeftCurlyBrace (s_ "{{") false; mk_piece Literal (s_ "%a ") false; mk_piece Literal [c_cr] true;
   mk_piece Terminator [c_nl; c_cr; c_nl] false; mk_piece Eol [c_nl] false; mk_piece Literal (s_ "%") true;
   mk_piece RightCurlyBrace (s_ "}") false; mk_piece Literal (s_ "}%") true].
Example near_lex : lex (flat_map p_src near) = Ok (annotate 0 0 0 near) /\ pieces (flat_map p_src near) = near.
Proof. split; vm_compute; reflexivity. Qed.
Example near_tokens : token_list near.
Proof. rewrite <- (proj2 near_lex). apply token_list_pieces. Qed.

(** Each kind of clash, and what the two texts are together. *)
Definition lit x := mk_piece Literal x false.
(** None of these pairs is found in the text it makes. *)
Example clashes_differ : forall p q, In (p, q)
  [(mk_piece Star (s_ "*") false, mk_piece Star (s_ "*") false); (lit (s_ "a"), lit (s_ "b"));
   (lit (s_ "a"), mk_piece Space (s_ " ") false); (mk_piece Eol [c_nl] false, mk_piece Eol [c_nl] false);
   (mk_piece Eol [c_nl] false, mk_piece Terminator [c_nl; c_nl] false);
   (mk_piece LeftCurlyBrace (s_ "{") false, mk_piece CollapsibleStart (s_ "{%") false);
   (mk_piece LeftCurlyBrace (s_ "{") false, lit (s_ "%")); (lit (s_ "50%"), mk_piece RightCurlyBrace (s_ "}") false);
   (lit [c_cr], mk_piece Eol [c_nl] false)] ->
  clash p q /\ pieces (p_src p ++ p_src q) <> [p; q].
Proof.
  intros p q H. assert (D : pieces (p_src p ++ p_src q) <> [p; q]).
  { repeat (destruct H as [H|H]; [injection H as <- <-; vm_compute; discriminate|]). destruct H. }
  split; [|exact D].
  repeat (destruct H as [H|H]; [injection H as <- <-; split; [reflexivity|]; unfold loose_end, begins;
    cbn [p_kind p_text p_esc is_run_kind lit]|]); [.. |destruct H].
  1, 6: left; split; [reflexivity|]; eexists; split; eexists; reflexivity.
  1, 2: right; left; auto.
  1, 2: right; right; left; auto.
  - right; right; right; left. split; [reflexivity|]. split; [reflexivity|]. eexists; reflexivity.
  - right; right; right; right; left. split; [reflexivity|]. split; [|eexists; reflexivity]. exists (s_ "50").
    split; [reflexivity|discriminate].
  - right; right; right; right; right. split; [reflexivity|]. split; [|eexists; reflexivity]. exists [].
    split; [reflexivity|discriminate].
Qed.
Example cut_brace : pieces (s_ "{" ++ s_ "{%") = [mk_piece LeftCurlyBrace (s_ "{{") false; lit (s_ "%")].
Proof. reflexivity. Qed.
Example cut_percent : pieces (s_ "50%" ++ s_ "}") = [lit (s_ "50"); mk_piece CollapsibleEnd (s_ "%}") false].
Proof. reflexivity. Qed.
(** A backslash that escapes nothing is moved to the end by backslashes that come in pairs. *)
Example cut_bslash : let b := s_ "\" in
  pieces (b ++ b ++ b) = (pieces b ++ pieces (b ++ b))%list /\ pieces (b ++ b) <> (pieces b ++ pieces b)%list.
Proof. split; [reflexivity|discriminate]. Qed.
