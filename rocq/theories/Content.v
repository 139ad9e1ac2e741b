(** Model of the rest of the public interface of src/op/mod.rs and src/lexer/token.rs: contents made
    of tokens, names of token kinds. *)
From Coq Require Import String.
From Verif Require Import Base Lexer LexSpec LexProofs LexFacts Ops Parser Refine TokFacts ToYamd.
Open Scope list_scope.

(** src/op/mod.rs 112-134: [Content::from] for a slice, an array or a vector of tokens. *)
Definition content_from (ts : list token) : outcome content :=
  match ts with
  | [] => Ok (Span 0 0)
  | _ => first_last_span ts
  end.
(** src/op/mod.rs 79-82: [Content::to_string]. *)
Definition content_to_string (source : str) (c : content) : outcome str := as_str source c.
(** src/lexer/token.rs 56-83: [TokenKind::fmt]. *)
Definition kind_name (k : token_kind) : str :=
  match k with
  | Terminator => s_ "Terminator"
  | Eol => s_ "Eol"
  | LeftCurlyBrace => s_ "LeftCurlyBrace"
  | RightCurlyBrace => s_ "RightCurlyBrace"
  | CollapsibleStart => s_ "CollapsibleStart"
  | CollapsibleEnd => s_ "CollapsibleEnd"
  | Tilde => s_ "Tilde"
  | Star => s_ "Star"
  | Space => s_ "Space"
  | Minus => s_ "Minus"
  | Hash => s_ "Hash"
  | GreaterThan => s_ "GreaterThan"
  | Bang => s_ "Bang"
  | Backtick => s_ "Backtick"
  | Plus => s_ "Plus"
  | LeftSquareBracket => s_ "LeftSquareBracket"
  | RightSquareBracket => s_ "RightSquareBracket"
  | LeftParenthesis => s_ "LeftParenthesis"
  | RightParenthesis => s_ "RightParenthesis"
  | Underscore => s_ "Underscore"
  | Pipe => s_ "Pipe"
  | Literal => s_ "Literal"
  end.

(** The text of every token. *)
Definition token_texts (source : str) (ts : list token) (xs : list str) : Prop :=
  Forall2 (fun t x => slice source (t_start t) (t_end t) = Ok x) ts xs.
(** Every token starts where the one before it ends. *)
Fixpoint no_gaps (ts : list token) : Prop :=
  match ts with
  | t :: ((u :: _) as r) => t_end t = t_start u /\ no_gaps r
  | _ => True
  end.

Lemma no_gaps_iff : forall ts, is_contiguous ts = true <-> no_gaps ts.
Proof.
  induction ts as [|t [|u ts] IH]; [cbn; tauto|cbn; tauto|]. change (is_contiguous (t :: u :: ts)) with ((t_end t =? t_start u) && is_contiguous (u :: ts)).
  change (no_gaps (t :: u :: ts)) with (t_end t = t_start u /\ no_gaps (u :: ts)). rewrite andb_true_iff, Nat.eqb_eq, IH. tauto.
Qed.
Lemma concat_texts : forall source ts xs, token_texts source ts xs -> concat_tokens source ts = Ok (List.concat xs).
Proof. intros source ts xs F. induction F as [|t x ts xs H F IH]; [reflexivity|]. cbn [concat_tokens]. rewrite H, IH. reflexivity. Qed.
Lemma last_default : forall (l : list token) d e, l <> [] -> last l d = last l e.
Proof. induction l as [|x l IH]; intros d e H; [congruence|]. destruct l; [reflexivity|]. apply IH. discriminate. Qed.
Lemma gapless_slice : forall source ts xs t, token_texts source (t :: ts) xs -> no_gaps (t :: ts) ->
  slice source (t_start t) (t_end (last (t :: ts) t)) = Ok (List.concat xs).
Proof.
  intros source ts. induction ts as [|u ts IH]; intros xs t F G.
  - inversion F as [|? x ? ? H F']. inversion F'. subst. cbn. rewrite app_nil_r. exact H.
  - inversion F as [|? x ? ? H F']. subst. destruct G as [G1 G2]. cbn [List.concat]. specialize (IH _ u F' G2).
    replace (last (t :: u :: ts) t) with (last (u :: ts) u).
    + eapply slice_concat; [exact H|]. rewrite G1. exact IH.
    + change (last (t :: u :: ts) t) with (last (u :: ts) t). apply last_default. discriminate.
Qed.

(** The text of a slice, or nothing if it is empty. *)
Lemma as_str_span : forall source a b x, slice source a b = Ok x -> as_str source (Span a b) = Ok x.
Proof.
  intros source a b x H. cbn [as_str]. destruct (a <? b) eqn:E; [exact H|]. apply Nat.ltb_ge in E. destruct x as [|c x]; [reflexivity|].
  pose proof (slice_nonempty _ _ _ _ H ltac:(discriminate)). lia.
Qed.

Lemma from_tokens_text : forall source ts xs, token_texts source ts xs ->
  exists c, from_tokens ts source = Ok c /\ as_str source c = Ok (List.concat xs) /\ ((exists a b, c = Span a b) <-> no_gaps ts).
Proof.
  intros source ts xs F. destruct ts as [|t ts].
  - inversion F. subst. exists (Span 0 0). split; [reflexivity|]. split; [reflexivity|]. cbn. split; [tauto|eauto].
  - unfold from_tokens. destruct (is_contiguous (t :: ts)) eqn:E.
    + apply no_gaps_iff in E. exists (Span (t_start t) (t_end (last (t :: ts) t))). split; [reflexivity|]. split; [|split; [tauto|eauto]]. apply as_str_span, gapless_slice; assumption.
    + rewrite (concat_texts _ _ _ F). cbn [bind]. exists (Materialized (List.concat xs)). split; [reflexivity|]. split; [reflexivity|].
      rewrite <- no_gaps_iff, E. split; [intros (a & b & X)|intros X]; discriminate.
Qed.
Lemma empty_text : forall source c, content_is_empty c = true <-> as_str source c = Ok [].
Proof.
  intros source [a b|x]; cbn [as_str content_is_empty].
  - destruct (a <? b) eqn:E; cbn [negb]; [|tauto]. split; [discriminate|]. intros H. apply slice_inv in H. destruct H as (u & v & _ & _ & ->). apply Nat.ltb_lt in E. cbn in E. lia.
  - destruct x; split; (reflexivity || discriminate || auto).
Qed.
Lemma from_is_from_tokens : forall source ts, content_from ts = from_tokens ts source <-> no_gaps ts.
Proof.
  intros source [|t ts]; [cbn; tauto|]. unfold content_from, from_tokens. rewrite <- no_gaps_iff. destruct (is_contiguous (t :: ts)); [tauto|].
  split; [|discriminate]. intros H. exfalso. cbn [first_last_span] in H. destruct (concat_tokens source (t :: ts)); discriminate.
Qed.
(** [Content::from] keeps what is between the tokens. *)
Lemma from_text : forall source t ts x, slice source (t_start t) (t_end (last (t :: ts) t)) = Ok x ->
  exists c, content_from (t :: ts) = Ok c /\ as_str source c = Ok x.
Proof. intros source t ts x H. eexists. split; [reflexivity|]. apply as_str_span. exact H. Qed.

(** [Parser::span] looks for escaped tokens before it looks for gaps: without an escaped token there is none. *)
Lemma linked_no_gaps : forall s ts, linked s ts -> existsb escaped ts = false -> no_gaps ts.
Proof.
  intros s ts. induction ts as [|t [|u ts] IH]; intros L E; [exact I|exact I|]. apply orb_false_iff in E. destruct E as [_ E].
  change (no_gaps (t :: u :: ts)) with (t_end t = t_start u /\ no_gaps (u :: ts)). split.
  - apply orb_false_iff in E. destruct E as [E _]. destruct L as [_ [[J _] _]]. rewrite E in J. lia.
  - apply IH; [|exact E]. apply (linked_app s [t] (u :: ts)) in L. apply L.
Qed.
Lemma span_is_from_tokens : forall s ts p a b, lex s = Ok ts -> source p = s -> tokens p = ts -> a <= b <= List.length ts ->
  span (a, b) p = from_tokens (firstn (b - a) (skipn a ts)) s.
Proof.
  intros s ts p a b L S0 T H. rewrite lex_correct in L. injection L as <-. unfold span. rewrite T, S0. destruct (a <? b) eqn:E.
  - replace (b <=? List.length (spec_tokens s)) with true by (symmetry; apply Nat.leb_le; lia).
    destruct (existsb escaped (firstn (b - a) (skipn a (spec_tokens s)))) eqn:X; [reflexivity|].
    assert (G : linked s (firstn (b - a) (skipn a (spec_tokens s)))).
    { pose proof (spec_linked s) as K. rewrite <- (firstn_skipn a (spec_tokens s)) in K. apply linked_app in K. destruct K as [_ K].
      rewrite <- (firstn_skipn (b - a) (skipn a _)) in K. apply linked_app in K. apply K. }
    pose proof (linked_no_gaps _ _ G X) as Y. apply no_gaps_iff in Y. unfold from_tokens. rewrite Y. destruct (firstn (b - a) (skipn a (spec_tokens s))) eqn:Q; [|reflexivity].
    apply Nat.ltb_lt in E. apply (f_equal (@List.length _)) in Q. rewrite firstn_length, skipn_length in Q. cbn in Q. lia.
  - apply Nat.ltb_ge in E. replace (b - a) with 0 by lia. reflexivity.
Qed.
Lemma kind_name_inj : forall a b, kind_name a = kind_name b -> a = b.
Proof. intros [] []; intros H; try reflexivity; discriminate H. Qed.
