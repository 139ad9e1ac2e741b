(** Theorems about the number of ops and of nodes (property C70).  [doc_nodes]: SizeSpec.v. *)
From Coq Require Import String Lia.
From Verif Require Import Base Lexer LexSpec LexProofs LexFacts Ops Parser Ast ToYamd Api StreamSpec SizeSpec Size SizeLow.
Open Scope list_scope.

(** The op stream has at most three ops for a token, and two more. *)
Theorem C70_ops_tokens : forall s ts ops, lex s = Ok ts -> parse s = Ok ops -> length ops <= 3 * length ts + 2.
Proof. intros s ts ops L P. rewrite lex_correct in L. injection L as <-. exact (ops_bound s ops P). Qed.
Print Assumptions C70_ops_tokens.
(** The document has at most one node for a token, and one more. *)
Theorem C70_nodes_tokens : forall s ts y, lex s = Ok ts -> deserialize s = Ok y -> doc_nodes y <= length ts + 1.
Proof. intros s ts y L D. rewrite lex_correct in L. injection L as <-. exact (nodes_bound s y D). Qed.
Print Assumptions C70_nodes_tokens.
(** So both are linear in the number of characters. *)
Theorem C70_linear : forall s, exists ops y, parse s = Ok ops /\ deserialize s = Ok y /\ length ops <= 3 * length s + 2 /\ doc_nodes y <= length s + 1.
Proof.
  intros s. destruct (Refine3.parse_refines s) as [P _]. eexists _, _. split; [exact P|]. split; [apply TreeAst.deserialize_eq|].
  pose proof (ops_bound s _ P). pose proof (nodes_bound s _ (TreeAst.deserialize_eq s)). pose proof (spec_tokens_length s). lia.
Qed.
Print Assumptions C70_linear.

(** The factors are the best ones: [m] blank lines in a highlight, and paragraphs of one letter. *)
Theorem C70_ops_reached : forall m, exists s ts ops, lex s = Ok ts /\ parse s = Ok ops /\ length ts = m + 4 /\ length ops = 3 * m + 7.
Proof. intros m. destruct (hollow_ops m) as (ops & P & N & L). exists (hollow m), (spec_tokens (hollow m)), ops. split; [apply lex_correct|auto]. Qed.
Print Assumptions C70_ops_reached.
Theorem C70_nodes_reached : forall m, exists s ts y, lex s = Ok ts /\ deserialize s = Ok y /\ length ts = 2 * m + 1 /\ doc_nodes y = length ts + 1.
Proof. intros m. destruct (letters_nodes m) as (y & D & N & L). exists (letters m), (spec_tokens (letters m)), y. split; [apply lex_correct|]. split; [exact D|]. split; [exact L|lia]. Qed.
Print Assumptions C70_nodes_reached.

(** ** Concrete cases *)

(** Tokens, ops and nodes. *)
Definition counts (s : str) : option (nat * nat * nat) :=
  match lex s, parse s, deserialize s with
  | Ok ts, Ok ops, Ok y => Some (length ts, length ops, doc_nodes y)
  | _, _, _ => None
  end.
(** The bounds with their constants are met by the empty text, by one letter and by an empty item. *)
Example counts_met : map counts [s_ ""; s_ "a"; s_ "- "] = [Some (0, 2, 0); Some (1, 5, 2); Some (2, 8, 2)].
Proof. vm_compute. reflexivity. Qed.
Example hollow_2 : hollow 2 = s_ "!! " ++ Ast.nlnl ++ Ast.nlnl ++ Ast.nlnl ++ s_ "!!".
Proof. reflexivity. Qed.
Example letters_2 : letters 2 = s_ "a" ++ Ast.nlnl ++ s_ "a" ++ Ast.nlnl ++ s_ "a".
Proof. reflexivity. Qed.
(** Lists in lists, a highlight in a collapsible, images, links, bold text. *)
Example counts_mixed : counts (s_ "# T [a](b)

{% C
!! H
! I
p **b _c_** [x](y)
!!
![a](b)
![c](d)
%}
- a
 + b

-----
{{k|v}}
```x
y
```
end") = Some (82, 87, 24).
Proof. vm_compute. reflexivity. Qed.
