(** Theorems about the height of the call stack (property C68). *)
From Coq Require Import String.
From Verif Require Import Base Lexer LexSpec StreamSpec Ops Parser Steps HeightSpec Height HeightLow.
Open Scope list_scope.

(** The parser with the height is the parser. *)
Theorem C68_same_parser : forall s, drop (parse_h s) = parse s.
Proof. exact parse_h_drop. Qed.
Print Assumptions C68_same_parser.

(** The calls active at one time are at most three more than the tokens, so than the characters. *)
Theorem C68_height_tokens : forall s ts ops h, lex s = Ok ts -> parse_h s = Ok (ops, h) -> h <= 3 + length ts.
Proof. intros s ts ops h L E. pose proof (parse_high s ts L) as H. rewrite E in H. exact H. Qed.
Print Assumptions C68_height_tokens.
Theorem C68_height_linear : forall s, exists ops h, parse_h s = Ok (ops, h) /\ parse s = Ok ops /\ h <= length s + 3.
Proof. exact height_linear. Qed.
Print Assumptions C68_height_linear.

(** No fixed height suffices, not even when nothing is nested: [m] unclosed openings of collapsibles (3 bytes each, and
    2 tokens each) reach at least the height [2 * m], although the operations have no collapsible at all. *)
Theorem C68_openings_deep : forall m, exists ops h, parse_h (openings m) = Ok (ops, h) /\ 2 * m <= h /\
  ~ In (Start NCollapsible) (map op_kind_of ops).
Proof. exact height_openings. Qed.
Print Assumptions C68_openings_deep.
Theorem C68_bounded_height_refuted : forall d, exists s ops h, parse_h s = Ok (ops, h) /\ d < h.
Proof. exact height_unbounded. Qed.
Print Assumptions C68_bounded_height_refuted.

(** ** Concrete cases *)

Definition height_of (s : str) : option nat := match parse_h s with Ok (_, h) => Some h | _ => None end.
Example openings_3 : openings 3 = s_ "{%
{%
{%
".
Proof. reflexivity. Qed.
(** Text, an item, an item in an item, a closed collapsible, one in another, and unclosed ones. *)
Example heights : map height_of [s_ "";
  s_ "a";
  s_ "- a";
  s_ "- a
 - b";
  s_ "{% T
a
%}";
  s_ "{% T
{% U
a
%}
%}";
  openings 3; openings 20] = [Some 1; Some 3; Some 3; Some 5; Some 5; Some 7; Some 7; Some 41].
Proof. vm_compute. reflexivity. Qed.
