(** Theorems about the memory of failed attempts (property C67). *)
From Coq Require Import String.
From Verif Require Import Base Lexer LexSpec LexProofs StreamSpec Ops Parser FParser MissSpec BorderSpec MemorySpec Memory.
Open Scope list_scope.

(** If no line with a title is directly followed by a closing brace, then what failed attempts leave behind is not seen. *)
Theorem C67_plain_parser : forall s ts, lex s = Ok ts -> ~ empty_block ts -> parse s = Ok (flattens s (pparse ts)).
Proof. exact plain_parser. Qed.
Print Assumptions C67_plain_parser.

(** In general it is. *)
Theorem C67_plain_parser_refuted : exists s ts, lex s = Ok ts /\ parse s <> Ok (flattens s (pparse ts)).
Proof. exact memory_seen. Qed.
Print Assumptions C67_plain_parser_refuted.

(** ** Concrete cases *)

Definition shape (ops : outcome (list op)) : list op_kind := match ops with Ok o => map op_kind_of o | _ => [] end.

(** Two attempts fail, the second one inside the first, before a block is read. *)
Definition good : string := "{% A

{% B
x

```
%}
```

{% C

d
%}".
Example good_ok : exists ts, lex (s_ good) = Ok ts /\ ~ empty_block ts.
Proof.
  eexists. split; [vm_compute; reflexivity|]. apply no_empty_block. vm_compute. reflexivity.
Qed.
Example good_shape : shape (parse (s_ good))
  = [Start NDocument; Start NParagraph; Value; End NParagraph; Value; Start NParagraph; Value; End NParagraph; Value; Start NCode; Value; End NCode; Value;
     Start NCollapsible; Start NModifier; Value; End NModifier; Start NDocument; Start NParagraph; Value; End NParagraph; End NDocument; End NCollapsible; End NDocument].
Proof. vm_compute. reflexivity. Qed.

(** Inside of [A] the embed is not read, as a [%}] starts a line of it, so that [B] is, and ends with the [%}] of [C], whose
    [{%] becomes text.  Then [A] has no end, and is not read after all.  Now the embed is, with [B] as a part of it; [C] is
    still text. *)
Example seen_shape : shape (parse (s_ seen))
  = [Start NDocument; Start NParagraph; Value; End NParagraph; Value; Start NEmbed; Value; Value; Value; End NEmbed; Value; Start NParagraph; Value; End NParagraph; End NDocument].
Proof. vm_compute. reflexivity. Qed.
(** Without the first line the block is read. *)
Example unseen_shape : shape (parse (skipn 6 (s_ seen)))
  = [Start NDocument; Start NEmbed; Value; Value; Value; End NEmbed; Value; Start NCollapsible; Start NModifier; Value; End NModifier; Start NDocument; End NDocument;
     End NCollapsible; End NDocument].
Proof. vm_compute. reflexivity. Qed.
