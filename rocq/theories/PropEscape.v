(** What [Display] writes (property C55).  Specification: EscapeSpec.v. *)
From Coq Require Import String.
From Verif Require Import Base LexFacts Ast EscapeSpec Escapes.
Open Scope list_scope.

(** For all documents, not only those that can be read back. *)
Theorem C55_display : forall y w, display_yamd y = w <-> document_text y w.
Proof. intros y w. split; [intros <-; apply document_written|]. intros H. exact (document_unique y _ _ (document_written y) H). Qed.
Print Assumptions C55_display.

(** [str::replace] in the same terms. *)
Theorem C55_replace : forall p r x w, p <> [] -> (replace p r x = w <-> written [] [(p, r)] x w).
Proof.
  intros p r x w N. split; [intros <-; apply replace_written; exact N|]. apply written_unique; [|apply replace_written; exact N].
  intros q s [H|[]]. injection H as <- <-. destruct p as [|c p]; [congruence|]. exists c, p. split; [reflexivity|]. split; [intros []|].
  intros q s b [H|[]] _. injection H as <- <-. split; reflexivity.
Qed.
Print Assumptions C55_replace.

(** A text that is written with escapes is there again when the escapes are taken away. *)
Theorem C55_unescape : forall cs ps x w, In c_bslash cs ->
  (forall p r, In (p, r) ps -> (p, r) = blank2 \/ exists c a, p = c :: a /\ ~ In c_bslash p /\ (p, r) = mark p) ->
  written cs ps x w -> unescape w = x.
Proof.
  intros cs ps x w I P W. rewrite <- (app_nil_r w), <- (app_nil_r x). refine (written_unescape cs ps x w I _ W []).
  intros p r H. destruct (P p r H) as [E|(c & a & -> & N & E)]; [left; injection E as -> ->; split; reflexivity|right].
  injection E as ->. exists c, a. repeat split. exact N.
Qed.
Print Assumptions C55_unescape.

(** One text with all kinds of escapes, and a document that cannot be read back. *)
Example text_example : par_text (PText (s_ "a*b" ++ nlnl ++ nl ++ s_ "%}\")) (s_ "a\*b" ++ [c_bslash; c_nl; c_bslash; c_nl; c_nl] ++ s_ "\%}\\").
Proof. pose proof (par_written (PText (s_ "a*b" ++ nlnl ++ nl ++ s_ "%}\"))) as H. vm_compute in H |- *. exact H. Qed.
Example text_unique : ~ par_text (PText (s_ "a*b")) (s_ "a*b").
Proof. intros H. pose proof (par_unique _ _ _ H (par_written (PText (s_ "a*b")))) as E. vm_compute in E. discriminate. Qed.
Definition odd : yamd :=
  mk_yamd (Some (s_ "m"))
    [ YParagraph [PText (s_ "- a"); PBold []; PCodeSpan []];
      YListNode (YList LOrdered 0 [YItem [PText (s_ "x" ++ nl ++ s_ "+ y")] (Some (YList LOrdered 0 [YItem [PText (s_ "z")] None]))]);
      YCollapsible (s_ "t %} u") [YParagraph [PBold [BItalic (s_ "**")]]; YCode (s_ "l") (s_ "```")] ].
Example odd_text : document_text odd
  (s_ "---" ++ nl ++ s_ "m" ++ nl ++ s_ "---" ++ nlnl
   ++ s_ "\- a" ++ nlnl
   ++ s_ "+ x" ++ nl ++ s_ "\+ y" ++ nl ++ s_ "\+ z" ++ nlnl
   ++ s_ "{% t \%} u" ++ nl ++ s_ "**_\**_**" ++ nlnl ++ s_ "```l" ++ nl ++ s_ "\```" ++ nl ++ s_ "```" ++ nl ++ s_ "%}").
Proof. apply C55_display. vm_compute. reflexivity. Qed.
