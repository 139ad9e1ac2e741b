(** Vocabulary for reformatting: sources without backslashes and carriage returns, and the
    documents of such sources that [Display] keeps.  Nothing here refers to the lexer, the parser
    or to [Display]. *)
From Verif Require Import Base Ops StreamSpec Ast AstSpec Tame.

(** No escapes, and line feeds only. *)
Definition raw (s : str) : Prop := ~ In c_bslash s /\ ~ In c_cr s.

Fixpoint settled_block (y : ynode) : Prop :=
  match y with
  | YParagraph l => plain_first l
  | YCode _ code => ~ starts_with_nl code
  | YHighlight title icon ps =>
      match ps with
      | p :: r => p <> [] /\ ~ starts_with_nl (first_text p) /\ (icon = None -> ~ like_icon p r)
      | [] => title <> None /\ icon = None
      end
  | YCollapsible _ b =>
      fold_right and True (map settled_block b) /\ match b with m :: _ => ~ block_starts_nl m | [] => True end
  | _ => True
  end.
Definition settled (y : yamd) : Prop := Forall settled_block (body y).
