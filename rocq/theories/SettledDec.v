(** A decision procedure for [settled]. *)
From Verif Require Import Base Ops Ast StreamSpec AstSpec Tame TameDec Settled.

Fixpoint settled_blockb (y : ynode) : bool :=
  match y with
  | YParagraph l => plain_firstb l
  | YCode _ code => negb (starts_nlb code)
  | YHighlight title icon ps =>
      match ps with
      | p :: r => negb (isnil p) && negb (starts_nlb (first_text p)) && negb (is_none icon && like_iconb p r)
      | [] => negb (is_none title) && is_none icon
      end
  | YCollapsible _ b => forallb settled_blockb b && match b with m :: _ => negb (block_starts_nlb m) | [] => true end
  | _ => true
  end.
Definition settledb (y : yamd) : bool := forallb settled_blockb (body y).

(** ** Agreement *)

Lemma settled_block_ok : forall y, reflect (settled_block y) (settled_blockb y).
Proof.
  fix IH 1. intros y. destruct y as [l|k l|i|l|lang code|l|t i ps| |kind args|title b]; cbn [settled_block settled_blockb]; try apply true_ok.
  - apply plain_first_ok.
  - apply not_ok, starts_nl_ok.
  - destruct ps as [|p r]; [dec|]. rewrite <- andb_assoc. apply and_ok; [dec|]. apply and_ok; [apply not_ok, starts_nl_ok|]. apply imp_ok; [destruct i; constructor; congruence|apply like_icon_ok].
  - apply and_ok.
    + induction b as [|m b IHb]; [apply true_ok|]. cbn [map fold_right forallb]. apply and_ok; [apply IH|exact IHb].
    + clear IH. destruct b; [apply true_ok|apply not_ok, block_starts_ok].
Qed.
Lemma settledb_iff : forall y, settledb y = true <-> settled y.
Proof. intros y. symmetry. apply reflect_iff. apply forall_ok. intros b. apply settled_block_ok. Qed.
