(** The documents that [deserialize] can return (property C77).  [normal] and [source]: NormalSpec.v. *)
From Coq Require Import String.
From Verif Require Import Base Ops Ast ToYamd Api AstSpec NormalSpec ImageDocs ImageNormal.
Open Scope list_scope.

(** They are exactly the normal ones. *)
Theorem C77_image : forall y, (exists s, deserialize s = Ok y) <-> normal y.
Proof. exact image. Qed.
Print Assumptions C77_image.

(** A text for each of them. *)
Theorem C77_source : forall y, normal y -> deserialize (source y) = Ok y.
Proof. exact normal_source. Qed.
Print Assumptions C77_source.

(** Nothing that is read gets lost in this text: it differs for different documents. *)
Theorem C77_lossless : forall s y, deserialize s = Ok y -> deserialize (source y) = Ok y.
Proof. exact lossless. Qed.
Print Assumptions C77_lossless.
Theorem C77_source_injective : forall y z, normal y -> normal z -> source y = source z -> y = z.
Proof. exact source_injective. Qed.
Print Assumptions C77_source_injective.

(** Texts full of delimiters, and empty ones where they are possible. *)
Definition tricky : yamd := mk_yamd (Some (s_ "---")) [
  YParagraph [PText (s_ "\" ++ nlnl ++ s_ "# _"); PItalic []; PBold [BStrike (s_ "~~"); BItalic []; BText (s_ "**")]; PAnchor [] (s_ ")"); PEmphasis (s_ "*"); PText nl];
  YHeading 6 []; YHeading 1 [HAnchor (s_ "]") []; HText (s_ "[a](b)")]; YImage (mk_image (s_ "]") nlnl); YImages [mk_image [] []; mk_image nl (s_ "(")];
  YCode nl (nl ++ s_ "```"); YListNode (YList LOrdered 0 [YItem [] (Some (YList LUnordered 1 [YItem [PText (s_ "- ")] None])); YItem [] None]);
  YHighlight (Some nl) (Some []) [[]; [PText (nl ++ s_ "!!")]; []]; YHighlight None None []; YThematicBreak; YEmbed (s_ "|") (s_ "}}");
  YCollapsible (s_ " %}") [YCollapsible nl []; YParagraph [PText (s_ "%}")]]].
Example C77_tricky : deserialize (source tricky) = Ok tricky.
Proof. vm_compute. reflexivity. Qed.
(** [Display] does not keep this document. *)
Example C77_display : deserialize (display_yamd tricky) <> Ok tricky.
Proof. vm_compute. discriminate. Qed.
Example C77_tricky_normal : normal tricky.
Proof. apply C77_image. exists (source tricky). exact C77_tricky. Qed.
Example C77_text : source (mk_yamd None [YHeading 2 [HText (s_ "a#")]; YParagraph [PBold [BText (s_ "b")]; PText (s_ "c")]]) = s_ "## \a\#" ++ nlnl ++ s_ "**\b**\c".
Proof. vm_compute. reflexivity. Qed.

(** No text is read as these. *)
Ltac unreadable := intros s H; assert (N : exists t, deserialize t = Ok _) by (exists s; exact H); apply C77_image in N; destruct N as [_ N].
Example C77_no_empty_paragraph : forall s t, deserialize s <> Ok (mk_yamd None [YCollapsible t [YParagraph []]]).
Proof. intros s t. revert s. unreadable. specialize (N (YParagraph []) ltac:(right; left; reflexivity)). destruct N as [N _]. congruence. Qed.
Example C77_no_single_images : forall i s, deserialize s <> Ok (mk_yamd None [YImages [i]]).
Proof. intros i. unreadable. specialize (N _ ltac:(left; reflexivity)). cbn in N. inversion N as [|? X]. inversion X. Qed.
Example C77_no_split_text : forall a b s, deserialize s <> Ok (mk_yamd None [YParagraph [PText a; PText b]]).
Proof. intros a b. unreadable. specialize (N _ ltac:(left; reflexivity)). destruct N as (_ & _ & (N & _) & _). discriminate N. Qed.
Example C77_no_code_end : forall l s, deserialize s <> Ok (mk_yamd None [YCode l nl]).
Proof. intros l. unreadable. specialize (N _ ltac:(left; reflexivity)). apply N. exists []. reflexivity. Qed.
