(** The documents that [deserialize] reads back from what [Display] writes for them (property C74).
    [tame_doc] is defined in Tame.v without the parser and without [Display]. *)
From Coq Require Import String.
From Verif Require Import Base Ops Ast ToYamd Api StreamSpec AstSpec Tame TameDec BackIff.

(** A document whose text has no carriage return is read back exactly if it is tame. *)
Theorem C74_kept : forall y, tame_doc y <-> ~ In c_cr (display_yamd y) /\ deserialize (display_yamd y) = Ok y.
Proof. exact tame_iff. Qed.
Print Assumptions C74_kept.

(** One block. *)
Theorem C74_block : forall y, tame_block false y <->
  ~ In c_cr (display_yamd (mk_yamd None [y])) /\ deserialize (display_yamd (mk_yamd None [y])) = Ok (mk_yamd None [y]).
Proof. exact tame_block_iff. Qed.
Print Assumptions C74_block.

(** The test in TameDec.v, which reads and writes nothing, says whether a document is kept. *)
Theorem C74_test : forall y, ~ In c_cr (display_yamd y) -> (deserialize (display_yamd y) = Ok y <-> tame_docb y = true).
Proof. exact tame_test. Qed.
Print Assumptions C74_test.

(** A change that formatting makes to a source without carriage returns is a change of an untame document. *)
Theorem C74_reformat : forall s y, ~ In c_cr s -> deserialize s = Ok y -> (deserialize (display_yamd y) = Ok y <-> tame_doc y).
Proof. exact tame_reformat. Qed.
Print Assumptions C74_reformat.

(** The sources that formatting leaves as they are: exactly what is written for tame documents. *)
Theorem C74_fixed : forall s, (~ In c_cr s /\ exists y, deserialize s = Ok y /\ display_yamd y = s) <-> exists y, tame_doc y /\ s = display_yamd y.
Proof. exact tame_fixed. Qed.
Print Assumptions C74_fixed.

(** Different tame documents are written differently.  This does not hold for all documents that can be read. *)
Theorem C74_injective : forall y z, tame_doc y -> tame_doc z -> display_yamd y = display_yamd z -> y = z.
Proof. exact tame_injective. Qed.
Print Assumptions C74_injective.
Theorem C74_injective_refuted : exists s t y z, deserialize s = Ok y /\ deserialize t = Ok z /\ y <> z /\ display_yamd y = display_yamd z.
Proof.
  exists (s_ "## a"), (s_ "\## a"), (mk_yamd None [YHeading 2 [HText (s_ "a")]]), (mk_yamd None [YParagraph [PText (s_ "## a")]]).
  split; [vm_compute; reflexivity|]. split; [vm_compute; reflexivity|]. split; [discriminate|vm_compute; reflexivity].
Qed.
Print Assumptions C74_injective_refuted.

(** ** Documents that are kept and documents that are not *)

Definition one (l : list par_node) : yamd := mk_yamd None [YParagraph l].
Example kept_case : tame_doc (mk_yamd (Some (s_ "a" ++ nl ++ s_ "----")) [YParagraph [PText (s_ "# *x*"); PBold [BText (s_ "**")]]; YListNode (YList LOrdered 0 [YItem [PText (s_ "+ ")] None])]).
Proof. apply tame_docb_iff. vm_compute. reflexivity. Qed.
Example kept_back : deserialize (display_yamd (mk_yamd (Some (s_ "a" ++ nl ++ s_ "----")) [YParagraph [PText (s_ "# *x*")]])) = Ok (mk_yamd (Some (s_ "a" ++ nl ++ s_ "----")) [YParagraph [PText (s_ "# *x*")]]).
Proof. vm_compute. reflexivity. Qed.
Definition lost : list yamd :=
  [ one []; one [PText []]; one [PText (s_ "a"); PText (s_ "b")]; one [PText (s_ "## a")]; one [PText (s_ "!"); PAnchor [] []]; one [PItalic nl; PItalic (nlnl ++ nl)];
    one [PStrike (s_ "a"); PStrike (s_ "b")]; one [PBold []]; one [PCodeSpan []]; one [PEmphasis []];
    mk_yamd (Some (s_ "\")) []; mk_yamd (Some nl) []; mk_yamd (Some (s_ "a" ++ nl ++ s_ "---")) []; mk_yamd (Some (s_ "---a")) [];
    mk_yamd None [YParagraph [PText (s_ "a" ++ nl)]; YThematicBreak]; mk_yamd None [YHeading 1 [HText (s_ "a" ++ nl)]; YThematicBreak];
    mk_yamd None [YHeading 7 []]; mk_yamd None [YHeading 1 [HText (s_ " a")]]; mk_yamd None [YHeading 1 [HText (s_ "[a](b)")]];
    mk_yamd None [YImages [mk_image [] []]]; mk_yamd None [YImages []]; mk_yamd None [YCode [] nl];
    mk_yamd None [YHighlight None None []]; mk_yamd None [YHighlight (Some (s_ " a")) None [[PText (s_ "b")]]]; mk_yamd None [YHighlight None None [[PText (s_ "! a")]]];
    mk_yamd None [YListNode (YList LOrdered 0 [])]; mk_yamd None [YListNode (YList LOrdered 1 [YItem [] None])]; mk_yamd None [YListNode (YList LOrdered 0 [YItem [PText (s_ " a")] None])];
    mk_yamd None [YListNode (YList LOrdered 0 [YItem [PText (s_ "a" ++ nl ++ s_ " - b")] None])];
    mk_yamd None [YCollapsible nl []]; mk_yamd None [YCollapsible [] [YParagraph [PItalic (s_ "a" ++ nl ++ s_ "%}")]]]; mk_yamd None [YCollapsible [] [YHeading 1 [HText nl]]] ].
(** None of them is read back, and none has a carriage return. *)
Example lost_untame : forall y, In y lost -> deserialize (display_yamd y) <> Ok y.
Proof.
  intros y H E. assert (T : forallb (fun y => negb (tame_docb y) && negb (existsb (char_eqb c_cr) (display_yamd y))) lost = true) by (vm_compute; reflexivity).
  rewrite forallb_forall in T. specialize (T y H). apply andb_prop in T. destruct T as [T1 T2].
  apply C74_test in E; [rewrite E in T1; discriminate T1|]. intros X. assert (T3 : existsb (char_eqb c_cr) (display_yamd y) = true) by (apply existsb_exists; exists c_cr; split; [exact X|reflexivity]).
  rewrite T3 in T2. discriminate T2.
Qed.
(** With a carriage return a document may be kept without being tame. *)
Example cr_kept : deserialize (display_yamd (one [PText [c_cr]])) = Ok (one [PText [c_cr]]) /\ ~ tame_doc (one [PText [c_cr]]).
Proof. split; [vm_compute; reflexivity|]. intros T. apply C74_kept in T. destruct T as [T _]. apply T. vm_compute. left. reflexivity. Qed.
(** A source that formatting keeps and one that it changes. *)
Example fixed_case : exists y, tame_doc y /\ s_ "# a" ++ nlnl ++ s_ "- b" = display_yamd y.
Proof. apply C74_fixed. split; [vm_compute; intuition discriminate|]. eexists. split; vm_compute; reflexivity. Qed.
Example changed_case : ~ exists y, tame_doc y /\ s_ "a" ++ nlnl = display_yamd y.
Proof.
  intros H. apply C74_fixed in H. destruct H as (_ & y & E & D). revert D. vm_compute in E. injection E as <-. vm_compute. discriminate.
Qed.
