(** Properties that do not hold, with inputs that show it (properties C28, C31, C36, C38, C40). *)
From Coq Require Import String.
From Verif Require Import Base Lexer Ops Parser Ast ToYamd Api.

(** The document that [deserialize] reads from the text of [y] again. *)
Definition again (y : yamd) : outcome yamd := deserialize (display_yamd y).

(** ** Reformatting changes documents (C38) *)

(** Each of these inputs gives a document whose text is read as another document. *)
Definition unstable (s : str) : Prop := exists y z, deserialize s = Ok y /\ again y = Ok z /\ z <> y.

Ltac unstable :=
  match goal with |- unstable ?s => 
    let r := eval vm_compute in (deserialize s) in
    match r with Ok ?y =>
      let r2 := eval vm_compute in (again y) in
      match r2 with Ok ?z => exists y, z; split; [vm_compute; reflexivity|split; [vm_compute; reflexivity|discriminate]] end
    end
  end.

(** An escaped [##] at the start of a paragraph: src/nodes/paragraph.rs 171-182 escapes only [# ]. *)
Example unstable_heading : unstable (s_ "\## x").
Proof. unstable. Qed.
(** An escaped [!] in front of a link is written without the backslash: the paragraph is an image. *)
Example unstable_image : unstable (s_ "\![a](b)").
Proof. unstable. Qed.
(** src/nodes/heading.rs 28-43 does not escape brackets in headings. *)
Example unstable_heading_link : unstable (s_ "# \[a](b)").
Proof. unstable. Qed.
(** A heading text with a leading space. *)
Example unstable_heading_space : unstable (s_ "# \ x").
Proof. unstable. Qed.
(** A highlight without paragraphs is written with an empty line. *)
Example unstable_empty_highlight : unstable (s_ "!!" ++ nl ++ s_ "!!").
Proof. unstable. Qed.
(** A paragraph of a highlight that starts with an exclamation mark is read as its icon. *)
Example unstable_icon : unstable (s_ "!!" ++ nl ++ s_ "\! x" ++ nl ++ s_ "!!").
Proof. unstable. Qed.
(** An escaped line feed in a highlight title. *)
Example unstable_title : unstable (s_ "!! a\" ++ nl ++ s_ "b" ++ nl ++ s_ "body" ++ nl ++ s_ "!!").
Proof. unstable. Qed.
(** The code after the language line starts with a line feed. *)
Example unstable_code : unstable (s_ "```rust" ++ nlnl ++ nl ++ s_ "foo" ++ nl ++ s_ "```").
Proof. unstable. Qed.
(** A paragraph that ends with a line feed in front of another one. *)
Example unstable_paragraph : unstable (s_ "foo\" ++ nlnl ++ nl ++ s_ "bar").
Proof. unstable. Qed.
(** The text of a list item looks like a nested item. *)
Example unstable_list : unstable (s_ "- a" ++ nl ++ s_ "\ - b").
Proof. unstable. Qed.

Theorem C38_reformat_refuted : exists s y z, deserialize s = Ok y /\ deserialize (display_yamd y) = Ok z /\ z <> y.
Proof. exists (s_ "\## x"). exact unstable_heading. Qed.
Print Assumptions C38_reformat_refuted.

(** ** Metadata (C36) *)

(** Backslashes of the metadata are not escaped by [Display] (src/nodes/yamd.rs 266-285). *)
Theorem C36_metadata_refuted : exists m z, again (mk_yamd (Some m) []) = Ok z /\ metadata z <> Some m.
Proof.
  exists (s_ "a\b"), (mk_yamd (Some (s_ "ab")) []). split; [vm_compute; reflexivity|discriminate].
Qed.
Print Assumptions C36_metadata_refuted.

(** A line of three dashes in the metadata ends it. *)
Example metadata_dashes : exists m z, again (mk_yamd (Some m) []) = Ok z /\ metadata z = Some (s_ "a").
Proof.
  exists (s_ "a" ++ nl ++ s_ "---" ++ nl ++ s_ "b").
  let r := eval vm_compute in (again (mk_yamd (Some (s_ "a" ++ nl ++ s_ "---" ++ nl ++ s_ "b")) [])) in
  match r with Ok ?z => exists z end. split; vm_compute; reflexivity.
Qed.

(** ** Precedence example of the README (C40) *)

(** README.md says that the code span wins over the list item; the parser gives two items. *)
Theorem C40_precedence_refuted :
  deserialize (s_ "- `one" ++ nl ++ s_ "- two`")
  = Ok (mk_yamd None [YListNode (YList LUnordered 0 [YItem [PText (s_ "`one")] None; YItem [PText (s_ "two`")] None])]).
Proof. vm_compute. reflexivity. Qed.
Print Assumptions C40_precedence_refuted.

(** ** Inline texts with three line feeds (C28) *)

(** src/nodes/italic.rs 41-52: ["\n\n\n"] is written as one escaped and two plain line feeds. *)
Theorem C28_paragraph_refuted : exists p z, again (mk_yamd None [YParagraph p]) = Ok z /\ body z <> [YParagraph p]
  /\ p = [PItalic (s_ "a" ++ nlnl ++ nl ++ s_ "b")].
Proof.
  exists [PItalic (s_ "a" ++ nlnl ++ nl ++ s_ "b")].
  let r := eval vm_compute in (again (mk_yamd None [YParagraph [PItalic (s_ "a" ++ nlnl ++ nl ++ s_ "b")]])) in
  match r with Ok ?z => exists z end. split; [vm_compute; reflexivity|]. split; [discriminate|reflexivity].
Qed.
Print Assumptions C28_paragraph_refuted.
