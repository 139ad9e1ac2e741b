(** Reformatting sources without backslashes and carriage returns (property C50).  [raw], [settled]: Settled.v. *)
From Coq Require Import String.
From Verif Require Import Base Ops Ast ToYamd Api StreamSpec AstSpec Tame TameDec Settled SettledDec TreeAst RawAst Plain UnsettledDoc.

Theorem C50_tame : forall s y, raw s -> deserialize s = Ok y -> settled y -> tame_doc y.
Proof. intros s y R E. rewrite deserialize_eq in E. injection E as <-. exact (raw_tame s R). Qed.
Print Assumptions C50_tame.

(** Such a document is read back from its text. *)
Theorem C50_reformat : forall s y, raw s -> deserialize s = Ok y -> settled y -> deserialize (display_yamd y) = Ok y.
Proof. intros s y R E St. exact (round_trip y (C50_tame s y R E St)). Qed.
Print Assumptions C50_reformat.

(** Formatting twice is formatting once. *)
Theorem C50_idempotent : forall s y z, raw s -> deserialize s = Ok y -> settled y -> deserialize (display_yamd y) = Ok z -> display_yamd z = display_yamd y.
Proof. intros s y z R E St H. rewrite (C50_reformat s y R E St) in H. injection H as ->. reflexivity. Qed.
Print Assumptions C50_idempotent.

(** No other document of such a source is. *)
Theorem C50_stable_iff : forall s y, raw s -> deserialize s = Ok y -> (deserialize (display_yamd y) = Ok y <-> settled y).
Proof.
  intros s y R E. split; [|exact (C50_reformat s y R E)]. intros H. rewrite deserialize_eq in E, H. injection E as <-. assert (X : document_of (display_yamd (document_of s)) = document_of s) by congruence. exact (raw_conv _ (raw_mild s R) X).
Qed.
Print Assumptions C50_stable_iff.

Theorem C50_decidable : forall y, settledb y = true <-> settled y.
Proof. exact settledb_iff. Qed.
Print Assumptions C50_decidable.

(** The test decides which sources keep their document. *)
Theorem C50_stable_test : forall s y, raw s -> deserialize s = Ok y -> (settledb y = true <-> deserialize (display_yamd y) = Ok y).
Proof. intros s y R E. rewrite C50_decidable. symmetry. exact (C50_stable_iff s y R E). Qed.
Print Assumptions C50_stable_test.

(** A source with every kind of block, and with many delimiters that delimit nothing. *)
Definition lines (l : list str) : str := flat_map (fun x => x ++ nl) l.
Definition source : str := lines
  [ s_ "---"; s_ "title: x"; s_ "----"; s_ "---"; s_ ""; s_ "# a *b* [t](u(v)) [w] (x) [y]("; s_ "second line"; s_ ""; s_ "a **b _c_ ~d~** *e f ` g [h] (i {j %k} !! # - + |"; s_ "####### x";
    s_ ""; s_ "![a](b)"; s_ "![c](d)"; s_ ""; s_ "![e](f)"; s_ ""; s_ "- one *two*"; s_ "-three"; s_ " + four"; s_ "  ++ five"; s_ "- six"; s_ ""; s_ "```rust"; s_ "fn f() {}"; s_ ""; s_ "%}"; s_ "```";
    s_ "{{a|b}}"; s_ "-----"; s_ ""; s_ "!! title"; s_ "! icon"; s_ "body **x**"; s_ ""; s_ "! more"; s_ "!!"; s_ "{% t"; s_ "{% u"; s_ "## x"; s_ "%}"; s_ ""; s_ "text"; s_ ""; s_ "%}"; s_ "{{c|d" ].

Definition document : yamd := Eval vm_compute in match deserialize source with Ok y => y | _ => mk_yamd None [] end.
Lemma raw_by : forall s, inb c_bslash s = false -> inb c_cr s = false -> raw s.
Proof. intros s H1 H2. split; [destruct (inb_ok c_bslash s)|destruct (inb_ok c_cr s)]; congruence. Qed.
Example source_raw : raw source.
Proof. apply raw_by; vm_compute; reflexivity. Qed.
Example source_document : deserialize source = Ok document.
Proof. vm_compute. reflexivity. Qed.
Example document_kinds :
  map (fun b => match b with YHeading _ _ => 1 | YParagraph _ => 2 | YImages _ => 3 | YImage _ => 4 | YListNode _ => 5 | YCode _ _ => 6
                | YEmbed _ _ => 7 | YThematicBreak => 8 | YHighlight _ _ _ => 9 | YCollapsible _ _ => 10 end) (body document) = [1; 2; 3; 4; 5; 6; 7; 8; 9; 10; 2].
Proof. reflexivity. Qed.
Example document_settled : settled document.
Proof. apply C50_decidable. vm_compute. reflexivity. Qed.
Example C50_case : deserialize (display_yamd document) = Ok document.
Proof. exact (C50_reformat source document source_raw source_document document_settled). Qed.

(** Raw sources whose documents are not settled and not stable. *)
Definition shaky (s : str) : Prop := exists y z, raw s /\ deserialize s = Ok y /\ ~ settled y /\ deserialize (display_yamd y) = Ok z /\ z <> y.
Ltac shaky :=
  match goal with |- shaky ?s =>
    let r := eval vm_compute in (deserialize s) in
    match r with Ok ?y =>
      let r2 := eval vm_compute in (deserialize (display_yamd y)) in
      match r2 with Ok ?z =>
        exists y, z; split; [apply raw_by; vm_compute; reflexivity|]; split; [vm_compute; reflexivity|]; split; [|split; [vm_compute; reflexivity|discriminate]];
        rewrite <- C50_decidable; vm_compute; discriminate end
    end
  end.
(** A paragraph that looks like a heading but does not start a line. *)
Example shaky_heading : shaky (s_ "{% t" ++ nl ++ s_ "%}## x").
Proof. shaky. Qed.
(** Blank lines at the start of the code, of a collapsible, of a highlight. *)
Example shaky_code : shaky (s_ "```" ++ nl ++ nl ++ nl ++ s_ "x" ++ nl ++ s_ "```").
Proof. shaky. Qed.
Example shaky_collapsible : shaky (s_ "{% t" ++ nl ++ nl ++ nl ++ s_ "x" ++ nl ++ s_ "%}").
Proof. shaky. Qed.
Example shaky_highlight : shaky (s_ "!! t" ++ nl ++ nl ++ nl ++ s_ "x" ++ nl ++ s_ "!!").
Proof. shaky. Qed.
Example shaky_empty_highlight : shaky (s_ "!!" ++ nl ++ s_ "!!").
Proof. shaky. Qed.
(** A line that looks like an icon. *)
Example shaky_icon : shaky (s_ "!! t" ++ nlnl ++ nlnl ++ s_ "! a" ++ nl ++ s_ "!!").
Proof. shaky. Qed.

(** Empty paragraphs of a highlight that are not the first, markers with two spaces, text after an image. *)
Definition source2 : str := lines [s_ "!!"; s_ "a"; s_ ""; s_ ""; s_ ""; s_ "b"; s_ "!!"; s_ "- a"; s_ "+  b"; s_ ""; s_ "![a](b) c"].
Example C50_case2 : exists y, raw source2 /\ deserialize source2 = Ok y /\ settled y /\ deserialize (display_yamd y) = Ok y.
Proof.
  let r := eval vm_compute in (deserialize source2) in match r with Ok ?y => exists y end.
  split; [apply raw_by; vm_compute; reflexivity|]. split; [vm_compute; reflexivity|]. split; [apply C50_decidable; vm_compute; reflexivity|vm_compute; reflexivity].
Qed.

(** Both directions of the equivalence are used: a line feed more, and the paragraph is lost. *)
Definition source3 (gap : str) : str := lines [s_ "{% t"; s_ "!! h"; s_ "! i"; s_ "a" ++ gap ++ s_ "! b"; s_ "!!"; s_ "%}"].
Example C50_case3 : exists y, deserialize (source3 nl) = Ok y /\ deserialize (display_yamd y) = Ok y.
Proof.
  let r := eval vm_compute in (deserialize (source3 nl)) in match r with Ok ?y => exists y end.
  split; [vm_compute; reflexivity|]. eapply C50_stable_test with (s := source3 nl); [apply raw_by; vm_compute; reflexivity|vm_compute; reflexivity|vm_compute; reflexivity].
Qed.
Definition source4 : str := lines [s_ "{% t"; s_ "!! h"; s_ ""; s_ ""; s_ "! b"; s_ "!!"; s_ "%}"].
Example C50_case4 : exists y, deserialize source4 = Ok y /\ deserialize (display_yamd y) <> Ok y.
Proof.
  let r := eval vm_compute in (deserialize source4) in match r with Ok ?y => exists y end.
  split; [vm_compute; reflexivity|]. intros H. apply (C50_stable_test source4) in H; [vm_compute in H; discriminate H|apply raw_by; vm_compute; reflexivity|vm_compute; reflexivity].
Qed.
