(** The text of a document (C63). *)
From Coq Require Import String.
From Verif Require Import Base LexFacts Ast ToYamd Api TextSpec Texts TextDisplay.
Open Scope list_scope.

(** The text of the document is the source without escaping backslashes and without some delimiter characters. *)
Theorem C63_text_kept : forall s y, deserialize s = Ok y -> keeps (doc_text y) (unescape s).
Proof. exact texts_kept. Qed.
Print Assumptions C63_text_kept.
Theorem C63_ordinary_kept : forall s y, deserialize s = Ok y -> filter ordinary (doc_text y) = filter ordinary s.
Proof. exact ordinary_kept. Qed.
Print Assumptions C63_ordinary_kept.
Theorem C63_no_longer : forall s y, deserialize s = Ok y -> List.length (doc_text y) <= List.length s.
Proof. exact text_length. Qed.
Print Assumptions C63_no_longer.
(** Every document, also one no source gives. *)
Theorem C63_display : forall y, filter ordinary (display_yamd y) = filter ordinary (doc_text y).
Proof. exact display_ordinary. Qed.
Print Assumptions C63_display.
Theorem C63_format : forall y y', deserialize (display_yamd y) = Ok y' ->
  filter ordinary (doc_text y') = filter ordinary (doc_text y).
Proof. exact format_keeps_text. Qed.
Print Assumptions C63_format.

Definition sample : str := s_ "---
m: 1
---

# a \[b

{% t
- x **y**
 - `z`

!! w
! i
k\*
!!

%}

{{e|f}}".
Example C63_case :
  exists y, deserialize sample = Ok y
    /\ doc_text y = s_ "m: 1a [btx yzwik*ef"
    /\ filter ordinary (doc_text y) = s_ "m:1abtxyzwikef"
    /\ filter ordinary sample = s_ "m:1abtxyzwikef"
    /\ filter ordinary (display_yamd y) = s_ "m:1abtxyzwikef".
Proof. eexists; split; [vm_compute; reflexivity|]. vm_compute. auto. Qed.
(** A text which is not read back as it was keeps its characters. *)
Example C63_case_2 :
  let y := mk_yamd None [YParagraph [PText (s_ "a"); PText (s_ "b")]; YHighlight None (Some (s_ "p
q")) []] in
  exists y', deserialize (display_yamd y) = Ok y' /\ y' <> y /\ filter ordinary (doc_text y') = s_ "abpq".
Proof. eexists; split; [vm_compute; reflexivity|]. split; [discriminate|vm_compute; reflexivity]. Qed.
