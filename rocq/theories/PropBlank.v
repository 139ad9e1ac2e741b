(** The sources without content (property C81).  [blank], [even_breaks]: BlankSpec.v. *)
From Coq Require Import String.
From Verif Require Import Base Lexer Ops Ast ToYamd Api RoundsSpec BlankSpec Blank BlankDisplay Vanish.
Open Scope list_scope.

(** The empty document comes from an even number of line breaks, and from nothing else. *)
Theorem C81_empty : forall s, deserialize s = Ok (mk_yamd None []) <-> blank s.
Proof. exact empty_source. Qed.
Print Assumptions C81_empty.

(** The formatted text is empty for these sources only. *)
Theorem C81_formatted : forall s y, deserialize s = Ok y -> (display_yamd y = [] <-> blank s).
Proof. exact shown_blank. Qed.
Print Assumptions C81_formatted.

(** [blank] as a test that goes through the text once. *)
Theorem C81_test : forall s, even_breaks true s = true <-> blank s.
Proof. exact blank_test. Qed.
Print Assumptions C81_test.

(** A document with content can be formatted to such a source: two paragraphs of one escaped line feed
    each are written as four line feeds, so the next reading finds nothing. *)
Definition two_feeds : str := s_ "\" ++ nl ++ nlnl ++ s_ "\" ++ nl.
Theorem C81_content_stays_refuted : exists s y, deserialize s = Ok y /\ body y <> [] /\ deserialize (display_yamd y) = Ok (mk_yamd None []).
Proof. exists two_feeds, (mk_yamd None [YParagraph [PText nl]; YParagraph [PText nl]]). split; [vm_compute; reflexivity|]. split; [discriminate|vm_compute; reflexivity]. Qed.
Print Assumptions C81_content_stays_refuted.

(** Without carriage returns these are all documents that formatting loses entirely. *)
Theorem C81_vanishing : forall s y, ~ In c_cr s -> deserialize s = Ok y ->
  (deserialize (display_yamd y) = Ok (mk_yamd None []) <-> exists n, y = mk_yamd None (repeat (YParagraph [PText nl]) (2 * n))).
Proof. exact vanishing. Qed.
Print Assumptions C81_vanishing.

(** ** Cases *)

Example four_breaks : blank ([c_cr; c_nl; c_nl; c_nl; c_cr; c_nl] ++ s_ "\") /\ ~ blank (nlnl ++ nl) /\ ~ blank (s_ "\" ++ nl) /\ ~ blank (s_ " ").
Proof. rewrite <- !C81_test. vm_compute. repeat split; congruence. Qed.
Example three_breaks : deserialize (nlnl ++ nl) = Ok (mk_yamd None [YParagraph [PText nl]]).
Proof. vm_compute. reflexivity. Qed.
Example second_round_empty : map (fun n => rounds n two_feeds) [1; 2; 3] = [Ok (nlnl ++ nlnl); Ok []; Ok []].
Proof. vm_compute. reflexivity. Qed.
(** With a carriage return a single paragraph may be lost. *)
Example cr_lost : deserialize (s_ "\" ++ nl ++ [c_cr] ++ nl) = Ok (mk_yamd None [YParagraph [PText (nl ++ [c_cr] ++ nl)]])
  /\ deserialize (display_yamd (mk_yamd None [YParagraph [PText (nl ++ [c_cr] ++ nl)]])) = Ok (mk_yamd None []).
Proof. split; vm_compute; reflexivity. Qed.
