(** How deep a source of a given length can nest its blocks (property C80).
    [nest c d n] is defined in NestSpec.v: the block has [c] collapsibles in one another around a list with [d] levels. *)
From Coq Require Import String Lia.
From Verif Require Import Base Ops Ast ToYamd Api LexFacts NestSpec Nest NestLow NestHeight.
Open Scope list_scope.
Notation len := List.length.

(** The length of the source bounds the nesting: 6 characters for each collapsible, and for the levels of lists their number squared. *)
Theorem C80_bound : forall s y n c d, deserialize s = Ok y -> In n (body y) -> nest c d n -> 12 * c + d * d + 5 * d <= 2 * len s + 2.
Proof. exact nest_source. Qed.
Print Assumptions C80_bound.

(** Backslashes that escape do not count. *)
Theorem C80_unescaped : forall s y n c d, deserialize s = Ok y -> In n (body y) -> nest c d n -> 12 * c + d * d + 5 * d <= 2 * len (unescape s) + 2.
Proof. exact nest_unescaped. Qed.
Print Assumptions C80_unescaped.

(** The bound cannot be improved for any number of collapsibles and levels. *)
Theorem C80_reached : forall c d, c + d <> 0 -> exists s y n,
  deserialize s = Ok y /\ In n (body y) /\ nest c d n /\ 2 * len s + 2 = 12 * c + d * d + 5 * d.
Proof. exact nest_reached. Qed.
Print Assumptions C80_reached.

(** In particular for lists alone and for collapsibles alone. *)
Theorem C80_levels : forall s y l d, deserialize s = Ok y -> In (YListNode l) (body y) -> levels d l -> d * d + 5 * d <= 2 * len s + 2.
Proof. intros s y l d E I L. pose proof (nest_source s y _ 0 d E I (nest_list d l L)). lia. Qed.
Print Assumptions C80_levels.
Theorem C80_collapsibles : forall s y n c, deserialize s = Ok y -> In n (body y) -> nest c 0 n -> 6 * c <= len s + 1.
Proof. intros s y n c E I N. pose proof (nest_source s y n c 0 E I N). lia. Qed.
Print Assumptions C80_collapsibles.

(** The height of the whole document, so the depth of the recursion of everything that walks over it. *)
Theorem C80_height : forall s y, deserialize s = Ok y -> 6 * doc_height y <= len s + 7.
Proof. exact height_bound. Qed.
Print Assumptions C80_height.
Theorem C80_height_exact : forall h, 3 <= h -> exists s y, deserialize s = Ok y /\ doc_height y = h /\ len s + 7 = 6 * h.
Proof. exact height_exact. Qed.
Print Assumptions C80_height_exact.

(** ** Cases *)

Definition lists3 : str := s_ "- " ++ nl ++ s_ " - " ++ nl ++ s_ "  - ".
Definition lists3_doc : yamd :=
  mk_yamd None [YListNode (YList LUnordered 0 [YItem [] (Some (YList LUnordered 1 [YItem [] (Some (YList LUnordered 2 [YItem [] None]))]))])].
Example three_levels : deserialize lists3 = Ok lists3_doc /\ 2 * len lists3 + 2 = 3 * 3 + 5 * 3.
Proof. split; vm_compute; reflexivity. Qed.
(** Two collapsibles around a list with two levels: one character less and the nesting is lost. *)
Definition mixed : str := s_ "{%" ++ nl ++ s_ "{%" ++ nl ++ s_ "- " ++ nl ++ s_ " - " ++ nl ++ s_ "%}" ++ nl ++ s_ "%}".
Definition mixed_doc : yamd :=
  mk_yamd None [YCollapsible [] [YCollapsible [] [YListNode (YList LUnordered 0 [YItem [] (Some (YList LUnordered 1 [YItem [] None]))])]]].
Example two_and_two : deserialize mixed = Ok mixed_doc /\ 2 * len mixed + 2 = 12 * 2 + 2 * 2 + 5 * 2 /\ exists n, In n (body mixed_doc) /\ nest 2 2 n.
Proof.
  split; [vm_compute; reflexivity|]. split; [vm_compute; reflexivity|]. eexists. split; [left; reflexivity|].
  eapply nest_inside; [left; reflexivity|]. eapply nest_inside; [left; reflexivity|]. apply nest_list. eapply levels_more; [left; reflexivity|]. apply levels_one.
Qed.
(** A source of 17 characters holds no such block. *)
Example too_short : forall s y n, len s = 17 -> deserialize s = Ok y -> In n (body y) -> ~ nest 2 2 n.
Proof. intros s y n L E I N. pose proof (C80_bound s y n 2 2 E I N). lia. Qed.
Example mixed_height : doc_height mixed_doc = 4 /\ doc_height lists3_doc = 3.
Proof. split; reflexivity. Qed.
