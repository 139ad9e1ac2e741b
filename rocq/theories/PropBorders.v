(** Theorems about the borders of blocks (property C64). *)
From Coq Require Import String.
From Verif Require Import Base Lexer LexSpec Ops Parser LexFacts StreamSpec StreamProofs2 MissSpec BorderSpec BorderProofs StreamProofs3 PropParser PropLines.
Open Scope list_scope.

(** A paragraph, heading, image or group of images of the whole document reaches to an empty line or to
    the end of the source; a list may also end in front of a line with a list marker. *)
Theorem C64_block_end : forall s ops es a x0 m1 n x mid y m2 y0, parse s = Ok ops -> reads s ops es ->
  es = a ++ (Start NDocument, x0) :: (m1 ++ (Start n, x) :: mid ++ (End n, y) :: m2) ++ [(End NDocument, y0)] ->
  balanced (map fst m1) -> balanced (map fst mid) -> balanced (map fst m2) ->
  exists ts1 ts2 x1, lex s = Ok (ts1 ++ ts2) /\ concat_texts s ts1 = Ok x1
    /\ covered (a ++ (Start NDocument, x0) :: m1 ++ (Start n, x) :: mid ++ [(End n, y)]) x1
    /\ after_block s n (fun _ => False) ts2.
Proof. exact block_top. Qed.
Print Assumptions C64_block_end.

(** In a collapsible these blocks may also end in front of [%}], and no block but code and another
    collapsible has a [%}] at the start of a line. *)
Theorem C64_block_in_collapsible : forall s ops es a xc p x0 m1 n x mid y m2 y0 yc b, parse s = Ok ops -> reads s ops es ->
  es = a ++ (Start NCollapsible, xc) :: (p ++ (Start NDocument, x0) :: (m1 ++ (Start n, x) :: mid ++ (End n, y) :: m2) ++ [(End NDocument, y0)])
         ++ (End NCollapsible, yc) :: b ->
  balanced (map fst p) -> balanced (map fst m1) -> balanced (map fst mid) -> balanced (map fst m2) ->
  exists ts1 ts2 ts3 x1 x2, lex s = Ok (ts1 ++ ts2 ++ ts3)
    /\ concat_texts s ts1 = Ok x1 /\ covered (a ++ (Start NCollapsible, xc) :: p ++ (Start NDocument, x0) :: m1) x1
    /\ concat_texts s ts2 = Ok x2 /\ covered ((Start n, x) :: mid ++ [(End n, y)]) x2
    /\ after_block s n end_ahead ts3
    /\ (n <> NCode -> n <> NCollapsible -> still_open ts2).
Proof. exact block_inner. Qed.
Print Assumptions C64_block_in_collapsible.

(** The document of a collapsible starts at the start of a line. *)
Theorem C64_inner_document : forall s ops es a xc p x0 m y0 yc b, parse s = Ok ops -> reads s ops es ->
  es = a ++ (Start NCollapsible, xc) :: (p ++ (Start NDocument, x0) :: m ++ [(End NDocument, y0)]) ++ (End NCollapsible, yc) :: b ->
  balanced (map fst p) -> balanced (map fst m) ->
  exists ts1 t ts2 x1, lex s = Ok (ts1 ++ t :: ts2) /\ concat_texts s ts1 = Ok x1 /\ covered (a ++ (Start NCollapsible, xc) :: p) x1 /\ first_on_line t.
Proof. exact inner_start. Qed.
Print Assumptions C64_inner_document.

(** Images, code blocks, embeds, highlights and collapsibles take the line ending after them. *)
Theorem C64_line_ending : forall s ops es a n x mid y b, parse s = Ok ops -> reads s ops es ->
  es = a ++ (Start n, x) :: mid ++ (End n, y) :: b -> balanced (map fst mid) -> takes_eol n = true ->
  exists ts1 ts2 x1, lex s = Ok (ts1 ++ ts2)
    /\ concat_texts s ts1 = Ok x1 /\ covered (a ++ (Start n, x) :: mid ++ [(End n, y)]) x1 /\ eol_taken ts1 ts2.
Proof. exact eol_event. Qed.
Print Assumptions C64_line_ending.

(** The title line of a collapsible in a collapsible is not followed by [%}]. *)
Theorem C64_nested_title : forall s ops es a xc p x0 m1 x xm v e m2 y m3 y0 yc b, parse s = Ok ops -> reads s ops es ->
  es = a ++ (Start NCollapsible, xc) :: (p ++ (Start NDocument, x0) ::
         (m1 ++ (Start NCollapsible, x) :: ((Start NModifier, xm) :: (Value, v) :: (End NModifier, e) :: m2) ++ (End NCollapsible, y) :: m3) ++ [(End NDocument, y0)])
         ++ (End NCollapsible, yc) :: b ->
  balanced (map fst p) -> balanced (map fst m1) -> balanced (map fst m2) -> balanced (map fst m3) -> newline e ->
  exists ts1 ts2 x1, lex s = Ok (ts1 ++ ts2)
    /\ concat_texts s ts1 = Ok x1
    /\ covered (a ++ (Start NCollapsible, xc) :: p ++ (Start NDocument, x0) :: m1 ++ [(Start NCollapsible, x); (Start NModifier, xm); (Value, v); (End NModifier, e)]) x1
    /\ ~ brace_ahead ts2.
Proof. exact nested_title. Qed.
Print Assumptions C64_nested_title.

(** ** Concrete cases *)

(** A list in front of a line with another marker, an image that is followed by text. *)
Example other_marker : map fst (events "- a
 - b
+ c

![a](b)
c") =
  [Start NDocument; Start NUnorderedList; Start NListItem; Start NParagraph; Value; End NParagraph;
   Start NUnorderedList; Start NListItem; Start NParagraph; Value; End NParagraph; End NListItem; End NUnorderedList; End NListItem; End NUnorderedList;
   Start NOrderedList; Start NListItem; Start NParagraph; Value; End NParagraph; End NListItem; End NOrderedList; Value;
   Start NParagraph; Value; Start NAnchor; Start NTitle; Value; End NTitle; Start NDestination; Value; End NDestination; End NAnchor; Value; End NParagraph; End NDocument].
Proof. vm_compute. reflexivity. Qed.
Example other_marker_case : exists ts, lex (s_ "+ b") = Ok ts /\ item_ahead (s_ "+ b") ts /\ ~ blank_ahead ts.
Proof.
  eexists. split; [vm_compute; reflexivity|]. split; [|discriminate]. left. eexists _, _, _. split; [reflexivity|]. split; [right; split; reflexivity|]. split; [reflexivity|split; reflexivity].
Qed.

(** The [%}] ends the collapsible, not the embed; and the end of the highlight takes its line ending. *)
Example inside : events "{% T
{{a|b
%}
c}}

!!
d
!!
e" =
  [(Start NDocument, []); (Start NCollapsible, s_ "{% "); (Start NModifier, []); (Value, s_ "T"); (End NModifier, [c_nl]); (Start NDocument, []);
   (Start NParagraph, []); (Value, s_ "{{a|b"); (End NParagraph, []); (End NDocument, []); (End NCollapsible, s_ "%}" ++ [c_nl]);
   (Start NParagraph, []); (Value, s_ "c}}"); (End NParagraph, []); (Value, [c_nl; c_nl]);
   (Start NHighlight, s_ "!!" ++ [c_nl]); (Start NParagraph, []); (Value, s_ "d" ++ [c_nl]); (End NParagraph, []); (End NHighlight, s_ "!!" ++ [c_nl]);
   (Start NParagraph, []); (Value, s_ "e"); (End NParagraph, []); (End NDocument, [])].
Proof. vm_compute. reflexivity. Qed.

(** A title directly followed by [%}]: fine on the top level, text in a collapsible. *)
Example titles : map fst (events "{% A
%}

{% B
{% C
%}
%}

{% D
{% E

%}
%}") =
  [Start NDocument; Start NCollapsible; Start NModifier; Value; End NModifier; Start NDocument; End NDocument; End NCollapsible; Value;
   Start NCollapsible; Start NModifier; Value; End NModifier; Start NDocument; Start NParagraph; Value; End NParagraph; End NDocument; End NCollapsible;
   Start NParagraph; Value; End NParagraph; Value;
   Start NCollapsible; Start NModifier; Value; End NModifier; Start NDocument;
   Start NCollapsible; Start NModifier; Value; End NModifier; Start NDocument; End NDocument; End NCollapsible;
   End NDocument; End NCollapsible; End NDocument].
Proof. vm_compute. reflexivity. Qed.
