(** Theorems about the parser (properties C45–C49, C57, C58): the reference parser, and where exactly a node
    starts and ends in the source. *)
From Coq Require Import String.
From Verif Require Import Base Lexer LexSpec Ops Parser FParser LexFacts StreamSpec StreamProofs StreamProofs2 Lines StreamProofs3 LineProofs MissSpec MissProofs Refine3 PropParser.

(** [fparse] is a parser without a cursor, without a list of ops that is cut back, and without
    repeated scanning from the start: it maps a list of tokens to a list of syntax trees. *)
Theorem C45_reference : forall s, parse s = Ok (flattens s (fparse (spec_tokens s))).
Proof. exact (fun s => proj1 (parse_refines s)). Qed.
Print Assumptions C45_reference.

(** The text of such a node reaches exactly to the first closing token. *)
Theorem C46_first_closer : forall s ops es a n x mid v y b, parse s = Ok ops -> reads s ops es ->
  es = a ++ (Start n, x) :: mid ++ (Value, v) :: (End n, y) :: b -> balanced (map fst mid) -> ends_first n = true ->
  exists ts1 ts2 ts3 x1, lex s = Ok (ts1 ++ ts2 ++ ts3)
    /\ concat_texts s ts1 = Ok x1 /\ covered (a ++ (Start n, x) :: mid) x1
    /\ concat_texts s ts2 = Ok v /\ Forall (fun t => ~ closing s n t) ts2.
Proof. exact first_closer. Qed.
Print Assumptions C46_first_closer.

(** Images, code blocks and embeds end together with a line. *)
Theorem C47_line_end : forall s ops es a n x mid y b, parse s = Ok ops -> reads s ops es ->
  es = a ++ (Start n, x) :: mid ++ (End n, y) :: b -> balanced (map fst mid) -> n = NImage \/ n = NCode \/ n = NEmbed ->
  exists ts1 ts2 x1, lex s = Ok (ts1 ++ ts2)
    /\ concat_texts s ts1 = Ok x1 /\ covered (a ++ (Start n, x) :: mid ++ [(End n, y)]) x1 /\ at_line_end ts1 ts2.
Proof. exact line_end. Qed.
Print Assumptions C47_line_end.

(** Headings, thematic breaks, lists and list items start at the start of a line; a modifier (of a
    collapsible, a code block or a highlight) starts on the line of the opening token. *)
Theorem C48_line_start : forall s ops es a n x r, parse s = Ok ops -> reads s ops es -> es = a ++ (Start n, x) :: r ->
  starts_line n = true \/ n = NModifier ->
  exists ts1 t ts2 x1, lex s = Ok (ts1 ++ t :: ts2) /\ concat_texts s ts1 = Ok x1 /\ covered a x1
    /\ (column (t_pos t) = 0 <-> n <> NModifier).
Proof. exact line_start. Qed.
Print Assumptions C48_line_start.

(** The destination of a link ends at the [)] that balances its [(]; if there is none, at a [)] after
    which the paragraph or heading has no further [)]. *)
Theorem C49_destination : forall s ops es a p x m1 v y1 y2 m2 y b, parse s = Ok ops -> reads s ops es ->
  es = a ++ (Start p, x) :: (m1 ++ (Value, v) :: (End NDestination, y1) :: (End NAnchor, y2) :: m2) ++ (End p, y) :: b ->
  balanced (map fst (m1 ++ (Value, v) :: (End NDestination, y1) :: (End NAnchor, y2) :: m2)) -> p = NParagraph \/ p = NHeading ->
  exists ts1 ts2 u ts3 ts4 x1 x3 d, lex s = Ok (ts1 ++ ts2 ++ u :: ts3 ++ ts4)
    /\ concat_texts s ts1 = Ok x1 /\ covered (a ++ (Start p, x) :: m1) x1
    /\ concat_texts s ts2 = Ok v /\ nesting 0 ts2 = Some d /\ kind u = RightParenthesis
    /\ concat_texts s ts3 = Ok x3 /\ covered m2 x3
    /\ (d = 0 \/ Forall (fun t => kind t <> RightParenthesis) ts3).
Proof. exact destination. Qed.
Print Assumptions C49_destination.

(** No inline node is missed: at no token of a text does a node start that could have been read up to
    the end of the paragraph, heading or bold node around it. *)
Theorem C57_none_missed : forall s ops es a p x m1 v m2 y b, parse s = Ok ops -> reads s ops es ->
  es = a ++ (Start p, x) :: (m1 ++ (Value, v) :: m2) ++ (End p, y) :: b -> balanced (map fst m1) -> balanced (map fst m2) ->
  p = NParagraph \/ p = NHeading \/ p = NBold ->
  exists ts1 ts2 ts3 ts4 x1 x3, lex s = Ok (ts1 ++ ts2 ++ ts3 ++ ts4)
    /\ concat_texts s ts1 = Ok x1 /\ covered (a ++ (Start p, x) :: m1) x1
    /\ concat_texts s ts2 = Ok v /\ concat_texts s ts3 = Ok x3 /\ covered m2 x3
    /\ forall us vs, ts2 = us ++ vs -> vs <> [] -> ~ node_here s p (vs ++ ts3).
Proof. exact none_missed_event. Qed.
Print Assumptions C57_none_missed.

(** No block is missed: from the tokens of a paragraph in a document no heading, thematic break, list or
    lines of images can be read, and from these tokens and the rest of the source no code block, embed or
    highlight. *)
Theorem C58_no_block_missed : forall s ops es a x0 m1 x mid y m2 y0 b, parse s = Ok ops -> reads s ops es ->
  es = a ++ (Start NDocument, x0) :: (m1 ++ (Start NParagraph, x) :: mid ++ (End NParagraph, y) :: m2) ++ (End NDocument, y0) :: b ->
  balanced (map fst m1) -> balanced (map fst mid) -> balanced (map fst m2) ->
  exists ts1 ts2 ts3 x1 x2, lex s = Ok (ts1 ++ ts2 ++ ts3)
    /\ concat_texts s ts1 = Ok x1 /\ covered (a ++ (Start NDocument, x0) :: m1) x1
    /\ concat_texts s ts2 = Ok x2 /\ covered mid x2 /\ ~ block_here s ts2 /\ ~ long_block_here s (ts2 ++ ts3).
Proof. exact no_block_event. Qed.
Print Assumptions C58_no_block_missed.

(** ** Concrete cases *)

Definition events (x : string) : list event := match parse (s_ x) with Ok o => reading (s_ x) o | _ => [] end.


(** Nested parentheses; then a [(] that is never closed, where the last [)] counts. *)
Example nested_destination : events "[a](b(c)d) e)" =
  [(Start NDocument, []); (Start NParagraph, []); (Start NAnchor, []); (Start NTitle, s_ "["); (Value, s_ "a"); (End NTitle, s_ "]");
   (Start NDestination, s_ "("); (Value, s_ "b(c)d"); (End NDestination, s_ ")"); (End NAnchor, []); (Value, s_ " e)");
   (End NParagraph, []); (End NDocument, [])].
Proof. vm_compute. reflexivity. Qed.
Example last_destination : events "[a](b(c)d e" =
  [(Start NDocument, []); (Start NParagraph, []); (Start NAnchor, []); (Start NTitle, s_ "["); (Value, s_ "a"); (End NTitle, s_ "]");
   (Start NDestination, s_ "("); (Value, s_ "b(c"); (End NDestination, s_ ")"); (End NAnchor, []); (Value, s_ "d e");
   (End NParagraph, []); (End NDocument, [])].
Proof. vm_compute. reflexivity. Qed.
Example last_destination_case : exists a m1 v y1 y2 m2 b,
  events "[a](b(c)d e" = a ++ (Start NParagraph, []) :: (m1 ++ (Value, v) :: (End NDestination, y1) :: (End NAnchor, y2) :: m2) ++ (End NParagraph, []) :: b
  /\ balanced (map fst (m1 ++ (Value, v) :: (End NDestination, y1) :: (End NAnchor, y2) :: m2)).
Proof.
  exists [(Start NDocument, [])], (firstn 5 (skipn 2 (events "[a](b(c)d e"))), (s_ "b(c"), (s_ ")"), [], [(Value, s_ "d e")], [(End NDocument, [])].
  split; [vm_compute; reflexivity|].
  apply (bal_node NAnchor [Start NTitle; Value; End NTitle; Start NDestination; Value; End NDestination] [Value]); [|repeat constructor].
  apply (bal_node NTitle [Value] [Start NDestination; Value; End NDestination]); [repeat constructor|].
  apply (bal_node NDestination [Value] []); repeat constructor.
Qed.

(** The first closing token counts, also when a later one would give a longer node. *)
Example first_star : events "*a* b*" =
  [(Start NDocument, []); (Start NParagraph, []); (Start NEmphasis, s_ "*"); (Value, s_ "a"); (End NEmphasis, s_ "*"); (Value, s_ " b*");
   (End NParagraph, []); (End NDocument, [])].
Proof. vm_compute. reflexivity. Qed.

(** An image in the middle of a line is text and a link. *)
Example image_line : map fst (events "![a](b) c") =
  [Start NDocument; Start NParagraph; Value; Start NAnchor; Start NTitle; Value; End NTitle; Start NDestination; Value; End NDestination; End NAnchor;
   Value; End NParagraph; End NDocument].
Proof. vm_compute. reflexivity. Qed.
Example image_end : map fst (events "![a](b)

c") =
  [Start NDocument; Start NImage; Start NTitle; Value; End NTitle; Start NDestination; Value; End NDestination; End NImage;
   Value; Start NParagraph; Value; End NParagraph; End NDocument].
Proof. vm_compute. reflexivity. Qed.

(** A modifier is on the line of the opening token, a list item starts a line. *)
Example modifiers : map fst (events "{% T
- a - b
%}") =
  [Start NDocument; Start NCollapsible; Start NModifier; Value; End NModifier; Start NDocument; Start NUnorderedList; Start NListItem;
   Start NParagraph; Value; End NParagraph; End NListItem; End NUnorderedList; End NDocument; End NCollapsible; End NDocument].
Proof. vm_compute. reflexivity. Qed.

(** Delimiters that open nothing in their paragraph; the same ones in front of a closing delimiter. *)
Example openers : events "a * b ~~ c [d] (e _f_ ` **g

* ~~ ) ` **" =
  [(Start NDocument, []); (Start NParagraph, []); (Value, s_ "a * b ~~ c [d] (e "); (Start NItalic, s_ "_"); (Value, s_ "f"); (End NItalic, s_ "_"); (Value, s_ " ` **g");
   (End NParagraph, []); (Value, [c_nl; c_nl]); (Start NParagraph, []); (Value, s_ "* ~~ ) ` **"); (End NParagraph, []); (End NDocument, [])].
Proof. vm_compute. reflexivity. Qed.
Example seen : exists ts, lex (s_ "[d](e _f_") = Ok ts /\ ~ node_here (s_ "[d](e _f_") NHeading ts /\ exists ts1 ts2, ts = ts1 ++ ts2 /\ node_here (s_ "[d](e _f_") NParagraph ts2.
Proof.
  eexists. split; [vm_compute; reflexivity|]. split.
  - intros (o & b & c & p & d & q & r & E & _ & _ & _ & _ & Kq & _).
    assert (I0 : exists t, In t (o :: b ++ c :: p :: d ++ q :: r) /\ kind t = RightParenthesis).
    { exists q. split; [|exact Kq]. right. apply in_or_app. right. right. right. apply in_elt. }
    rewrite <- E in I0. destruct I0 as (t & It & Kt). cbn in It. repeat (destruct It as [<-|It]; [discriminate Kt|]). exact It.
  - eexists (_ :: _ :: _ :: _ :: _ :: []), _. split; [reflexivity|]. right. right. right. left. eexists _, [_], _, []. split; [reflexivity|]. split; split; reflexivity.
Qed.

(** Almost a block: no space, seven [#], a closing fence with text behind it, a highlight without an end. *)
Example paragraphs : map fst (events "#a

####### b

----

```c
d
``` e

{{f}}

!! g !!

h") =
  [Start NDocument; Start NParagraph; Value; End NParagraph; Value; Start NParagraph; Value; End NParagraph; Value; Start NParagraph; Value; End NParagraph; Value;
   Start NParagraph; Value; End NParagraph; Value; Start NParagraph; Value; End NParagraph; Value; Start NParagraph; Value; End NParagraph; Value; Start NParagraph; Value; End NParagraph;
   End NDocument].
Proof. vm_compute. reflexivity. Qed.
Definition code_text : str := s_ "```c

d
```".
Definition highlight_text : str := s_ "!! T
! i

a
!!".
Definition embed_text : str := s_ "{{a|b}c|}}".
Example blocks_here : (exists ts, lex code_text = Ok ts /\ code_here code_text ts) /\ (exists ts, lex highlight_text = Ok ts /\ highlight_here highlight_text ts)
  /\ (exists ts, lex embed_text = Ok ts /\ embed_here embed_text ts).
Proof.
  split; [|split]; (eexists; split; [vm_compute; reflexivity|]).
  - eexists _, [_], _, [_; _], _, []. split; [reflexivity|]. split; [repeat split|]. split; [repeat constructor; intros [K|K]; discriminate K|]. split; [right; reflexivity|].
    split; [repeat constructor; intros [[K _] _]; discriminate K|]. repeat split.
  - eexists _, _, [_; _; _; _; _; _; _; _], _, []. split; [reflexivity|]. split; [repeat split|]. split; [left; split; reflexivity|]. split; [repeat constructor; intros [K _]; discriminate K|]. repeat split.
  - eexists _, [_], _, [_; _; _; _], _, []. split; [reflexivity|]. split; [split; reflexivity|]. split; [reflexivity|]. split; [repeat constructor; discriminate|]. split; [repeat constructor; intros [K _]; discriminate K|].
    split; [split; reflexivity|]. split; [repeat constructor; intros [K T]; try discriminate K; vm_compute in T; discriminate T|]. split; [repeat constructor; intros [K _]; discriminate K|]. repeat split.
Qed.
