(** Theorems about collapsibles that must be read (property C65). *)
From Coq Require Import String.
From Verif Require Import Base Lexer LexSpec Ops Parser LexFacts StreamSpec StreamProofs2 MissSpec BorderSpec BorderProofs StreamProofs3 PropParser PropLines.
Open Scope list_scope.

(** No block of the whole document but a collapsible starts where a collapsible can be read. *)
Theorem C65_no_collapsible_missed : forall s ops es a x0 m1 n x mid y m2 y0, parse s = Ok ops -> reads s ops es ->
  es = a ++ (Start NDocument, x0) :: (m1 ++ (Start n, x) :: mid ++ (End n, y) :: m2) ++ [(End NDocument, y0)] ->
  balanced (map fst m1) -> balanced (map fst mid) -> balanced (map fst m2) -> n <> NCollapsible ->
  exists ts1 ts2 x1, lex s = Ok (ts1 ++ ts2) /\ concat_texts s ts1 = Ok x1 /\ covered (a ++ (Start NDocument, x0) :: m1) x1 /\ ~ collapsible_here s ts2.
Proof. exact no_collapsible_missed. Qed.
Print Assumptions C65_no_collapsible_missed.

(** The same for the blocks in a collapsible. *)
Theorem C65_no_nested_collapsible_missed : forall s ops es a xc p x0 m1 n x mid y m2 y0 yc b, parse s = Ok ops -> reads s ops es ->
  es = a ++ (Start NCollapsible, xc) :: (p ++ (Start NDocument, x0) :: (m1 ++ (Start n, x) :: mid ++ (End n, y) :: m2) ++ [(End NDocument, y0)])
         ++ (End NCollapsible, yc) :: b ->
  balanced (map fst p) -> balanced (map fst m1) -> balanced (map fst mid) -> balanced (map fst m2) -> n <> NCollapsible ->
  exists ts1 ts2 x1, lex s = Ok (ts1 ++ ts2) /\ concat_texts s ts1 = Ok x1
    /\ covered (a ++ (Start NCollapsible, xc) :: p ++ (Start NDocument, x0) :: m1) x1 /\ ~ collapsible_here s ts2.
Proof. exact no_inner_missed. Qed.
Print Assumptions C65_no_nested_collapsible_missed.

(** ** Concrete cases *)

(** An unclosed one in front of one with several spaces and with other delimiters in its body. *)
Definition unclosed : string := "{% A

{%   B
{{a|b
 ```c
!!

%}"%string.
Example unclosed_read : map fst (events unclosed) =
  [Start NDocument; Start NParagraph; Value; End NParagraph; Value; Start NCollapsible; Start NModifier; Value; End NModifier; Start NDocument;
   Start NParagraph; Value; End NParagraph; Value; End NDocument; End NCollapsible; End NDocument].
Proof. vm_compute. reflexivity. Qed.
Example unclosed_here : exists ts1 ts2, lex (s_ unclosed) = Ok (ts1 ++ ts2) /\ concat_texts (s_ unclosed) ts1 = Ok (s_ "{% A" ++ [c_nl; c_nl]) /\ collapsible_here (s_ unclosed) ts2.
Proof.
  destruct (lex (s_ unclosed)) as [ts| |] eqn:E; [|vm_compute in E; discriminate..]. vm_compute in E. injection E as <-.
  match goal with |- context [Ok ?ts] => exists (firstn 4 ts), (skipn 4 ts) end.
  split; [reflexivity|]. split; [vm_compute; reflexivity|].
  match goal with |- collapsible_here _ ?ts => let us := eval vm_compute in ts in change (collapsible_here (s_ unclosed) us);
    match us with ?o :: ?u :: ?r => let b := eval vm_compute in (firstn 13 r) in match eval vm_compute in (skipn 13 r) with ?c :: ?r' => exists o, u, b, c, r' end end end.
  split; [reflexivity|]. split; [split; reflexivity|]. split; [right; split; [reflexivity|]|].
  { intros (b & e & H & F & _). destruct b as [|t [|t2 b]]; [discriminate|discriminate|]. injection H as _ <- _. inversion F as [|? ? _ F']; subst. inversion F' as [|? ? N _]; subst. apply N. left. reflexivity. }
  split; [repeat (constructor; [intros [K _]; discriminate K|]); constructor|]. split; [repeat (constructor; [intros [K _]; discriminate K|]); constructor|].
  split; [|split; reflexivity]. repeat (constructor; [intros [[K _] L]; first [discriminate K|discriminate L]|]). constructor.
Qed.
