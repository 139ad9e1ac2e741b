(** Theorems about the [serde] feature (property C73).  Specifications: SerdeSpec.v and AstSpec.v. *)
From Coq Require Import String.
From Verif Require Import Base Ast AstSpec Api AstProofs TreeAst Serde SerdeSpec SerdeProofs.
Open Scope list_scope.

(** Every document is read back from what is written.  Heading levels have type [u8]. *)
Theorem C73_round_trip : forall y, (forall l b, In (YHeading l b) (doc_nodes y) -> l <= 255) ->
  de_yamd (ser_yamd y) = Ok (Some y).
Proof. exact yamd_read_back. Qed.
Print Assumptions C73_round_trip.

(** In particular the documents read from sources. *)
Theorem C73_parsed : forall s y, deserialize s = Ok y -> de_yamd (ser_yamd y) = Ok (Some y).
Proof.
  intros s y H. apply yamd_read_back. intros l b I. rewrite deserialize_eq in H. injection H as <-.
  destruct (doc_heading s l b I) as [L _]. lia.
Qed.
Print Assumptions C73_parsed.

(** Different documents are written differently. *)
Theorem C73_injective : forall y z, (forall l b, In (YHeading l b) (doc_nodes y ++ doc_nodes z) -> l <= 255) ->
  ser_yamd y = ser_yamd z -> y = z.
Proof.
  intros y z H E. assert (Y : de_yamd (ser_yamd y) = Ok (Some y)) by (apply yamd_read_back; intros l b I; apply (H l b), in_or_app; left; exact I).
  rewrite E, (yamd_read_back z) in Y by (intros l b I; apply (H l b), in_or_app; right; exact I). congruence.
Qed.
Print Assumptions C73_injective.

(** Reading any value ends with a document or an error. *)
Theorem C73_total : forall v, exists o, de_yamd v = Ok o.
Proof.
  intros v. destruct (sure_yamd v) as [F P]. destruct (de_yamd v) as [o| |]; [exists o; reflexivity|congruence|congruence].
Qed.
Print Assumptions C73_total.

(** What is read can be written and read again. *)
Theorem C73_again : forall v y, de_yamd v = Ok (Some y) -> de_yamd (ser_yamd y) = Ok (Some y).
Proof. intros v y H. apply yamd_read_back. exact (yamd_levels v y H). Qed.
Print Assumptions C73_again.

(** The order of the entries of maps does not matter, at any depth. *)
Theorem C73_order : forall v w, alike v w -> de_yamd v = de_yamd w.
Proof. exact same_yamd. Qed.
Print Assumptions C73_order.

(** Optional fields may be left out. *)
Theorem C73_defaults : forall b fuel,
  de_yamd (VMap [(s_ "body", VList b)]) = de_yamd (VMap [(s_ "metadata", VNull); (s_ "body", VList b)])
  /\ (forall t, de_item (S fuel) (VMap [(s_ "text", t)]) = de_item (S fuel) (VMap [(s_ "text", t); (s_ "nested_list", VNull)]))
  /\ (forall p i, de_node (S fuel) (tagged (s_ "Highlight") (VMap [(s_ "icon", i); (s_ "body", p)]))
                  = de_node (S fuel) (tagged (s_ "Highlight") (VMap [(s_ "title", VNull); (s_ "icon", i); (s_ "body", p)])))
  /\ (forall p t, de_node (S fuel) (tagged (s_ "Highlight") (VMap [(s_ "title", t); (s_ "body", p)]))
                  = de_node (S fuel) (tagged (s_ "Highlight") (VMap [(s_ "title", t); (s_ "icon", VNull); (s_ "body", p)]))).
Proof. intros b fuel. repeat split. Qed.
Print Assumptions C73_defaults.

(** Errors: the body missing, a level that is no [u8], an unknown block, inline node or list type, a block
    without its value, and a field twice. *)
Theorem C73_errors : forall fuel,
  (forall es, (forall v, ~ In (s_ "body", v) es) -> de_yamd (VMap es) = Ok None)
  /\ (forall n b, 255 < n -> de_node (S fuel) (tagged (s_ "Heading") (VMap [(s_ "level", VNum n); (s_ "body", b)])) = Ok None)
  /\ (forall t c, ~ In t (map s_ ["Paragraph"; "Heading"; "Image"; "Images"; "Code"; "List"; "Highlight"; "ThematicBreak"; "Embed"; "Collapsible"]%string) ->
        de_node (S fuel) (tagged t c) = Ok None)
  /\ (forall t c, ~ In t (map s_ ["Anchor"; "Bold"; "Italic"; "Strikethrough"; "Text"; "CodeSpan"; "Emphasis"]%string) -> de_par (tagged t c) = Ok None)
  /\ (forall t c, ~ In t (map s_ ["Italic"; "Strikethrough"; "Text"]%string) -> de_bold (tagged t c) = Ok None)
  /\ (forall t c, ~ In t (map s_ ["Text"; "Anchor"]%string) -> de_head (tagged t c) = Ok None)
  /\ (forall t, ~ In t (map s_ ["Unordered"; "Ordered"]%string) -> de_list_type (Some (VStr t)) = Ok None)
  /\ (forall es, (forall v, ~ In (s_ "value", v) es) -> de_node (S fuel) (VMap es) = Ok None)
  /\ (forall k v w es, In k [s_ "metadata"; s_ "body"] -> de_yamd (VMap ((k, v) :: (k, w) :: es)) = Ok None).
Proof. exact read_errors. Qed.
Print Assumptions C73_errors.

(** Reading does not go through the constructors: [Yamd::new] and [Code::new] never build this document. *)
Theorem C73_normalised_refuted : exists v y, de_yamd v = Ok (Some y) /\ forall s, deserialize s <> Ok y.
Proof.
  exists (VMap [(s_ "body", VList [tagged (s_ "Code") (VMap [(s_ "lang", VStr (s_ "x")); (s_ "code", VStr [97%N; 10%N])])])]),
    (mk_yamd None [YCode (s_ "x") [97%N; 10%N]]).
  split; [vm_compute; reflexivity|]. intros s H. rewrite deserialize_eq in H.
  assert (E : document_of s = mk_yamd None [YCode (s_ "x") [97%N; 10%N]]) by congruence.
  apply (doc_code s (s_ "x") [97%N; 10%N]); [rewrite E; left; reflexivity|]. exists [97%N]. reflexivity.
Qed.
Print Assumptions C73_normalised_refuted.

Definition sample : yamd := match deserialize (s_ "---
m
---
# Hi [a](b)

- x **b _i_**
 - y

{% T
```l
c
```
%}

!! t
! i
p
!!

-----") with Ok y => y | _ => mk_yamd None [] end.
Example sample_blocks : length (body sample) = 5 /\ metadata sample = Some (s_ "m").
Proof. vm_compute. repeat split. Qed.
Example sample_back : de_yamd (ser_yamd sample) = Ok (Some sample).
Proof. vm_compute. reflexivity. Qed.
Example reordered : alike (VMap [(s_ "a", VNull); (s_ "b", VList [VNum 1])]) (VMap [(s_ "b", VList [VNum 1]); (s_ "a", VNull)]).
Proof.
  eapply alike_map; [apply Sorting.Permutation.perm_swap|]. repeat constructor.
Qed.
Example twice : de_yamd (VMap [(s_ "body", VList []); (s_ "body", VList [])]) = Ok None.
Proof. reflexivity. Qed.
Example skipped : de_yamd (VMap [(s_ "x", VNum 1); (s_ "body", VList []); (s_ "x", VNull)]) = Ok (Some (mk_yamd None [])).
Proof. reflexivity. Qed.
Example too_high : de_yamd (VMap [(s_ "body", VList [tagged (s_ "Heading") (VMap [(s_ "level", VNum 256); (s_ "body", VList [])])])]) = Ok None.
Proof. reflexivity. Qed.
Example positional : de_yamd (VList [VStr (s_ "m"); VList [VList [VStr (s_ "ThematicBreak"); VList []]]])
  = Ok (Some (mk_yamd (Some (s_ "m")) [YThematicBreak])).
Proof. reflexivity. Qed.
Example written : ser_yamd (mk_yamd (Some (s_ "m"))
    [YHeading 2 [HText (s_ "h")]; YListNode (YList LOrdered 0 [YItem [PText (s_ "t")] None]); YHighlight None (Some (s_ "i")) [[PBold [BItalic (s_ "b")]]]; YThematicBreak])
  = VMap [(s_ "metadata", VStr (s_ "m"));
          (s_ "body", VList
            [VMap [(s_ "type", VStr (s_ "Heading")); (s_ "value", VMap [(s_ "level", VNum 2); (s_ "body", VList [VMap [(s_ "type", VStr (s_ "Text")); (s_ "value", VStr (s_ "h"))]])])];
             VMap [(s_ "type", VStr (s_ "List")); (s_ "value", VMap [(s_ "list_type", VStr (s_ "Ordered")); (s_ "level", VNum 0); (s_ "body", VList
               [VMap [(s_ "text", VList [VMap [(s_ "type", VStr (s_ "Text")); (s_ "value", VStr (s_ "t"))]]); (s_ "nested_list", VNull)]])])];
             VMap [(s_ "type", VStr (s_ "Highlight")); (s_ "value", VMap [(s_ "title", VNull); (s_ "icon", VStr (s_ "i")); (s_ "body", VList
               [VMap [(s_ "body", VList [VMap [(s_ "type", VStr (s_ "Bold")); (s_ "value", VMap [(s_ "body", VList [VMap [(s_ "type", VStr (s_ "Italic")); (s_ "value", VStr (s_ "b"))]])])]])]])])];
             VMap [(s_ "type", VStr (s_ "ThematicBreak")); (s_ "value", VMap [])]])].
Proof. reflexivity. Qed.
