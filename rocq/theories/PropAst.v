(** Theorems about the documents of [deserialize] (src/op/to_yamd.rs; properties C01, C16-C24). *)
From Coq Require Import String.
From Verif Require Import Base Lexer Ops Parser StreamSpec StreamProofs3 Ast ToYamd Api Strict TreeAst AstSpec AstProofs HandBuilt.

(** [deserialize] never panics and never runs out of fuel. ([display_yamd] is a total function.) *)
Theorem C01_deserialize_total : forall s, exists y, deserialize s = Ok y.
Proof. intros s. exists (document_of s). exact (deserialize_eq s). Qed.
Print Assumptions C01_deserialize_total.

Theorem C16_try_to_yamd : forall source l, Forall (readable source) l ->
  (depth_balanced (map op_kind_of l) -> exists y, try_to_yamd l source = Ok (Some y))
  /\ (~ depth_balanced (map op_kind_of l) -> try_to_yamd l source = Ok None).
Proof. exact try_balanced. Qed.
Print Assumptions C16_try_to_yamd.

(** A wrong [End] is accepted. *)
Theorem C17_mismatch_refuted : exists l source y n m,
  map op_kind_of l = [Start n; End m] /\ n <> m /\ try_to_yamd l source = Ok (Some y).
Proof. exact mismatch_accepted. Qed.
Print Assumptions C17_mismatch_refuted.

Theorem C18_nothing_dropped : forall s ops, parse s = Ok ops ->
  exists y, strict_to_yamd ops s = Some y /\ to_yamd ops s = Ok y.
Proof. intros s ops H. exists (document_of s). pose proof (strict_parse s ops H) as E. split; [exact E|exact (strict_ok _ _ _ E)]. Qed.
Print Assumptions C18_nothing_dropped.

(** The strict conversion never succeeds with something else. *)
Theorem C18_strict : forall l s y, strict_to_yamd l s = Some y -> to_yamd l s = Ok y.
Proof. intros l s y. exact (strict_ok l s y). Qed.
Print Assumptions C18_strict.

Lemma of_deserialize : forall s y, deserialize s = Ok y -> y = document_of s.
Proof. intros s y H. rewrite deserialize_eq in H. congruence. Qed.

Theorem C19_heading_level : forall s y l b, deserialize s = Ok y -> In (YHeading l b) (doc_nodes y) -> 1 <= l <= 6.
Proof. intros s y l b H Hi. rewrite (of_deserialize s y H) in Hi. exact (proj1 (doc_heading s l b Hi)). Qed.
Print Assumptions C19_heading_level.

(** The levels are the numbers of [#] of the heading starts, in order. *)
Theorem C19_heading_hashes : forall s y ops es, deserialize s = Ok y -> parse s = Ok ops -> reads s ops es ->
  flat_map heading_levels (doc_nodes y) = stream_levels es.
Proof. intros s y ops es H P R. rewrite (of_deserialize s y H). exact (doc_heading_levels s ops es P R). Qed.
Print Assumptions C19_heading_hashes.

Theorem C20_list_levels : forall s y l, deserialize s = Ok y -> In (YListNode l) (doc_nodes y) -> levels_ok 0 l.
Proof. intros s y l H Hi. rewrite (of_deserialize s y H) in Hi. exact (doc_list s l Hi). Qed.
Print Assumptions C20_list_levels.

Theorem C21_images : forall s y l, deserialize s = Ok y -> In (YImages l) (doc_nodes y) -> 2 <= List.length l.
Proof. intros s y l H Hi. rewrite (of_deserialize s y H) in Hi. exact (doc_images s l Hi). Qed.
Print Assumptions C21_images.

Theorem C22_code_trimmed : forall s y lang code, deserialize s = Ok y -> In (YCode lang code) (doc_nodes y) -> ~ ends_with_nl code.
Proof. intros s y l x H Hi. rewrite (of_deserialize s y H) in Hi. exact (doc_code s l x Hi). Qed.
Print Assumptions C22_code_trimmed.

Theorem C22_metadata_trimmed : forall s y m, deserialize s = Ok y -> metadata y = Some m -> ~ starts_with_nl m /\ ~ ends_with_nl m.
Proof. intros s y m H Hi. rewrite (of_deserialize s y H) in Hi. exact (doc_metadata s m Hi). Qed.
Print Assumptions C22_metadata_trimmed.

Theorem C22_texts_trimmed : forall s y n b b1 x, deserialize s = Ok y -> In n (doc_nodes y) -> In b (trimmed_bodies n) ->
  b = b1 ++ [PText x] -> ~ ends_with_nl x.
Proof. intros s y n b b1 x H Hn. rewrite (of_deserialize s y H) in Hn. exact (doc_body_trimmed s n b b1 x Hn). Qed.
Print Assumptions C22_texts_trimmed.

Theorem C23_texts : forall s y b, deserialize s = Ok y -> In b (doc_bodies y) ->
  (forall x, In (PText x) b -> x <> []) /\ no_neighbours (both is_ptext) b.
Proof.
  intros s y b H Hb. rewrite (of_deserialize s y H) in Hb. destruct (doc_body_normal s b Hb) as (F & N & _). split; [|exact N].
  intros x Hx. rewrite Forall_forall in F. exact (F _ Hx).
Qed.
Print Assumptions C23_texts.

Theorem C23_bold_texts : forall s y b l, deserialize s = Ok y -> In b (doc_bodies y) -> In (PBold l) b ->
  (forall x, In (BText x) l -> x <> []) /\ no_neighbours (both is_btext) l.
Proof.
  intros s y b l H Hb Hl. rewrite (of_deserialize s y H) in Hb. destruct (doc_body_normal s b Hb) as (F & _).
  rewrite Forall_forall in F. destruct (F _ Hl) as (_ & G & N & _). split; [|exact N].
  intros x Hx E. rewrite Forall_forall in G. apply (proj1 (G _ Hx)). congruence.
Qed.
Print Assumptions C23_bold_texts.

Theorem C23_heading_texts : forall s y l b, deserialize s = Ok y -> In (YHeading l b) (doc_nodes y) ->
  (forall x, In (HText x) b -> x <> []) /\ no_neighbours (both is_htext) b.
Proof.
  intros s y l b H Hi. rewrite (of_deserialize s y H) in Hi. destruct (doc_heading s l b Hi) as (_ & F & N). split; [|exact N].
  intros x Hx E. rewrite Forall_forall in F. apply (F _ Hx). congruence.
Qed.
Print Assumptions C23_heading_texts.

Theorem C24_inline : forall s y b, deserialize s = Ok y -> In b (doc_bodies y) ->
  (forall x, In (PEmphasis x) b \/ In (PCodeSpan x) b \/ In (PStrike x) b -> x <> [])
  /\ (forall l, In (PBold l) b -> l <> [] /\ (forall x, In (BStrike x) l -> x <> []) /\ no_neighbours (both is_bstrike) l)
  /\ no_neighbours fuse b.
Proof.
  intros s y b H Hb. rewrite (of_deserialize s y H) in Hb. destruct (doc_body_normal s b Hb) as (F & _ & N).
  rewrite Forall_forall in F. split; [|split; [|exact N]].
  - intros x [Hx|[Hx|Hx]]; exact (F _ Hx).
  - intros l Hl. destruct (F _ Hl) as (NE & G & _ & K). split; [exact NE|]. split; [|exact K].
    intros x Hx E. rewrite Forall_forall in G. apply (proj2 (G _ Hx)). congruence.
Qed.
Print Assumptions C24_inline.

(** ** Non-vacuity *)

Definition sample : str := s_ "---

m

---

## T [a](b)

x **b _i_~~s~~** *e*`c`~~d~~

{% Title
# N

![a](b)
![c](d)

```r
x

```
!! M
hi

ho
!!
%}
- a
 + b

".
Definition sample_doc : yamd := match deserialize sample with Ok y => y | _ => mk_yamd None [] end.
Example sample_deserializes : deserialize sample = Ok sample_doc.
Proof. vm_compute. reflexivity. Qed.
Example sample_levels : flat_map heading_levels (doc_nodes sample_doc) = [2; 1].
Proof. vm_compute. reflexivity. Qed.
Example sample_meta : metadata sample_doc = Some (s_ "m").
Proof. vm_compute. reflexivity. Qed.
Example sample_list : In (YListNode (YList LUnordered 0 [YItem [PText (s_ "a")] (Some (YList LOrdered 1 [YItem [PText (s_ "b")] None]))])) (doc_nodes sample_doc).
Proof. vm_compute. repeat (try (left; reflexivity); right). Qed.
Example sample_images : In (YImages [mk_image (s_ "a") (s_ "b"); mk_image (s_ "c") (s_ "d")]) (doc_nodes sample_doc).
Proof. vm_compute. repeat (try (left; reflexivity); right). Qed.
Example sample_code : In (YCode (s_ "r") (s_ "x")) (doc_nodes sample_doc).
Proof. vm_compute. repeat (try (left; reflexivity); right). Qed.
Example sample_highlight : In (YHighlight (Some (s_ "M")) None [[PText (s_ "hi")]; [PText (s_ "ho")]]) (doc_nodes sample_doc).
Proof. vm_compute. repeat (try (left; reflexivity); right). Qed.
Example sample_bodies : In [PText (s_ "x "); PBold [BText (s_ "b "); BItalic (s_ "i"); BStrike (s_ "s")]; PText (s_ " ");
   PEmphasis (s_ "e"); PCodeSpan (s_ "c"); PStrike (s_ "d")] (doc_bodies sample_doc).
Proof. vm_compute. repeat (try (left; reflexivity); right). Qed.

(** Streams for [try_to_yamd]: accepted, rejected, and one with a bad span, where slicing panics. *)
Example hand_accepted : exists y, try_to_yamd
  [mk_op (Start NDocument) (Span 0 0); mk_op (Start NHeading) (Materialized (s_ "## ")); mk_op Value (Span 0 1);
   mk_op (End NHeading) (Span 9 7); mk_op (End NDocument) (Span 0 0)] (s_ "abc") = Ok (Some y) /\ body y = [YHeading 2 [HText (s_ "a")]].
Proof. eexists. split; vm_compute; reflexivity. Qed.
Example hand_rejected : try_to_yamd [mk_op (Start NDocument) (Span 0 0); mk_op (End NDocument) (Span 0 0); mk_op (End NDocument) (Span 0 0);
   mk_op (Start NDocument) (Span 0 0)] [] = Ok None.
Proof. vm_compute. reflexivity. Qed.
Example hand_panics : try_to_yamd [mk_op (Start NDocument) (Span 0 0); mk_op Value (Span 0 5); mk_op (End NDocument) (Span 0 0)] (s_ "abc") = Panic.
Proof. vm_compute. reflexivity. Qed.
