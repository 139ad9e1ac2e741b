(** Theorems about the op streams of [op::parse] (src/op/; properties C09-C15, C25, C43). *)
From Coq Require Import String.
From Verif Require Import Base Lexer LexFacts Ops Parser StreamSpec StreamProofs StreamProofs2 StreamProofs3.

(** [parse] never panics and never runs out of fuel. *)
Theorem C01_parse_total : forall s, exists ops, parse s = Ok ops.
Proof. exact parse_total. Qed.
Print Assumptions C01_parse_total.

Theorem C09_balanced : forall s ops, parse s = Ok ops -> balanced (map op_kind_of ops).
Proof. exact parse_balanced. Qed.
Print Assumptions C09_balanced.

(** The stream can be read (all contents are valid) and follows the document type of StreamSpec.v. *)
Theorem C10_document_type : forall s ops, parse s = Ok ops -> exists es, reads s ops es /\ valid_stream es.
Proof. exact parse_valid. Qed.
Print Assumptions C10_document_type.

(** The line ending before the [%}] of a collapsible may be covered by no op. *)
Theorem C11_coverage_refuted : exists s ops es,
  parse s = Ok ops /\ reads s ops es /\ flat_map snd es <> unescape s.
Proof. exact coverage_refuted. Qed.
Print Assumptions C11_coverage_refuted.

(** Nothing else is missing, repeated or reordered. *)
Theorem C11_coverage : forall s ops es, parse s = Ok ops -> reads s ops es -> covered es (unescape s).
Proof. exact coverage. Qed.
Print Assumptions C11_coverage.

Theorem C11_coverage_exact : forall s ops es, parse s = Ok ops -> reads s ops es ->
  ~ In (End NCollapsible) (map op_kind_of ops) -> flat_map snd es = unescape s.
Proof. exact coverage_exact. Qed.
Print Assumptions C11_coverage_exact.

Theorem C12_spans : forall s ops, parse s = Ok ops ->
  (forall k a b, In (mk_op k (Span a b)) ops -> a < b -> boundary s a /\ boundary s b /\ b <= byte_len s)
  /\ (forall i j k a b k' a' b', i < j ->
        nth_error ops i = Some (mk_op k (Span a b)) -> nth_error ops j = Some (mk_op k' (Span a' b')) ->
        a < b -> a' < b' -> b <= a').
Proof. exact parse_spans. Qed.
Print Assumptions C12_spans.

(** A copied text has an escaping backslash strictly inside the source text it stands for. *)
Theorem C13_copies : forall s ops k x, parse s = Ok ops -> In (mk_op k (Materialized x)) ops ->
  exists a r1 r2 b, s = a ++ (r1 ++ c_bslash :: r2) ++ b /\ dangling a = false
    /\ r1 <> [] /\ dangling r1 = false /\ r2 <> [] /\ dangling (c_bslash :: r2) = false
    /\ x = unescape (r1 ++ c_bslash :: r2).
Proof. exact parse_copies. Qed.
Print Assumptions C13_copies.

Theorem C13_no_copies : forall s ops o, parse s = Ok ops -> ~ In c_bslash s -> In o ops ->
  exists a b, op_content o = Span a b.
Proof. exact parse_no_copies. Qed.
Print Assumptions C13_no_copies.

Theorem C14_delimiters : forall s ops es, parse s = Ok ops -> reads s ops es ->
  (forall n x, In (Start n, x) es -> start_delim n x) /\ (forall n x, In (End n, x) es -> end_delim n x).
Proof. exact stream_delims. Qed.
Print Assumptions C14_delimiters.

Theorem C15_stream_shape : forall s ops, parse s = Ok ops ->
  exists m d, map op_kind_of ops = m ++ Start NDocument :: d ++ [End NDocument]
    /\ balanced d /\ ~ In (Start NMetadata) d
    /\ (m = [] \/ (m = [Start NMetadata; Value; End NMetadata] /\ three_dashes_first s)).
Proof. exact parse_top. Qed.
Print Assumptions C15_stream_shape.

(** A paragraph, heading, image, sequence of images, thematic break, list or list item of the stream
    (anywhere) stands for tokens none of which is a [Terminator]; the ops before it stand for the tokens before. *)
Theorem C25_no_blank_line : forall s ops es a n x mid y b, parse s = Ok ops -> reads s ops es ->
  es = a ++ (Start n, x) :: mid ++ (End n, y) :: b -> balanced (map fst mid) -> one_piece n = true ->
  exists ts1 ts2 ts3 x1, lex s = Ok (ts1 ++ ts2 ++ ts3)
    /\ concat_texts s ts1 = Ok x1 /\ covered a x1
    /\ concat_texts s ts2 = Ok (x ++ flat_map snd mid ++ y)
    /\ Forall (fun t => kind t <> Terminator) ts2.
Proof. exact no_blank_line. Qed.
Print Assumptions C25_no_blank_line.

(** Every [Start] of a delimited node has its [End]; the source has the opening token exactly at the
    end of what the ops before stand for, and the closing token exactly at the end of what the ops
    inside stand for (in a collapsible maybe one line ending later). *)
Theorem C43_closed : forall s ops es a n x r d1 d2, parse s = Ok ops -> reads s ops es ->
  es = a ++ (Start n, x) :: r -> delims n = Some (d1, d2) ->
  exists mid y b ts1 t ts2 u ts3 x1 x2 e, r = mid ++ (End n, y) :: b /\ balanced (map fst mid)
    /\ lex s = Ok (ts1 ++ t :: ts2 ++ u :: ts3)
    /\ concat_texts s ts1 = Ok x1 /\ covered a x1
    /\ concat_texts s (t :: ts2) = Ok (x2 ++ e) /\ covered ((Start n, x) :: mid) x2
    /\ (e = [] \/ (n = NCollapsible /\ newline e))
    /\ is_delim s d1 t /\ is_delim s d2 u.
Proof. exact closed_node. Qed.
Print Assumptions C43_closed.

(** ** Non-vacuity: the hypotheses hold for concrete documents with such nodes *)

Definition sample : str := s_ "---
m
---

# T [a](b)

x **b _i_** \*c

{% Title
!! M
! I
hi

ho
!!
%}
- a
 + b".

Definition sample_ops : list op := match parse sample with Ok o => o | _ => [] end.
Definition reading (s : str) (os : list op) : list event :=
  map (fun o => (op_kind_of o, match as_str s (op_content o) with Ok x => x | _ => [] end)) os.

Example sample_parses : parse sample = Ok sample_ops.
Proof. vm_compute. reflexivity. Qed.
Example sample_kinds : forallb (fun n => existsb (fun k => match k with Start m => if node_eq_dec n m then true else false | _ => false end)
    (map op_kind_of sample_ops))
  [NMetadata; NDocument; NHeading; NAnchor; NParagraph; NBold; NItalic; NCollapsible; NModifier; NHighlight;
   NIcon; NUnorderedList; NOrderedList; NListItem] = true.
Proof. vm_compute. reflexivity. Qed.
Example sample_copies : existsb (fun o => match op_content o with Materialized _ => true | _ => false end) sample_ops = true.
Proof. vm_compute. reflexivity. Qed.
Example sample_reading : exists a x mid y b,
  reading sample sample_ops = a ++ (Start NHeading, x) :: mid ++ (End NHeading, y) :: b /\ a <> [] /\ mid <> [] /\ b <> [].
Proof.
  exists (firstn 5 (reading sample sample_ops)), (s_ "# "), (firstn 9 (skipn 6 (reading sample sample_ops))), [],
    (skipn 16 (reading sample sample_ops)).
  vm_compute. repeat split; discriminate.
Qed.
Example three_dashes_sample : three_dashes_first sample.
Proof. exists (skipn 3 sample). split; [reflexivity|]. intros r. vm_compute. discriminate. Qed.
Example four_dashes : exists o, parse (s_ "----
a
---") = Ok o /\ ~ In (Start NMetadata) (map op_kind_of o).
Proof. eexists. split; [vm_compute; reflexivity|]. cbn. intuition discriminate. Qed.
