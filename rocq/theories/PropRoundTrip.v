(** Theorems about [Display] followed by [deserialize] (src/nodes/*.rs, properties C26-C42).
    [tame_doc] and its parts are defined in Tame.v without the parser and without [Display];
    PropRefuted.v has documents outside of it that are not read back. *)
From Coq Require Import String.
From Verif Require Import Base Ops Ast ToYamd Api StreamSpec AstSpec Tame TameDec Plain.

(** The document of one block. *)
Definition only (y : ynode) : yamd := mk_yamd None [y].

(** ** Text (C26, C27) *)

Theorem C26_escape_all : forall x, x <> [] ->
  deserialize (flat_map (fun c => [c_bslash; c]) x) = Ok (only (YParagraph [PText x])).
Proof. exact escape_all_text. Qed.
Print Assumptions C26_escape_all.
Example C26_case : deserialize (flat_map (fun c => [c_bslash; c]) (s_ "- *a*\" ++ nlnl ++ s_ "%}")) = Ok (only (YParagraph [PText (s_ "- *a*\" ++ nlnl ++ s_ "%}")])).
Proof. apply C26_escape_all. discriminate. Qed.

Theorem C27_plain : forall x, plain x ->
  deserialize x = Ok (only (YParagraph [PText x])) /\ display_yamd (only (YParagraph [PText x])) = x.
Proof.
  intros x P. split; [|exact (plain_display x P)].
  rewrite <- (plain_display x P) at 1. exact (block_round_trip _ (plain_tame x P)).
Qed.
Print Assumptions C27_plain.
Example C27_case : plain (s_ "Hello, world (1 + 1 = 2)! - ok]}").
Proof.
  split; [discriminate|]. split.
  - intros c H K. assert (E : existsb (fun d => existsb (char_eqb d) special) (s_ "Hello, world (1 + 1 = 2)! - ok]}") = true).
    { apply existsb_exists. exists c. split; [exact H|]. apply existsb_exists. exists c. split; [exact K|apply N.eqb_refl]. }
    vm_compute in E. discriminate.
  - cbn. intros [H|[H|[H|[H|[]]]]]; discriminate.
Qed.

(** ** Blocks (C28-C35) *)

Theorem C28_paragraph : forall l, tame_paragraph false l ->
  deserialize (display_yamd (only (YParagraph l))) = Ok (only (YParagraph l)).
Proof. intros l T. exact (block_round_trip (YParagraph l) T). Qed.
Print Assumptions C28_paragraph.

Theorem C29_heading : forall k l, tame_heading false k l ->
  deserialize (display_yamd (only (YHeading k l))) = Ok (only (YHeading k l)).
Proof. intros k l T. exact (block_round_trip (YHeading k l) T). Qed.
Print Assumptions C29_heading.

Theorem C30_image : forall i, tame_image false i ->
  deserialize (display_yamd (only (YImage i))) = Ok (only (YImage i)).
Proof. intros i T. exact (block_round_trip (YImage i) T). Qed.
Print Assumptions C30_image.
Theorem C30_images : forall l, 2 <= List.length l -> Forall (tame_image false) l ->
  deserialize (display_yamd (only (YImages l))) = Ok (only (YImages l)).
Proof. intros l H T. exact (block_round_trip (YImages l) (conj H T)). Qed.
Print Assumptions C30_images.

Theorem C31_code : forall lang code, tame_code lang code ->
  deserialize (display_yamd (only (YCode lang code))) = Ok (only (YCode lang code)).
Proof. intros lang code T. exact (block_round_trip (YCode lang code) T). Qed.
Print Assumptions C31_code.

Theorem C32_embed : forall kind args, tame_embed false kind args ->
  deserialize (display_yamd (only (YEmbed kind args))) = Ok (only (YEmbed kind args)).
Proof. intros kind args T. exact (block_round_trip (YEmbed kind args) T). Qed.
Print Assumptions C32_embed.
Theorem C32_thematic_break : deserialize (display_yamd (only YThematicBreak)) = Ok (only YThematicBreak).
Proof. exact (block_round_trip YThematicBreak I). Qed.
Print Assumptions C32_thematic_break.

Theorem C33_highlight : forall title icon ps, tame_highlight false title icon ps ->
  deserialize (display_yamd (only (YHighlight title icon ps))) = Ok (only (YHighlight title icon ps)).
Proof. intros title icon ps T. exact (block_round_trip (YHighlight title icon ps) T). Qed.
Print Assumptions C33_highlight.

Theorem C34_list : forall l, tame_list false 0 [] l ->
  deserialize (display_yamd (only (YListNode l))) = Ok (only (YListNode l)).
Proof. intros l T. exact (block_round_trip (YListNode l) T). Qed.
Print Assumptions C34_list.

Theorem C35_collapsible : forall title b, tame_block false (YCollapsible title b) ->
  deserialize (display_yamd (only (YCollapsible title b))) = Ok (only (YCollapsible title b)).
Proof. intros title b T. exact (block_round_trip (YCollapsible title b) T). Qed.
Print Assumptions C35_collapsible.

(** ** Documents (C36-C38) *)

Theorem C36_metadata : forall m b, tame_meta m -> tame_doc (mk_yamd None b) ->
  deserialize (display_yamd (mk_yamd (Some m) b)) = Ok (mk_yamd (Some m) b).
Proof. intros m b H (_ & T). apply round_trip. split; [exact H|exact T]. Qed.
Print Assumptions C36_metadata.

Theorem C37_document : forall y, tame_doc y -> deserialize (display_yamd y) = Ok y.
Proof. exact round_trip. Qed.
Print Assumptions C37_document.
Theorem C37_decidable : forall y, tame_docb y = true <-> tame_doc y.
Proof. exact tame_docb_iff. Qed.
Print Assumptions C37_decidable.
(** Different documents have different texts. *)
Theorem C37_injective : forall y z, tame_doc y -> tame_doc z -> display_yamd y = display_yamd z -> y = z.
Proof. intros y z Ty Tz E. pose proof (round_trip y Ty) as H. rewrite E, (round_trip z Tz) in H. injection H as ->. reflexivity. Qed.
Print Assumptions C37_injective.

Theorem C38_reformat : forall s y, deserialize s = Ok y -> tame_doc y ->
  deserialize (display_yamd y) = Ok y.
Proof. intros s y _. exact (round_trip y). Qed.
Print Assumptions C38_reformat.

(** All ten kinds of blocks, delimiters of every kind inside of the texts. *)
Definition wild : str := s_ "a\*_~`[](){}%}!!#- + |" ++ nl ++ s_ "---".
Definition inlines : list par_node :=
  [PText wild; PBold [BText wild; BItalic wild; BStrike wild]; PText (s_ " "); PItalic wild; PStrike wild; PEmphasis wild; PCodeSpan wild; PAnchor wild wild].
Definition sample : yamd :=
  mk_yamd (Some (s_ "title: x" ++ nl ++ s_ "----" ++ nl ++ s_ "*y*"))
    [ YParagraph inlines; YHeading 3 [HText (s_ "a*b# [c] (d)"); HAnchor wild wild; HText (s_ " [e](f")];
      YImage (mk_image wild wild); YImages [mk_image wild wild; mk_image [] []];
      YCode (s_ "rust") (s_ "```" ++ nlnl ++ s_ "%}" ++ nl ++ s_ "- \n");
      YListNode (YList LUnordered 0
        [YItem inlines (Some (YList LOrdered 1 [YItem [PText (s_ "b" ++ nl ++ s_ "- c")] (Some (YList LUnordered 2 [YItem [] None])); YItem [PText wild] None])); YItem [] None]);
      YHighlight (Some (s_ "t!!")) (Some (s_ "i")) [inlines; [PText (s_ "!!")]]; YHighlight (Some (s_ "t")) None [];
      YThematicBreak; YEmbed (s_ "kind}}") (s_ "{{a|b}}" ++ nlnl ++ s_ "%}");
      YCollapsible (s_ "t%}") [YParagraph inlines; YCollapsible [] []; YCode [] (s_ "%}" ++ nlnl ++ s_ "{% x"); YHeading 6 []; YListNode (YList LOrdered 0 [YItem inlines None])];
      YParagraph [PText (s_ "--- end" ++ nl)] ].
Example sample_tame : tame_doc sample.
Proof. apply C37_decidable. vm_compute. reflexivity. Qed.
Example C37_case : deserialize (display_yamd sample) = Ok sample.
Proof. exact (C37_document sample sample_tame). Qed.
(** Every block of the sample meets the condition of its theorem. *)
Example blocks_case : Forall (tame_block false) (body sample).
Proof. exact (proj1 (proj2 sample_tame)). Qed.
(** Runs of line feeds, lines that look like images, markers with two spaces, empty paragraphs of a highlight. *)
Definition sample2 : yamd :=
  mk_yamd None
    [ YParagraph [PText (nlnl ++ s_ "a" ++ nl ++ nlnl ++ s_ "b"); PBold [BText (s_ "c" ++ nlnl)]; PText (nlnl ++ nlnl)];
      YParagraph [PText (s_ "![a](b) c")]; YParagraph [PText (s_ "![a](b)" ++ nl ++ s_ "![c](d) e")];
      YParagraph [PText (s_ "!"); PAnchor (s_ "a") (s_ "b"); PText (s_ " c")];
      YListNode (YList LUnordered 0 [YItem [PText (s_ "a" ++ nl ++ s_ "+  b" ++ nl ++ s_ " -  c")] None; YItem [PText (s_ "x" ++ nlnl ++ s_ "+ y")] None]);
      YHighlight None None [[PText (nlnl ++ s_ "a")]; []; [PText (nlnl ++ s_ "b")]; []];
      YHighlight None None [[PText (s_ "! a" ++ nlnl ++ s_ "b")]; []]; YHighlight None None [[PText (s_ "!  a")]];
      YCollapsible [] [YParagraph [PText (nlnl ++ s_ "a" ++ nlnl)]; YParagraph [PText (s_ "b")]] ].
Example sample2_tame : tame_doc sample2.
Proof. apply C37_decidable. vm_compute. reflexivity. Qed.
Example C37_case2 : deserialize (display_yamd sample2) = Ok sample2.
Proof. exact (C37_document sample2 sample2_tame). Qed.
Example C36_case : tame_meta (s_ "title: x" ++ nl ++ s_ "----" ++ nl ++ s_ "*y*").
Proof. exact (proj1 sample_tame). Qed.
Example C38_case : exists y, deserialize (s_ "# a *b*" ++ nl ++ nlnl ++ s_ "- x" ++ nl ++ s_ " + y") = Ok y /\ tame_doc y.
Proof.
  let r := eval vm_compute in (deserialize (s_ "# a *b*" ++ nl ++ nlnl ++ s_ "- x" ++ nl ++ s_ " + y")) in
  match r with Ok ?y => exists y end. split; [vm_compute; reflexivity|]. apply C37_decidable. vm_compute. reflexivity.
Qed.

(** ** Nesting (C39, C41) *)

(** The code of a fenced block inside of collapsibles: no text in it ends them. *)
Theorem C39_code_opaque : forall titles lang code, Forall plain_title titles -> tame_code lang code ->
  deserialize (nested_text titles (display_code lang code)) = Ok (only (nested titles (YCode lang code))).
Proof.
  intros titles lang code F T. exact (nested_round_trip titles (YCode lang code) F T (or_introl T) (fun x => x) (fun x => x)).
Qed.
Print Assumptions C39_code_opaque.
Lemma plain_title_empty : plain_title [].
Proof. unfold plain_title. repeat split; try (intros (b & E); discriminate E); exact (fun H => H). Qed.
Example C39_case :
  deserialize (s_ "{% " ++ nl ++ s_ "```c" ++ nl ++ s_ "%}" ++ nlnl ++ s_ "!!" ++ nl ++ s_ "- x" ++ nl ++ s_ "```" ++ nl ++ s_ "%}")
  = Ok (only (YCollapsible [] [YCode (s_ "c") (s_ "%}" ++ nlnl ++ s_ "!!" ++ nl ++ s_ "- x")])).
Proof.
  change (s_ "{% " ++ nl ++ s_ "```c" ++ nl ++ s_ "%}" ++ nlnl ++ s_ "!!" ++ nl ++ s_ "- x" ++ nl ++ s_ "```" ++ nl ++ s_ "%}")
    with (nested_text [[]] (display_code (s_ "c") (s_ "%}" ++ nlnl ++ s_ "!!" ++ nl ++ s_ "- x"))).
  apply (C39_code_opaque [[]]); [constructor; [exact plain_title_empty|constructor]|].
  apply (tame_blockb_iff false (YCode (s_ "c") (s_ "%}" ++ nlnl ++ s_ "!!" ++ nl ++ s_ "- x"))). vm_compute. reflexivity.
Qed.

(** For every [n] a text of [7 n + 1] characters whose document has exactly [n] nested collapsibles. *)
Theorem C41_depth : forall n, exists s y, List.length s = 1 + 7 * n /\ deserialize s = Ok (only y) /\ depth y = n.
Proof.
  intros n. assert (P : tame_block false (YParagraph [PText (s_ "x")])) by (apply tame_blockb_iff; vm_compute; reflexivity).
  assert (Pt : tame_block true (YParagraph [PText (s_ "x")])) by (apply tame_blockb_iff; vm_compute; reflexivity).
  assert (F : Forall plain_title (repeat [] n)) by (apply Forall_forall; intros t H; apply repeat_spec in H; subst t; exact plain_title_empty).
  exists (nested_text (repeat [] n) (s_ "x")), (nested (repeat [] n) (YParagraph [PText (s_ "x")])). split; [|split].
  - rewrite nested_length, repeat_length. cbn [List.length s_]. replace (fold_right (fun t k => List.length t + k) 0 (repeat [] n)) with 0; [reflexivity|].
    clear. induction n as [|n IH]; [reflexivity|exact IH].
  - apply (nested_round_trip (repeat [] n) (YParagraph [PText (s_ "x")]) F Pt (or_introl P)); [intros [m E]; cbn in E; lia|discriminate].
  - rewrite nested_depth by reflexivity. apply repeat_length.
Qed.
Print Assumptions C41_depth.

(** ** Joined documents (C42) *)

Theorem C42_join : forall a b, tame_doc a -> tame_doc b -> metadata b = None -> body a <> [] -> body b <> [] ->
  match rev (body a) with y :: _ => ~ block_ends_nl y | [] => True end ->
  deserialize (display_yamd a ++ nlnl ++ display_yamd b) = Ok (mk_yamd (metadata a) (body a ++ body b)).
Proof. exact join_round_trip. Qed.
Print Assumptions C42_join.
Example C42_case : deserialize (display_yamd (only (YHeading 1 [])) ++ nlnl ++ display_yamd (mk_yamd None (body sample))) = Ok (mk_yamd None (YHeading 1 [] :: body sample)).
Proof.
  apply (C42_join (only (YHeading 1 [])) (mk_yamd None (body sample))); try discriminate; try reflexivity.
  - apply C37_decidable. vm_compute. reflexivity.
  - apply C37_decidable. vm_compute. reflexivity.
  - intros (y & E). destruct y; discriminate.
Qed.
