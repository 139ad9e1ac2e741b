(** The property tests of tests/round_trip_proptest.rs, for every value their generators can produce
    (property C56).  GenSpec.v: the generators, without their bounds on lengths. *)
From Coq Require Import String.
From Verif Require Import Base Ast ToYamd Api AstSpec Tame TameDec GenSpec Gen Plain.
Open Scope list_scope.

(** What each test asserts of a document. *)
Definition reads_back (y : yamd) : Prop := deserialize (display_yamd y) = Ok y.
Definition single (b : ynode) : yamd := yamd_new None [b].

Theorem C56_italic : forall x, arb_inline_text x -> reads_back (single (YParagraph [PItalic x])).
Proof. intros x H. exact (gen_inline_reads _ (gen_italic x H)). Qed.
Print Assumptions C56_italic.
Theorem C56_emphasis : forall x, arb_inline_text x -> reads_back (single (YParagraph [PEmphasis x])).
Proof. intros x H. exact (gen_inline_reads _ (gen_emphasis x H)). Qed.
Print Assumptions C56_emphasis.
Theorem C56_strikethrough : forall x, arb_inline_text x -> reads_back (single (YParagraph [PStrike x])).
Proof. intros x H. exact (gen_inline_reads _ (gen_strike x H)). Qed.
Print Assumptions C56_strikethrough.
Theorem C56_code_span : forall x, arb_inline_text x -> reads_back (single (YParagraph [PCodeSpan x])).
Proof. intros x H. exact (gen_inline_reads _ (gen_code_span x H)). Qed.
Print Assumptions C56_code_span.
Theorem C56_anchor : forall t u, arb_inline_text t -> arb_url u -> reads_back (single (YParagraph [PAnchor t u])).
Proof. intros t u H1 H2. exact (gen_inline_reads _ (gen_anchor t u H1 H2)). Qed.
Print Assumptions C56_anchor.
Theorem C56_bold : forall x, arb_inline_text x -> reads_back (single (YParagraph [PBold [BText x]])).
Proof. exact gen_bold_reads. Qed.
Print Assumptions C56_bold.
Theorem C56_image : forall a u, arb_inline_text a -> arb_url u -> reads_back (single (YImage (mk_image a u))).
Proof. intros a u H1 H2. exact (block_round_trip (YImage _) (gen_image_tame false (mk_image a u) (conj H1 H2))). Qed.
Print Assumptions C56_image.
Theorem C56_code : forall lang code, arb_inline_text lang -> arb_block_text code -> reads_back (single (code_new lang code)).
Proof. exact gen_code_reads. Qed.
Print Assumptions C56_code.
Theorem C56_embed : forall k a, arb_inline_text k -> arb_block_text a -> reads_back (single (YEmbed k a)).
Proof. intros k a H1 H2. exact (block_round_trip (YEmbed k a) (gen_embed_tame false k a H1 H2)). Qed.
Print Assumptions C56_embed.
Theorem C56_highlight : forall title icon x, match title with Some t => arb_inline_text t | None => True end -> match icon with Some t => arb_inline_text t | None => True end ->
  arb_block_text x -> reads_back (single (YHighlight title icon [[PText x]])).
Proof. intros t i x H1 H2 H3. exact (block_round_trip (YHighlight t i _) (gen_highlight_tame false t i x H1 H2 H3)). Qed.
Print Assumptions C56_highlight.
Theorem C56_list : forall ty x y, arb_list_item_text x -> arb_list_item_text y ->
  reads_back (single (YListNode (YList ty 0 [YItem [PText x] None; YItem [PText y] None]))).
Proof. exact gen_list_reads. Qed.
Print Assumptions C56_list.
Theorem C56_collapsible : forall title x, arb_inline_text title -> arb_block_text x -> reads_back (single (YCollapsible title [YParagraph [PText x]])).
Proof. exact gen_collapsible_reads. Qed.
Print Assumptions C56_collapsible.

(** The remaining three tests assert something that does not hold: the generator of headings can
    produce [[]()], whose heading is read back as a link. *)
Definition any_head (x : str) : Prop := True.
Theorem C56_heading_refuted : exists x, arb_inline_text x /\ ~ reads_back (single (YHeading 1 [HText x])).
Proof. exists (s_ "[]()"). split; [exact empty_link_generated|]. intros H. vm_compute in H. discriminate H. Qed.
Print Assumptions C56_heading_refuted.
Theorem C56_mixed_body_refuted : exists title b, arb_inline_text title /\ b <> [] /\ Forall (arb_yamd_node any_head) b /\ ~ reads_back (single (YCollapsible title b)).
Proof.
  exists (s_ "t"), [YHeading 1 [HText (s_ "[]()")]]. split; [exact t_generated|]. split; [discriminate|]. split.
  - constructor; [|constructor]. exact (gen_heading any_head 1 _ (conj (le_n 1) (le_S _ _ (le_S _ _ (le_S _ _ (le_S _ _ (le_S _ _ (le_n 1))))))) empty_link_generated I).
  - intros H. vm_compute in H. discriminate H.
Qed.
Print Assumptions C56_mixed_body_refuted.
Theorem C56_document_refuted : exists y, arb_yamd any_head y /\ ~ reads_back y.
Proof.
  exists (yamd_new None [YHeading 1 [HText (s_ "[]()")]]). split.
  - constructor; [exact I|discriminate|]. constructor; [|constructor].
    exact (gen_heading any_head 1 _ (conj (le_n 1) (le_S _ _ (le_S _ _ (le_S _ _ (le_S _ _ (le_S _ _ (le_n 1))))))) empty_link_generated I).
  - intros H. vm_compute in H. discriminate H.
Qed.
Print Assumptions C56_document_refuted.

(** They hold for heading texts that open no link. *)
Definition no_link (x : str) : Prop := ~ opens_link x [].
Theorem C56_heading : forall level x, 1 <= level <= 6 -> arb_inline_text x -> no_link x -> reads_back (single (YHeading level [HText x])).
Proof. intros level x L H N. exact (gen_block_reads no_link _ (fun x H => H) (gen_heading no_link level x L H N)). Qed.
Print Assumptions C56_heading.
Theorem C56_mixed_body : forall title b, arb_inline_text title -> Forall (arb_yamd_node no_link) b -> reads_back (single (YCollapsible title b)).
Proof. intros title b. exact (gen_mixed_reads no_link title b (fun x H => H)). Qed.
Print Assumptions C56_mixed_body.
Theorem C56_document : forall y, arb_yamd no_link y -> reads_back y.
Proof. intros y H. exact (round_trip y (gen_doc_tame no_link y (fun x H => H) H)). Qed.
Print Assumptions C56_document.

(** Texts that the generators produce. *)
Ltac listed := first [left; reflexivity | right; listed].
Ltac a_word := split; [discriminate|constructor; [left; vm_compute; split; discriminate|constructor]].
Ltac each t := first [apply Forall_nil | apply Forall_cons; [t|each t]].
Ltac an_inline_piece := first [left; listed | right; a_word].
Ltac a_text_piece := first [left; an_inline_piece | right; listed].
Example inline_case : arb_inline_text (s_ "*_~~`[a](b)\{%|").
Proof.
  split; [right; exists [s_ "*"; s_ "_"; s_ "~~"; s_ "`"; s_ "["; s_ "a"; s_ "]"; s_ "("; s_ "b"; s_ ")"; s_ "\"; s_ "{%"; s_ "|"]; split; [discriminate|]; split; [|reflexivity]|].
  - each an_inline_piece.
  - split; [intros H; inversion H as [|? ? [X|X]]; discriminate X|]. intros (r & E). discriminate E.
Qed.
Example block_case : arb_list_item_text (s_ "a" ++ nl ++ s_ "- " ++ nl ++ s_ "```\").
Proof.
  split; [split; [right; exists [s_ "a"; nl ++ s_ "- "; nl ++ s_ "```"; s_ "\"]; split; [discriminate|]; split; [|reflexivity]|]|].
  - each a_text_piece.
  - split; [intros H; inversion H as [|? ? [X|X]]; discriminate X|]. split; [|intros (r & E); discriminate E].
    intros (r & E). apply (f_equal (@rev _)) in E. rewrite (rev_app_distr r) in E. discriminate E.
  - intros (r & E). discriminate E.
Qed.
Example C56_case : reads_back (single (YListNode (YList LOrdered 0 [YItem [PText (s_ "a" ++ nl ++ s_ "- " ++ nl ++ s_ "```\")] None; YItem [PText (s_ "a" ++ nl ++ s_ "- " ++ nl ++ s_ "```\")] None]))).
Proof. exact (C56_list LOrdered _ _ block_case block_case). Qed.
Example C56_case_link : reads_back (single (YParagraph [PItalic (s_ "*_~~`[a](b)\{%|")])).
Proof. exact (C56_italic _ inline_case). Qed.
