(** Parts of a source separated by a blank line are read on their own. *)
From Coq Require Import String.
From Verif Require Import Base Lexer LexFacts Parser Ast ToYamd Api StreamSpec LocalSpec Local.
Open Scope list_scope.

Theorem C60_parts_read_alone : forall a b ya yb, ends_clean a -> deserialize a = Ok ya -> deserialize b = Ok yb -> closed ya = true -> metadata yb = None ->
  deserialize (a ++ blank ++ b) = Ok (mk_yamd (metadata ya) (body ya ++ body yb)).
Proof. exact parts_read_alone. Qed.
Print Assumptions C60_parts_read_alone.
Theorem C60_parts_read : forall parts ys,
  Forall2 (fun a y => deserialize a = Ok y /\ ends_clean a /\ closed y = true) parts ys -> Forall (fun y => metadata y = None) (tl ys) ->
  deserialize (join_blank parts) = Ok (mk_yamd (match ys with y :: _ => metadata y | [] => None end) (flat_map body ys)).
Proof. exact parts_read. Qed.
Print Assumptions C60_parts_read.
Theorem C60_leading_blank : forall b y, deserialize b = Ok y -> metadata y = None -> deserialize (blank ++ b) = Ok y.
Proof. exact leading_blank. Qed.
Print Assumptions C60_leading_blank.

(** None of the conditions can be left out. *)
Definition apart (a b : str) : Prop := exists ya yb, deserialize a = Ok ya /\ deserialize b = Ok yb /\ deserialize (a ++ blank ++ b) = Ok (mk_yamd (metadata ya) (body ya ++ body yb)).
Ltac together := intros (ya & yb & H1 & H2 & H3); vm_compute in H1, H2; injection H1 as <-; injection H2 as <-; vm_compute in H3; discriminate.
Theorem C60_unclosed_code_refuted : exists a b, ends_clean a /\ ~ apart a b.
Proof.
  exists (s_ "```a" ++ nl ++ s_ "b"), (s_ "c" ++ nl ++ s_ "```"). split; [|together]. split; [reflexivity|].
  intros x c E. apply (f_equal (@rev _)) in E. rewrite (rev_app_distr x) in E. injection E as <- _. split; discriminate.
Qed.
Print Assumptions C60_unclosed_code_refuted.
Ltac clean := split; [reflexivity|]; intros x c E; apply (f_equal (@rev _)) in E; rewrite (rev_app_distr x) in E; injection E as <- _; split; discriminate.
Theorem C60_unclosed_highlight_refuted : exists a b, ends_clean a /\ ~ apart a b.
Proof. exists (s_ "!! a" ++ nl ++ s_ "b"), (s_ "c" ++ nl ++ s_ "!!"). split; [clean|together]. Qed.
Print Assumptions C60_unclosed_highlight_refuted.
Theorem C60_unclosed_collapsible_refuted : exists a b, ends_clean a /\ ~ apart a b.
Proof. exists (s_ "{% a" ++ nl ++ s_ "b"), (s_ "c" ++ nl ++ s_ "%}"). split; [clean|together]. Qed.
Print Assumptions C60_unclosed_collapsible_refuted.
Theorem C60_unclosed_embed_refuted : exists a b, ends_clean a /\ ~ apart a b.
Proof. exists (s_ "{{a|b"), (s_ "c}}"). split; [clean|together]. Qed.
Print Assumptions C60_unclosed_embed_refuted.
Theorem C60_unclosed_metadata_refuted : exists a b ya, ends_clean a /\ deserialize a = Ok ya /\ forallb closed_node (body ya) = true /\ ~ apart a b.
Proof.
  eexists (s_ "---" ++ nl ++ s_ "a"), (s_ "b" ++ nl ++ s_ "---"), _. split; [|split; [vm_compute; reflexivity|split; [reflexivity|together]]]. split; [reflexivity|].
  intros x c E. apply (f_equal (@rev _)) in E. rewrite (rev_app_distr x) in E. injection E as <- _. split; discriminate.
Qed.
Print Assumptions C60_unclosed_metadata_refuted.
Theorem C60_escape_at_end_refuted : exists a b ya, deserialize a = Ok ya /\ closed ya = true /\ ~ apart a b.
Proof. eexists (s_ "a\"), (s_ "b"), _. split; [vm_compute; reflexivity|]. split; [reflexivity|together]. Qed.
Print Assumptions C60_escape_at_end_refuted.
Theorem C60_line_feed_at_end_refuted : exists a b ya, deserialize a = Ok ya /\ closed ya = true /\ dangling a = false /\ ~ apart a b.
Proof. eexists (s_ "- a" ++ nl), (s_ "b"), _. split; [vm_compute; reflexivity|]. split; [reflexivity|]. split; [reflexivity|together]. Qed.
Print Assumptions C60_line_feed_at_end_refuted.
Theorem C60_carriage_return_at_end_refuted : exists a b ya, deserialize a = Ok ya /\ closed ya = true /\ dangling a = false /\ ~ apart a b.
Proof. eexists (s_ "a" ++ [c_cr]), (s_ "b"), _. split; [vm_compute; reflexivity|]. split; [reflexivity|]. split; [reflexivity|together]. Qed.
Print Assumptions C60_carriage_return_at_end_refuted.
Theorem C60_second_metadata_refuted : exists a b ya, ends_clean a /\ deserialize a = Ok ya /\ closed ya = true /\ ~ apart a b.
Proof.
  eexists (s_ "a"), (s_ "---" ++ nl ++ s_ "b" ++ nl ++ s_ "---"), _. split; [|split; [vm_compute; reflexivity|split; [reflexivity|together]]]. split; [reflexivity|].
  intros x c E. apply (f_equal (@rev _)) in E. rewrite (rev_app_distr x) in E. injection E as <- _. split; discriminate.
Qed.
Print Assumptions C60_second_metadata_refuted.

(** Three parts of different kinds. *)
Definition part1 : str := s_ "---" ++ nl ++ s_ "t" ++ nl ++ s_ "---" ++ blank ++ s_ "# h".
Definition part2 : str := s_ "{% t" ++ nl ++ s_ "a" ++ blank ++ s_ "b" ++ nl ++ s_ "%}".
Definition part3 : str := s_ "- a **b" ++ nl ++ s_ " - c".
Example C60_case : deserialize (join_blank [part1; part2; part3]) =
  Ok (mk_yamd (Some (s_ "t"))
    [YHeading 1 [HText (s_ "h")]; YCollapsible (s_ "t") [YParagraph [PText (s_ "a")]; YParagraph [PText (s_ "b")]];
     YListNode (YList LUnordered 0 [YItem [PText (s_ "a **b")] (Some (YList LUnordered 1 [YItem [PText (s_ "c")] None]))])]).
Proof.
  rewrite C60_parts_read with (ys := [mk_yamd (Some (s_ "t")) [YHeading 1 [HText (s_ "h")]]; mk_yamd None [YCollapsible (s_ "t") [YParagraph [PText (s_ "a")]; YParagraph [PText (s_ "b")]]];
     mk_yamd None [YListNode (YList LUnordered 0 [YItem [PText (s_ "a **b")] (Some (YList LUnordered 1 [YItem [PText (s_ "c")] None]))])]]); [reflexivity| |repeat constructor].
  repeat (apply Forall2_cons; [split; [vm_compute; reflexivity|split; [|reflexivity]]; split; [reflexivity|];
    intros x c E; apply (f_equal (@rev _)) in E; rewrite (rev_app_distr x) in E; injection E as <- _; split; discriminate|]). apply Forall2_nil.
Qed.
