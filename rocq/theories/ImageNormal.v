(** Every document that [deserialize] returns is normal. *)
From Coq Require Import String Bool.
From Verif Require Import Base Lexer LexSpec LexProofs LexFacts Ops Parser FParser Refine Refine2 Refine3 Wf TokFacts StreamSpec Lines ToYamd TreeAst Ast Api AstSpec AstProofs Tame Settled Mild Runs Units ULex Stops Inline LinkUnits AstUnits Calm Blocks Docs Highlight Lists UBlocks UList UDocs Unsettled UnsettledHl Span Written UnsettledDoc BackInline BackPar BackBody.
From Verif Require NormalSpec ImageDocs.
Open Scope list_scope.

(** No paragraph in [n] is empty. *)
Definition full (n : ynode) : Prop := forall b, In (YParagraph b) (all_nodes n) -> b <> [].

Lemma fcoll_doc : forall n st ts x r, fcollapsible n st ts = CMatch x r -> exists n' r1 o k1 k3 c, n' < n /\ (exists a, ts = a ++ r1)
  /\ x = Node NCollapsible o (k1 ++ [Node NDocument [] (fst (fdoc n' (StopCollapsibleEnd :: st) r1)) []] ++ k3) c
  /\ (k3 = [] \/ exists e, k3 = [Skip [e]]) /\ (k1 = [] \/ exists y, k1 = [y] /\ fst (opt_tree (fmodifier st (yield y ++ r1)) (yield y ++ r1)) = [y]).
Proof.
  intros [|n] st ts x r H; [discriminate H|]. cbn [fcollapsible] in H. destruct (fseq [is_collapsible_start; is_space_or_eol] ts) as [[o q]|] eqn:Q; [|discriminate H].
  apply fseq_app in Q. destruct Q as (-> & _ & _). destruct (opt_tree (fmodifier st q) q) as [k1 r1] eqn:K1. pose proof K1 as K2. apply opt_tree_app in K2; [|apply covers_modifier]. subst q.
  destruct (nth_is 0 col0 r1); [|discriminate H]. exists n, r1, o, k1. destruct (fdoc n (StopCollapsibleEnd :: st) r1) as [k2 r2].
  destruct (match r2 with e :: r3 => if is_eol e then ([Skip [e]], r3) else ([], r2) | [] => ([], r2) end) as [k3 r3] eqn:Z. destruct (fcollapsible_end r3) as [[c rest]|]; [|discriminate H]. injection H as <- <-.
  exists k3, c. split; [lia|]. split; [exists (o ++ yields k1); rewrite <- app_assoc; reflexivity|]. split; [reflexivity|]. split.
  - destruct r2 as [|e r4]; [injection Z as <- <-; left; reflexivity|]. destruct (is_eol e); injection Z as <- <-; eauto.
  - unfold opt_tree in K1. destruct (fmodifier st (yields k1 ++ r1)) as [[y q]|] eqn:M; [|injection K1 as <- _; left; reflexivity]. injection K1 as <- ->. right. exists y. split; [reflexivity|].
    cbn [yields flat_map app] in M. rewrite app_nil_r in M. rewrite M. reflexivity.
Qed.
Lemma modifier_root : forall st ts y, fst (opt_tree (fmodifier st ts) ts) = [y] -> match y with Node NDocument _ _ _ => False | _ => True end.
Proof.
  intros st ts y H. unfold fmodifier in H. destruct (nth_is 0 col0 ts); [discriminate H|]. destruct (until st is_eol_or_terminator ts) as [[[b c] r]|]; [|discriminate H]. cbn [opt_tree fst] in H. injection H as <-. exact I.
Qed.

Lemma fdoc_full : forall s m st ts, linked s ts -> Forall full (flat_map (blocks s) (fst (fdoc m st ts))).
Proof.
  intros s m. induction m as [m IHm] using lt_wf_ind. intros st ts. revert ts. destruct m as [|m]; intros ts L; [constructor|]. pose proof (fdoc_read s (S m) st ts L) as RB. revert RB.
  destruct ts as [|t ts]; [constructor|]. rewrite fdoc_step. destruct (stopped st (t :: ts)) eqn:St; [constructor|]. destruct (is_terminator t) eqn:Te.
  - assert (L1 : linked s ts) by (apply (linked_app s [t] ts) in L; apply L). pose proof (IHm m ltac:(lia) st ts L1) as IH. destruct (fdoc m st ts) as [k r]. intros _. exact IH.
  - destruct (fblock m st (t :: ts)) as [x r1] eqn:Fb. assert (L1 : linked s r1).
    { pose proof (fblock_flips _ _ _ _ _ Fb) as F. pose proof (flips_linked _ _ _ F L) as X. apply linked_app in X. apply X. }
    pose proof (IHm m ltac:(lia) st r1 L1) as IH. destruct (fdoc m st r1) as [k r]. cbn [fst flat_map] in *. intros RB. apply Forall_app. split; [|exact IH].
    destruct (fblock_one s _ _ _ _ _ Fb) as (y & Ey). rewrite Ey in *. inversion RB as [|? ? [_ R2] _]; subst. constructor; [|constructor].
    destruct y as [b|l b|i|l|lang code|l|ot oi ps| |kind args|title b]; try (intros b0 [X|[]]; discriminate X).
    + intros b0 [X|[]]. injection X as <-. intros ->. apply R2. reflexivity.
    + assert (EC : fcollapsible m st (t :: ts) = CMatch x r1).
      { pose proof (fblock_from _ _ _ _ _ Fb) as F. destruct F as [F|[F|(ts' & F1 & F2 & [F|[F|[F|[F|[F|[F|F]]]]]])]]; eauto; by_root; discriminate Ey. }
      destruct (fcoll_doc _ _ _ _ _ EC) as (n' & q & o & k1 & k3 & c & Hn & (a & Ea) & -> & K3 & K1). assert (Lq : linked s q) by (rewrite Ea in L; apply linked_app in L; apply L).
      pose proof (IHm n' ltac:(lia) (StopCollapsibleEnd :: st) q Lq) as IHn. cbn [blocks] in Ey. injection Ey as _ Eb. rewrite !flat_map_app in Eb. cbn [flat_map] in Eb.
      replace (flat_map (fun d => match d with Node NDocument _ k4 _ => flat_map (blocks s) k4 | _ => [] end) k3) with (@nil ynode) in Eb by (destruct K3 as [->|(e & ->)]; reflexivity).
      replace (flat_map (fun d => match d with Node NDocument _ k4 _ => flat_map (blocks s) k4 | _ => [] end) k1) with (@nil ynode) in Eb.
      2:{ destruct K1 as [->|(y & -> & M)]; [reflexivity|]. apply modifier_root in M. destruct y as [?|?|[] ? ? ?]; try reflexivity. destruct M. }
      cbn [app] in Eb. rewrite !app_nil_r in Eb. rewrite Eb in IHn. intros b0 X. cbn [all_nodes] in X. destruct X as [X|X]; [discriminate X|]. apply in_flat_map in X. destruct X as (y & Hy & X).
      exact (proj1 (Forall_forall _ _) IHn y Hy b0 X).
Qed.

Lemma doc_paragraph : forall s b, In (YParagraph b) (doc_nodes (document_of s)) -> b <> [].
Proof.
  intros s b H. pose proof (spec_linked s) as L. assert (F : Forall full (body (document_of s))).
  { unfold document_of, fparse. destruct (fmetadata [] (spec_tokens s)) as [[x r]|] eqn:M.
    - unfold fmetadata, fdelim in M. destruct (spec_tokens s) as [|t r0]; [discriminate|]. destruct (is_three_dashes t); [|discriminate]. destruct (until [] is_three_dashes r0) as [[[b1 c] r1]|] eqn:U; [|discriminate]. injection M as <- <-.
      apply until_app in U. destruct U as [-> _]. apply (linked_app s [t]) in L. destruct L as [_ L]. apply (linked_app s b1) in L. destruct L as [_ L]. apply (linked_app s [c]) in L. destruct L as [_ L].
      cbn [opt_tree]. pose proof (fdoc_full s (3 * List.length r1 + 5) [] r1 L) as F. destruct (fdoc (3 * List.length r1 + 5) [] r1) as [k r2]. unfold doc_of. cbn [body]. unfold body_of. cbn [app flat_map]. rewrite app_nil_r. exact F.
    - cbn [opt_tree]. pose proof (fdoc_full s (3 * List.length (spec_tokens s) + 5) [] _ L) as F. destruct (fdoc (3 * List.length (spec_tokens s) + 5) [] (spec_tokens s)) as [k r2]. unfold doc_of. cbn [body]. unfold body_of. cbn [app flat_map]. rewrite app_nil_r. exact F. }
  apply in_flat_map in H. destruct H as (n & Hn & Hb). exact (proj1 (Forall_forall _ _) F n Hn b Hb).
Qed.

Lemma text_normal : forall b, Forall par_normal b /\ no_neighbours (both is_ptext) b /\ no_neighbours fuse b -> NormalSpec.normal_text b.
Proof.
  intros b (F & N1 & N2). split; [|split; assumption]. eapply Forall_impl; [|exact F]. intros [] H; cbn in *; try exact H. destruct H as (NE & B & B1 & B2). split; [exact NE|]. split; [|split; assumption].
  intros x [X|X] ->; apply (proj1 (Forall_forall _ _) B) in X; destruct X; congruence.
Qed.
Lemma read_normal : forall s, NormalSpec.normal (document_of s).
Proof.
  intros s. split; [apply doc_metadata|]. intros n Hn.
  assert (T : forall b, In b (inline_bodies n) -> NormalSpec.normal_text b) by (intros b Hb; apply text_normal, (doc_body_normal s); apply in_flat_map; exists n; auto).
  assert (Tl : forall b, In b (trimmed_bodies n) -> NormalSpec.normal_line b).
  { intros b Hb. split; [apply T; destruct n; try exact Hb; destruct Hb|]. intros b1 x E. exact (doc_body_trimmed s n b b1 x Hn Hb E). }
  destruct n as [b|l b|i|l|lang code|l|ot oi ps| |kind args|title b]; cbn [NormalSpec.normal_node]; try exact I.
  - split; [apply (doc_paragraph s); exact Hn|apply T; left; reflexivity].
  - destruct (doc_heading s l b Hn) as (Hl & F & N). split; [exact Hl|]. split; [|exact N]. intros x X ->. exact (proj1 (Forall_forall _ _) F _ X eq_refl).
  - exact (doc_images s l Hn).
  - exact (doc_code s lang code Hn).
  - split; [exact (doc_list s l Hn)|]. apply Forall_forall. exact Tl.
  - apply Forall_forall. exact Tl.
Qed.

Lemma image : forall y, (exists s, deserialize s = Ok y) <-> NormalSpec.normal y.
Proof.
  intros y. split.
  - intros (s & H). rewrite deserialize_eq in H. injection H as <-. apply read_normal.
  - intros H. exists (NormalSpec.source y). apply ImageDocs.normal_source. exact H.
Qed.
Lemma lossless : forall s y, deserialize s = Ok y -> deserialize (NormalSpec.source y) = Ok y.
Proof. intros s y H. apply ImageDocs.normal_source, image. exists s. exact H. Qed.
Lemma source_injective : forall y z, NormalSpec.normal y -> NormalSpec.normal z -> NormalSpec.source y = NormalSpec.source z -> y = z.
Proof. intros y z Hy Hz E. apply ImageDocs.normal_source in Hy, Hz. rewrite E, Hz in Hy. injection Hy as ->. reflexivity. Qed.
