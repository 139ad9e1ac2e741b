(** Blocks that are read back from what [Display] writes for them are tame: the kinds of blocks one by one. *)
From Coq Require Import String Bool.
From Verif Require Import Base Lexer LexSpec LexProofs LexFacts Ops Parser FParser Refine Refine2 Refine3 Wf TokFacts StreamSpec Lines ToYamd TreeAst Ast Api AstSpec AstProofs Tame Settled Mild Runs Units ULex Stops Inline LinkUnits AstUnits Calm Blocks Docs Highlight Lists UBlocks UList UDocs Unsettled UnsettledHl Span Written UnsettledDoc BackInline.
From Verif Require RawTree RawAst RawLinks.
Open Scope list_scope.

Definition back (coll : bool) (n : nat) (y : ynode) : Prop :=
  forall s ts B fuel x r, linked s ts -> cov s true ts (u_block y ++ B) -> stail n B -> List.length ts <= fuel -> stopped (StopTerminator :: cst n) ts = false -> ~ In c_cr (chars (u_block y)) ->
  fblock fuel (cst n) ts = (x, r) -> blocks s x = [y] -> tame_block coll y /\ (ends c_nl (u_block y) -> B = []).

Ltac by_root := match goal with
  | H : fcode _ _ = Some _ |- _ => apply makes_code in H; destruct H as [_ (? & ? & ? & ->)]
  | H : fembed _ _ = Some _ |- _ => apply makes_embed in H; destruct H as [_ (? & ? & ? & ->)]
  | H : fhighlight _ _ = Some _ |- _ => apply makes_highlight in H; destruct H as [_ (? & ? & ? & ->)]
  | H : fbreak _ _ = Some _ |- _ => apply makes_break in H; destruct H as [_ (? & ? & ? & ->)]
  | H : fheading _ _ = Some _ |- _ => apply fheading_wf in H; [|left; reflexivity]; destruct H as [_ (? & ? & ? & ->)]
  | H : fimages _ _ = Some _ |- _ => apply fimages_wf in H; [|left; reflexivity]; destruct H as [_ [(? & ? & ? & ->)|(? & ? & ? & ->)]]
  | H : flist0 _ _ = Some _ |- _ => let lk := fresh in apply flist0_wf in H; [|left; reflexivity]; destruct H as [_ (lk & ? & -> & _)]; destruct lk
  | H : fparagraph _ _ = _ |- _ => apply fparagraph_wf in H; [|left; reflexivity]; destruct H as [_ (? & ? & ? & ->)]
  | H : fcollapsible _ _ _ = CMatch _ _ |- _ => apply (proj2 (docs_wf _)) in H; destruct H as [_ (? & ? & ? & ->)]
  end.

(** ** Paragraphs *)

Lemma normal_ne : forall l, normal_inlines l -> l <> [] -> u_pars l <> [].
Proof.
  intros [|p l] (N & _) NE; [congruence|]. inversion N as [|? ? Np _]; subst. rewrite u_pars_cons. intros X. apply app_eq_nil in X. destruct X as [X _].
  destruct (is_ptext p) eqn:Ep; [|destruct (u_par_hd p Ep) as (c & r & Y & _); congruence]. destruct p; try discriminate. cbn [u_par uflat] in X. exact (u_text_ne _ Np X).
Qed.
Lemma normal_lcurly : forall l, normal_inlines l -> raw_at c_lcurly (u_pars l) = false.
Proof.
  intros [|p l] (N & _); [reflexivity|]. inversion N as [|? ? Np _]; subst. rewrite u_pars_cons. destruct p; cbn [u_par uflat]; try reflexivity.
  rewrite raw_app by (apply u_text_ne; exact Np). apply raw_absent. unfold u_text. keeps.
Qed.
Lemma stops_cst : forall n coll, (coll = true -> n <> 0) -> incl (StopTerminator :: RawTree.stops coll) (StopTerminator :: cst n).
Proof.
  intros n coll Hc c [<-|H]; [left; reflexivity|right]. destruct coll; [|destruct H]. destruct H as [<-|[]]. destruct n; [exfalso; apply Hc; reflexivity|left; reflexivity].
Qed.
Lemma paragraph_back : forall coll n l, (n <> 0 <-> coll = true) -> back coll n (YParagraph l).
Proof.
  intros coll n l Hn s ts B fuel x r L C TB Hf NS NC E Bx.
  assert (X : exists ts', fcollapsible fuel (cst n) ts = CFail ts' /\ flips ts ts' /\ fparagraph (StopTerminator :: cst n) ts' = (x, r)).
  { pose proof (fblock_from _ _ _ _ _ E) as F. destruct F as [F|[F|(ts' & F1 & F2 & [F|[F|[F|[F|[F|[F|F]]]]]])]]; eauto; by_root; discriminate Bx. }
  destruct X as (ts' & E1 & Fl & EP). destruct (RawTree.par_awake _ _ _ _ EP) as (k & Ex & Aw & St). pose proof (fparagraph_app _ _ _ _ EP) as Ets. pose proof EP as W. apply fparagraph_wf in W; [|left; reflexivity]. destruct W as [W _].
  subst x. cbn [yield] in Ets. change (flat_map yield) with yields in Ets. rewrite app_nil_r in Ets. cbn [app] in Ets. inversion W as [| |? ? ? ? Wk Sh]; subst. cbn [blocks] in Bx. injection Bx as <-.
  pose proof (flips_linked _ _ _ Fl L) as L'. apply linked_app in L'. destruct L' as [Lk _]. destruct Sh as (_ & _ & It & _). pose proof (par_items s k Wk Lk It) as No. set (l := pars_of s k) in *.
  assert (NE : l <> []).
  { destruct k as [|t k]; [exfalso; cbn [yields flat_map app] in Fl; rewrite (flips_stopped _ _ _ Fl) in St; congruence|]. apply items_cons_inv in It. destruct (par_of_one s t) as (b & Eb); [destruct t; tauto|].
    unfold l, pars_of. cbn [flat_map]. rewrite Eb. discriminate. }
  cbn [u_block] in *. pose proof (u_lead_more (u_pars l)) as M. pose proof (normal_ne l No NE) as NU. pose proof (more_ne _ _ _ M NU) as NU2.
  assert (Et : ts = yields k ++ r).
  { destruct (cov_cons_inv _ _ _ _ C) as (t & ts1 & ->); [destruct (u_lead (u_pars l)); [congruence|discriminate]|]. rewrite (fcoll_none _ _ _ _ _ _ _ C) in E1; [congruence|].
    apply raw2_hd. rewrite raw_app by exact NU2. apply (more_raw_at _ _ _ _ M). apply normal_lcurly. exact No. }
  subst ts. assert (Tx : ttexts s (yields k) = chars (u_lead (u_pars l))) by (rewrite (more_chars _ _ _ M); apply pars_text; [exact Wk|exact It|exact (cov_gtok _ _ _ _ _ C)]).
  assert (Q : tidy coll (u_lead (u_pars l))) by (eapply span_tidy; [exact C|exact Tx|eapply RawTree.awake_quiet; [apply stops_cst; apply Hn|exact Aw]|exact NC]).
  assert (He : ends c_nl (u_lead (u_pars l)) -> B = []) by (apply (last_nl s n _ _ _ _ _ C Tx (proj1 Q) TB)).
  split; [|exact He]. pose proof (tidy_pars coll l No (tidy_less _ _ _ _ M keep3_blockmark Q)) as T.
  assert (Mi : mild_block coll (YParagraph l)) by (split; assumption). apply mild_settled; [exact Mi|].
  apply (paragraph_conv coll n l Mi (proj1 Hn) s (yields k ++ r) B fuel (Node NParagraph [] k []) r C TB He Hf E). reflexivity.
Qed.
