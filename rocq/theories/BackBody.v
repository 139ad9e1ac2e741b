(** Blocks that are read back from what [Display] writes for them are tame: bodies and collapsibles. *)
From Coq Require Import String Bool.
From Verif Require Import Base Lexer LexSpec LexProofs LexFacts Ops Parser FParser Refine Refine2 Refine3 Wf TokFacts StreamSpec Lines ToYamd TreeAst Ast Api AstSpec AstProofs Tame Settled Mild Runs Units ULex Stops Inline LinkUnits AstUnits Calm Blocks Docs Highlight Lists UBlocks UList UDocs Unsettled UnsettledHl Span Written UnsettledDoc BackInline BackPar.
From Verif Require RawTree RawAst RawLinks.
Open Scope list_scope.

(** ** How the units of a block start *)

(** A line feed in front is alone, or two of them are escaped. *)
Definition nlhead (us : list uchar) : Prop :=
  match us with
  | [] => True
  | u :: r => snd u <> c_nl \/ (u = raw c_nl /\ (r = [] \/ exists v r', r = v :: r' /\ snd v <> c_nl)) \/ (u = escd c_nl /\ exists r', r = escd c_nl :: r')
  end.

Lemma nlhead_more : forall C A B, more C A B -> ~ C c_nl -> nlhead A -> nlhead B.
Proof.
  intros C A B M HC H. destruct M as [|u v A B (M1 & M2 & M3) M]; [exact I|]. cbn [nlhead] in *. destruct H as [H|[[-> H]|[-> (r & ->)]]].
  - left. congruence.
  - right. left. split.
    + destruct v as [e d]. cbn in M1. subst d. destruct e; [|reflexivity]. destruct (M3 eq_refl) as [X|X]; [discriminate X|contradiction].
    + destruct M as [|u v' A B (N1 & _) M]; [left; reflexivity|]. right. exists v', B. split; [reflexivity|]. destruct H as [H|(z & r & H & H1)]; [discriminate H|]. injection H as -> _. congruence.
  - right. right. destruct v as [e d]. cbn in M1. subst d. pose proof (M2 eq_refl) as X. cbn in X. subst e. split; [reflexivity|]. inversion M as [|? w ? B' (N1 & N2 & _) M']; subst. exists B'. destruct w as [e' d']. cbn in N1. subst d'. pose proof (N2 eq_refl) as X. cbn in X. subst e'. reflexivity.
Qed.

Lemma nn2_nlhead : forall us, ~ In (escd c_nl) us -> nlhead (nn2 us).
Proof.
  intros [|u us] N; [exact I|]. unfold nn2. cbn [umark]. destruct (umatch [escd c_nl; escd c_nl] (u :: us)) eqn:M.
  - cbn [umatch] in M. apply andb_true_iff in M. destruct M as [M1 M2]. apply char_eqb_eq in M1. destruct us as [|v us]; [discriminate|]. cbn [follows] in M2.
    rewrite andb_true_r in M2. apply andb_true_iff in M2. destruct M2 as [_ M3]. apply char_eqb_eq in M3. destruct u as [eu cu], v as [ev cv]. cbn in M1, M3. subst cu cv.
    cbn [umark fst snd escd nlhead]. rewrite !orb_true_r. right. right. split; [reflexivity|]. eexists. reflexivity.
  - cbn [nlhead]. destruct u as [e c]. destruct (char_eqb c c_nl) eqn:E; [|left; intros X; cbn in X; rewrite X, char_eqb_refl in E; discriminate]. apply char_eqb_eq in E. subst c.
    destruct e; [exfalso; apply N; left; reflexivity|]. right. left. split; [reflexivity|]. destruct us as [|v us]; [left; reflexivity|right].
    destruct (umark [escd c_nl; escd c_nl] [] (v :: us)) as [|w W] eqn:EW; [apply (f_equal chars) in EW; rewrite umark_chars in EW; discriminate|]. exists w, W. split; [reflexivity|]. intros X.
    apply (f_equal chars) in EW. rewrite umark_chars in EW. cbn [chars] in EW. injection EW as EW _. destruct v as [e d]. cbn in EW. rewrite X in EW. subst d. destruct e; [apply N; right; left; reflexivity|]. cbn in M. discriminate.
Qed.
Lemma u_text_nlhead : forall x, nlhead (u_text x).
Proof.
  intros x. unfold u_text, pp. eapply nlhead_more; [apply umark0_more| |apply nn2_nlhead; noesc]. intros [Y|[Y|[]]]; discriminate Y.
Qed.
Lemma nlhead_app : forall A B, nlhead A -> A <> [] -> (B = [] \/ hd_in delims B) -> nlhead (A ++ B).
Proof.
  intros [|u A] B H NE HB; [congruence|]. cbn [nlhead app] in *. destruct H as [H|[[-> H]|[-> (r & ->)]]]; [left; exact H| |right; right; split; [reflexivity|eexists; reflexivity]].
  right. left. split; [reflexivity|]. destruct H as [->|(v & r & -> & Hv)]; [|right; exists v, (r ++ B); split; [reflexivity|exact Hv]]. cbn [app]. destruct HB as [->|(c & r & -> & Hc)]; [left; reflexivity|right]. exists (raw c), r. split; [reflexivity|].
  intros X. cbn in X. subst c. revert Hc. nodel.
Qed.
Lemma delim_nlhead : forall us, hd_in delims us -> nlhead us.
Proof. intros us (c & r & -> & Hc). left. intros X. cbn in X. subst c. revert Hc. nodel. Qed.
Lemma pars_nlhead : forall l, normal_inlines l -> nlhead (u_pars l).
Proof.
  intros [|p l] (N & C & _); [exact I|]. destruct (is_ptext p) eqn:E; [|apply delim_nlhead, u_pars_hd; exact E].
  destruct p; try discriminate. inversion N as [|? ? Tp _]; subst. rewrite u_pars_cons. cbn [u_par uflat]. apply nlhead_app; [apply u_text_nlhead|apply u_text_ne; exact Tp|].
  destruct l as [|q l]; [left; reflexivity|right]. destruct C as [C _]. cbn in C. apply u_pars_hd. exact C.
Qed.
Lemma raw_nlhead : forall c r, c <> c_nl -> nlhead (raw c :: r).
Proof. intros c r H. left. exact H. Qed.
Lemma block_nlhead : forall y, match y with YParagraph l => normal_inlines l | _ => True end -> nlhead (u_block y).
Proof.
  intros [l|k l|i|l|lang code|l|t i ps| |kind args|title b] H; cbn [u_block].
  - eapply nlhead_more; [apply u_lead_more| |apply pars_nlhead; exact H]. unfold blockmark. nodel.
  - destruct k; apply raw_nlhead; discriminate.
  - apply raw_nlhead. discriminate.
  - destruct l as [|i l]; [exact I|]. cbn [map uimages]. unfold uimage. apply raw_nlhead. discriminate.
  - apply raw_nlhead. discriminate.
  - destruct l as [ty lv items]. rewrite u_list_eq. destruct items as [|[p nested] items]; [exact I|]. cbn [map ujoin1]. rewrite u_item_eq. destruct lv; [destruct ty|]; apply raw_nlhead; discriminate.
  - apply raw_nlhead. discriminate.
  - apply raw_nlhead. discriminate.
  - apply raw_nlhead. discriminate.
  - apply raw_nlhead. discriminate.
Qed.

Lemma fblock_flips : forall n st ts x r, fblock n st ts = (x, r) -> flips ts (yield x ++ r).
Proof.
  intros n st ts x r1 H. unfold fblock in H. destruct (fcode st ts) as [[z r2]|] eqn:E1; [injection H as -> ->; apply covers_code in E1; destruct E1 as [<- _]; apply flips_refl|].
  pose proof (proj2 (docs_flips n) st ts) as C. destruct (fcollapsible n st ts) as [z r2|ts']; [injection H as -> ->; exact C|].
  destruct (forelse fembed fhighlight st ts') as [[z r2]|] eqn:E2; [injection H as -> ->; apply (covers_orelse _ _ covers_embed covers_highlight) in E2; destruct E2 as [<- _]; exact C|].
  apply simple_app in H. rewrite <- H. exact C.
Qed.

(** Paragraphs that are read are normal. *)
Lemma fblock_normal : forall s m st ts x r l, linked s ts -> fblock m st ts = (x, r) -> blocks s x = [YParagraph l] -> normal_inlines l.
Proof.
  intros s m st ts x r l L E Bx.
  assert (X : exists ts', flips ts ts' /\ fparagraph (StopTerminator :: st) ts' = (x, r)).
  { pose proof (fblock_from _ _ _ _ _ E) as F. destruct F as [F|[F|(ts' & F1 & F2 & [F|[F|[F|[F|[F|[F|F]]]]]])]]; eauto; by_root; discriminate Bx. }
  destruct X as (ts' & Fl & EP). pose proof (fparagraph_app _ _ _ _ EP) as Ets. apply fparagraph_wf in EP; [|left; reflexivity]. destruct EP as [W (o & k & c & ->)].
  inversion W as [| |? ? ? ? Wk Sh]; subst. cbn [blocks] in Bx. injection Bx as <-. destruct Sh as (-> & -> & It & _). cbn [yield app] in Fl. rewrite app_nil_r in Fl.
  pose proof (flips_linked _ _ _ Fl L) as L'. apply linked_app in L'. apply par_items; [exact Wk|apply L'|exact It].
Qed.

(** ** Line feeds in front of a document *)

Definition nlshape (Z : list uchar) : Prop :=
  forall j W, Z = repeat (raw c_nl) j ++ W -> raw_at c_nl W = false -> W = [] \/ (exists r, W = escd c_nl :: escd c_nl :: r) \/ exists u r, W = u :: r /\ snd u <> c_nl.

Lemma nlshape_nil : nlshape [].
Proof. intros j W E _. left. destruct j; [symmetry; exact E|discriminate E]. Qed.
Lemma nlshape_nl : forall Z, nlshape Z -> nlshape (raw c_nl :: Z).
Proof. intros Z H [|j] W E R; [cbn in E; subst W; discriminate R|]. injection E as E. exact (H j W E R). Qed.
Lemma nlshape_other : forall u Z, snd u <> c_nl -> nlshape (u :: Z).
Proof. intros u Z H [|j] W E R; [right; right; exists u, Z; split; [symmetry; exact E|exact H]|]. injection E as -> _. exfalso. apply H. reflexivity. Qed.
Lemma nlshape_app : forall U B, nlhead U -> nlshape B -> nlshape (U ++ B).
Proof.
  intros [|u U] B H HB; [exact HB|]. destruct H as [H|[[-> H]|[-> (r & ->)]]].
  - apply nlshape_other. exact H.
  - cbn [app]. apply nlshape_nl. destruct H as [->|(v & r & -> & H)]; [exact HB|apply nlshape_other; exact H].
  - intros [|j] W E R; [right; left; exists (r ++ B); symmetry; exact E|discriminate E].
Qed.
Lemma nlshape_tail : forall n T, dtail n T -> nlshape T.
Proof. intros n T [->|(_ & R & ->)]; [apply nlshape_nil|]. apply nlshape_nl, nlshape_other. discriminate. Qed.
Lemma nlshape_join : forall l T, Forall nlhead l -> nlshape T -> nlshape (ujoin l ++ T).
Proof.
  intros l T F HT. induction F as [|U l HU F IH]; [exact HT|]. cbn [ujoin]. rewrite <- app_assoc. apply nlshape_app; [exact HU|]. destruct l; [exact HT|]. cbn [app]. apply nlshape_nl, nlshape_nl. exact IH.
Qed.
Lemma nl_split : forall Z, exists j W, Z = repeat (raw c_nl) j ++ W /\ raw_at c_nl W = false.
Proof.
  induction Z as [|u Z (j & W & E & R)]; [exists 0, []; split; reflexivity|]. destruct (raw_at c_nl (u :: Z)) eqn:Ru.
  - apply raw_at_true in Ru. destruct Ru as (r & Ru). injection Ru as -> <-. exists (S j), W. split; [cbn; rewrite E; reflexivity|exact R].
  - exists 0, (u :: Z). split; [reflexivity|exact Ru].
Qed.

(** The paragraph of a single line feed: the first token, and after it the text stops. *)
Lemma nl_block : forall s n m t ts b us x r, linked s (t :: ts) -> cov s b (t :: ts) us -> raw_at c_lcurly us = false -> fblock m (cst n) (t :: ts) = (x, r) -> blocks s x = [YParagraph [PText [c_nl]]] ->
  ttext s t = [c_nl] -> r = ts /\ stopped (StopTerminator :: cst n) ts = true.
Proof.
  intros s n m t ts b us x r L C NC E Bx Tt.
  assert (X : exists ts', fcollapsible m (cst n) (t :: ts) = CFail ts' /\ flips (t :: ts) ts' /\ fparagraph (StopTerminator :: cst n) ts' = (x, r)).
  { pose proof (fblock_from _ _ _ _ _ E) as F. destruct F as [F|[F|(ts' & F1 & F2 & [F|[F|[F|[F|[F|[F|F]]]]]])]]; eauto; by_root; discriminate Bx. }
  destruct X as (ts' & E1 & _ & EP). rewrite (fcoll_none _ _ _ _ _ _ _ C) in E1 by (apply raw2_hd; exact NC). injection E1 as <-.
  destruct (RawTree.par_awake _ _ _ _ EP) as (k & Ex & _ & St). pose proof (fparagraph_app _ _ _ _ EP) as Ets. symmetry in Ets. pose proof EP as W. apply fparagraph_wf in W; [|left; reflexivity]. destruct W as [W _].
  subst x. cbn [yield] in Ets. change (flat_map yield) with yields in Ets. rewrite app_nil_r in Ets. cbn [app] in Ets. inversion W as [| |? ? ? ? Wk Sh]; subst. cbn [blocks] in Bx. injection Bx as Bx. destruct Sh as (_ & _ & It & _).
  assert (G : Forall (gtok s) (yields k)) by (rewrite <- Ets in C; exact (cov_gtok _ _ _ _ _ C)).
  pose proof (pars_text s k Wk It G) as Tx. rewrite Bx in Tx. replace (chars (u_pars [PText [c_nl]])) with [c_nl] in Tx by reflexivity.
  destruct (yields k) as [|t1 d] eqn:Ek; [discriminate Tx|]. injection Ets as -> Ets. change (ttexts s (t :: d)) with (ttext s t ++ ttexts s d) in Tx. rewrite Tt in Tx. injection Tx as Tx.
  destruct d as [|t2 d]; [cbn [app] in Ets; subst r; split; [reflexivity|exact St]|]. exfalso. rewrite <- Ets in C. inversion C as [|? ? ? ? g R _ U Cb Ct Cl Cr]; subst.
  destruct (ttext_first _ _ _ _ _ Cr) as (u & q & z & _ & Tt2). change (ttexts s (t2 :: d)) with (ttext s t2 ++ ttexts s d) in Tx. rewrite Tt2 in Tx. discriminate Tx.
Qed.

Lemma nl_only : forall s n m j W ts rest, linked s ts -> cov s true ts (repeat (raw c_nl) j ++ W) -> raw_at c_nl W = false -> (W = [] \/ (exists r, W = escd c_nl :: escd c_nl :: r) \/ exists u r, W = u :: r /\ snd u <> c_nl) ->
  flat_map (blocks s) (fst (fdoc m (cst n) ts)) = YParagraph [PText [c_nl]] :: rest -> W = [] /\ rest = [].
Proof.
  intros s n m. induction m as [|m IH]; intros j W ts rest L C RW HW E; [discriminate E|]. destruct ts as [|t ts]; [discriminate E|]. rewrite fdoc_step in E. destruct (stopped (cst n) (t :: ts)) eqn:St; [discriminate E|].
  destruct j as [|[|j]].
  - cbn [repeat app] in C. destruct HW as [->|[(r & ->)|(u & r & -> & Hu)]]; [inversion C; discriminate| |].
    + exfalso. unfold is_terminator in E. rewrite (term_test _ _ _ _ _ C) in E. cbn [raw2_at escd fst negb andb] in E.
      destruct (fblock m (cst n) (t :: ts)) as [x r1] eqn:Fb. destruct (fdoc m (cst n) r1) as [k r2] eqn:Fd. cbn [fst flat_map] in E. destruct (fblock_one s _ _ _ _ _ Fb) as (y & Ey). rewrite Ey in E. injection E as -> _.
      pose proof C as C'. inversion C' as [|? ? ? ? g R Hf U Cb Ct Cl Cr]; subst. destruct (utok_ok _ _ _ _ Hf U) as (Eg & Ng & Go).
      assert (X : g = [escd c_nl] /\ R = escd c_nl :: r /\ line_end (kind t) = false).
      { destruct (kind t); cbn [group_ok] in Go; try (destruct Go as (c & q & _ & ->); discriminate Eg); try (subst g; discriminate Eg). destruct Go as (u & g' & -> & Fg & _). cbn [app] in Eg. injection Eg as <- Eg.
        destruct g' as [|v g']; [split; [reflexivity|]; split; [symmetry; exact Eg|reflexivity]|]. cbn [app] in Eg. injection Eg as <- Eg. inversion Fg as [|? ? Fv _]; subst. destruct Fv as [Fv _]. discriminate Fv. }
      destruct X as (-> & -> & Le). destruct (nl_block s n m t ts true _ x r1 L C eq_refl Fb Ey Ct) as [-> Sp]. rewrite Le in Cr. rewrite (stopped_units _ _ _ _ _ Cr) in Sp. cbn [ustop existsb fires raw2_at escd fst negb andb orb] in Sp.
      unfold cst in Sp. clear - Sp. induction n as [|n IH]; [discriminate Sp|]. exact (IH Sp).
    + exfalso. assert (X : leading c_nl (first_text [PText [c_nl]]) = 0); [|discriminate X].
      refine (fdoc_first s true n (S m) (t :: ts) (u :: r) _ rest C _ _ _); [discriminate| |rewrite fdoc_step, St; exact E]. cbn [chars leading]. destruct (char_eqb (snd u) c_nl) eqn:Q; [apply char_eqb_eq in Q; contradiction|reflexivity].
  - cbn [repeat app] in C. destruct (cov_eol _ _ _ _ C RW) as (t' & ts' & X1 & X2 & X3 & X4 & X5). injection X1 as <- <-. unfold is_terminator in E. rewrite X2 in E. change (kind_eqb Eol Terminator) with false in E. cbn match in E.
    destruct (fblock m (cst n) (t :: ts)) as [x r1] eqn:Fb. destruct (fdoc m (cst n) r1) as [k r2] eqn:Fd. cbn [fst flat_map] in E. destruct (fblock_one s _ _ _ _ _ Fb) as (y & Ey). rewrite Ey in E. injection E as -> E.
    destruct (nl_block s n m t ts true _ x r1 L C eq_refl Fb Ey X4) as [-> Sp]. rewrite (stopped_units _ _ _ _ _ X5) in Sp. rewrite (stopped_units _ _ _ _ _ C) in St. cbn [ustop] in St.
    destruct W as [|u W]; [split; [reflexivity|]; assert (Ets : ts = []) by (inversion X5; [reflexivity|discriminate]); rewrite Ets in Fd; assert (Ek : k = []) by (destruct m; cbn [fdoc] in Fd; congruence); rewrite <- E, Ek; reflexivity|]. exfalso. cbn [ustop existsb fires] in Sp. rewrite (raw_raw2 _ _ _ RW) in Sp. cbn [orb] in Sp.
    clear - Sp St RW. unfold cst in *. induction n as [|n IH]; [discriminate Sp|]. cbn [repeat existsb] in Sp, St. apply orb_false_iff in St. destruct St as [S1 S2]. apply orb_true_iff in Sp. destruct Sp as [Sp|Sp]; [|exact (IH S2 Sp)].
    cbn [fires andb] in S1, Sp. change (is_nl u) with (raw_at c_nl (u :: W)) in Sp. rewrite RW in Sp. cbn [andb orb] in Sp. rewrite orb_false_r in Sp. apply orb_false_iff in S1. destruct S1 as [_ S1]. cbn in S1, Sp. congruence.
  - cbn [repeat app] in C. destruct (cov_term _ _ _ _ C) as (t' & ts' & X1 & X2 & X3 & X4 & X5). injection X1 as <- <-. unfold is_terminator in E. rewrite X2 in E. change (kind_eqb Terminator Terminator) with true in E. cbn match in E.
    assert (L1 : linked s ts) by (apply (linked_app s [t] ts) in L; apply L). apply (IH j W ts rest L1 X5 RW HW). destruct (fdoc m (cst n) ts). exact E.
Qed.

(** ** Blocks that are read are not empty *)

Lemma fblock_ne : forall s m st ts x r y, linked s ts -> fblock m st ts = (x, r) -> stopped (StopTerminator :: st) ts = false -> blocks s x = [y] -> u_block y <> [].
Proof.
  intros s m st ts x r y L E St Bx. pose proof (fblock_from _ _ _ _ _ E) as F. destruct (fblock_wf _ _ _ _ _ E) as [W _]. pose proof (fblock_flips _ _ _ _ _ E) as Ff.
  pose proof (flips_linked _ _ _ Ff L) as L'. apply linked_app in L'. destruct L' as [Lx _].
  destruct y as [l|k l|i|l|lang code|l|t i ps| |kind args|title b]; cbn [u_block]; try discriminate.
  - assert (X : exists ts', flips ts ts' /\ fparagraph (StopTerminator :: st) ts' = (x, r)).
    { destruct F as [F|[F|(ts' & F1 & F2 & [F|[F|[F|[F|[F|[F|F]]]]]])]]; eauto; by_root; discriminate Bx. }
    destruct X as (ts' & Fl & EP). destruct (RawTree.par_awake _ _ _ _ EP) as (k' & Ex & _ & Sr). subst x. inversion W as [| |? ? ? ? Wk Sh]; subst. destruct Sh as (_ & _ & It & _). cbn [yield app] in Lx. change (flat_map yield) with yields in Lx. rewrite app_nil_r in Lx.
    cbn [blocks] in Bx. injection Bx as <-. apply (more_ne _ _ _ (u_lead_more _)). apply normal_ne; [apply par_items; assumption|]. pose proof (fparagraph_app _ _ _ _ EP) as Ets.
    destruct k' as [|t k]; [exfalso; cbn in Ets; subst ts'; rewrite (flips_stopped _ _ _ Fl) in Sr; congruence|]. apply items_cons_inv in It. destruct (par_of_one s t) as (b & Eb); [destruct t; tauto|].
    unfold pars_of. cbn [flat_map]. rewrite Eb. discriminate.
  - destruct k; discriminate.
  - destruct x as [d|d|nd o k c]; try discriminate Bx. inversion W as [| |? ? ? ? Wk Sh]; subst. destruct nd; cbn [blocks] in Bx; try discriminate Bx.
    injection Bx as <-. destruct Sh as (_ & _ & N & R). destruct k as [|q k]; [cbn in N; lia|]. inversion R as [|? ? (o' & k' & c' & ->) _]; subst. discriminate.
  - assert (LO : levels_ok 0 l).
    { destruct x as [d|d|nd o k c]; try discriminate Bx. inversion W as [| |? ? ? ? Wk Sh]; subst. destruct nd; cbn [blocks] in Bx; try discriminate Bx; try (unfold image_of in Bx; discriminate Bx).
      - injection Bx as <-. destruct Sh as (-> & -> & NE & lv & Fi). apply (list_levels s _ 0 lv W Lx). exists Ordered, k. auto.
      - injection Bx as <-. destruct Sh as (-> & -> & NE & lv & Fi). apply (list_levels s _ 0 lv W Lx). exists Unordered, k. auto. }
    destruct l as [ty lv items]. destruct LO as (-> & NE & _). rewrite u_list_eq. destruct items as [|[p q] items]; [congruence|]. cbn [map ujoin1]. rewrite u_item_eq. discriminate.
Qed.

Lemma unstopped : forall st t ts, stopped st (t :: ts) = false -> is_terminator t = false -> stopped (StopTerminator :: st) (t :: ts) = false.
Proof. intros st t ts H1 H2. unfold stopped in *. cbn [existsb]. rewrite H1, orb_false_r. exact H2. Qed.
Definition read_block (y : ynode) : Prop := match y with YParagraph l => normal_inlines l | _ => True end /\ u_block y <> [].
Lemma fdoc_read : forall s m st ts, linked s ts -> Forall read_block (flat_map (blocks s) (fst (fdoc m st ts))).
Proof.
  intros s m st. induction m as [|m IH]; intros ts L; [constructor|]. destruct ts as [|t ts]; [constructor|]. rewrite fdoc_step. destruct (stopped st (t :: ts)) eqn:St; [constructor|]. destruct (is_terminator t) eqn:Te.
  - assert (L1 : linked s ts) by (apply (linked_app s [t] ts) in L; apply L). specialize (IH ts L1). destruct (fdoc m st ts) as [k r]. exact IH.
  - destruct (fblock m st (t :: ts)) as [x r1] eqn:Fb. assert (L1 : linked s r1).
    { pose proof (fblock_flips _ _ _ _ _ Fb) as F. pose proof (flips_linked _ _ _ F L) as X. apply linked_app in X. apply X. }
    specialize (IH r1 L1). destruct (fdoc m st r1) as [k r]. cbn [fst flat_map] in *. apply Forall_app. split; [|exact IH]. destruct (fblock_one s _ _ _ _ _ Fb) as (y & Ey). rewrite Ey. constructor; [|constructor]. split.
    + destruct y; try exact I. exact (fblock_normal _ _ _ _ _ _ _ L Fb Ey).
    + apply (fblock_ne s _ _ _ _ _ _ L Fb); [|exact Ey]. apply unstopped; assumption.
Qed.
Lemma read_nlhead : forall l, Forall read_block l -> Forall nlhead (map u_block l).
Proof. intros l F. apply Forall_map. eapply Forall_impl; [|exact F]. intros y [H _]. apply block_nlhead. exact H. Qed.
Lemma read_nl : forall y, read_block y -> u_block y = [raw c_nl] -> y = YParagraph [PText [c_nl]].
Proof.
  intros y [N _] E. destruct y as [l|k l|i|l|lang code|l|t i ps| |kind args|title b]; cbn [u_block] in E; try discriminate E.
  - apply (f_equal chars) in E. rewrite (more_chars _ _ _ (u_lead_more (u_pars l))) in E. destruct N as (N & _). destruct l as [|p l]; [discriminate E|]. inversion N as [|? ? Np Nl]; subst. rewrite u_pars_cons in E.
    destruct p as [? ?|?|?|?|x|?|?]; cbn [u_par uflat] in E; try discriminate E. rewrite chars_app, u_text_chars in E. cbn in Np. destruct x as [|c x]; [congruence|]. injection E as -> E. apply app_eq_nil in E. destruct E as [-> E].
    destruct l as [|q l]; [reflexivity|]. exfalso. rewrite u_pars_cons, chars_app in E. apply app_eq_nil in E. destruct E as [E _]. inversion Nl as [|? ? Nq _]; subst.
    destruct (is_ptext q) eqn:Eq; [|destruct (u_par_hd q Eq) as (c & r & Y & _); rewrite Y in E; discriminate E]. destruct q; try discriminate. cbn [u_par uflat] in E. rewrite u_text_chars in E. cbn in Nq. congruence.
  - destruct k; discriminate E.
  - destruct l as [|i l]; [discriminate E|]. cbn [map uimages] in E. unfold uimage in E. discriminate E.
  - destruct l as [ty lv items]. rewrite u_list_eq in E. destruct items as [|[p nested] items]; [discriminate E|]. cbn [map ujoin1] in E. rewrite u_item_eq in E. destruct lv; [destruct ty|]; discriminate E.
Qed.
Lemma nlhead_two : forall U B R, nlhead U -> U <> [] -> U ++ B = raw c_nl :: raw c_nl :: R -> U = [raw c_nl] /\ B = raw c_nl :: R.
Proof.
  intros [|u U] B R H NE E; [congruence|]. injection E as -> E. destruct H as [H|[[_ [->|(v & r & -> & H)]]|[H _]]]; [exfalso; apply H; reflexivity|split; [reflexivity|exact E]| |discriminate H].
  injection E as -> _. exfalso. apply H. reflexivity.
Qed.
Lemma nlshape_inv : forall Z, nlshape (raw c_nl :: Z) -> nlshape Z.
Proof. intros Z H j W E R. apply (H (S j) W); [cbn; rewrite E; reflexivity|exact R]. Qed.
(** A body whose first line feeds are lost is not read back. *)
Lemma nl_lost : forall s n m ts R l, linked s ts -> cov s true ts R -> nlshape R -> flat_map (blocks s) (fst (fdoc m (cst n) ts)) = YParagraph [PText [c_nl]] :: l -> l = [] /\ exists j, R = repeat (raw c_nl) j.
Proof.
  intros s n m ts R l L C SR E. destruct (nl_split R) as (j & W & -> & RW). destruct (nl_only s n m j W ts l L C RW (SR j W eq_refl RW) E) as [-> ->]. split; [reflexivity|]. exists j. apply app_nil_r.
Qed.

(** ** Bodies *)

Lemma docs_back : forall s n coll l m ts T, (n <> 0 <-> coll = true) -> Forall (back coll n) l -> linked s ts -> cov s true ts (ujoin (map u_block l) ++ T) -> dtail n T -> List.length ts < m ->
  ~ In c_cr (chars (ujoin (map u_block l))) -> flat_map (blocks s) (fst (fdoc m (cst n) ts)) = l ->
  Forall (tame_block coll) l /\ closed (map u_block l) /\ (ends c_nl (u_block (last l YThematicBreak)) -> T = []).
Proof.
  intros s n coll l. induction l as [|y l IH]; intros m ts T Hn F L H HT Hm NC E.
  { split; [constructor|]. split; [exact I|]. intros X. exfalso. destruct X as (r & X). apply (f_equal (@rev uchar)) in X. rewrite rev_app_distr in X. discriminate X. }
  inversion F as [|? ? Fy Fl]; subst. pose proof (fdoc_read s m (cst n) ts L) as NH. rewrite E in NH. inversion NH as [|? ? Ny Nl]; subst.
  destruct m as [|m]; [lia|]. cbn [map ujoin] in H, NC.
  assert (X : exists B, cov s true ts (u_block y ++ B) /\ stail n B /\ ((l = [] /\ B = T) \/ (l <> [] /\ B = raw c_nl :: raw c_nl :: ujoin (map u_block l) ++ T))).
  { destruct l as [|q l].
    - rewrite app_nil_r in H. exists T. split; [exact H|]. split; [apply dtail_stail; exact HT|]. left. auto.
    - rewrite <- app_assoc in H. eexists. split; [exact H|]. split; [right; left; eexists; reflexivity|]. right; split; [discriminate|reflexivity]. }
  destruct X as (B & C & TB & HB).
  assert (NCy : ~ In c_cr (chars (u_block y))) by (intros X; apply NC; rewrite chars_app; apply in_or_app; left; exact X).
  assert (NCl : ~ In c_cr (chars (ujoin (map u_block l)))) by (intros X; apply NC; rewrite chars_app; apply in_or_app; right; destruct l; [destruct X|right; right; exact X]).
  destruct ts as [|t ts]; [discriminate E|]. rewrite fdoc_step in E. destruct (stopped (cst n) (t :: ts)) eqn:St; [discriminate E|]. destruct (is_terminator t) eqn:Te.
  - exfalso. pose proof Te as Te'. unfold is_terminator in Te'. rewrite (term_test _ _ _ _ _ C) in Te'. apply raw2_at_true in Te'. destruct Te' as (R & ER). rewrite ER in C. destruct (cov_term _ _ _ _ C) as (t' & ts' & X1 & _ & _ & _ & C1). injection X1 as <- <-.
    assert (L1 : linked s ts) by (apply (linked_app s [t] ts) in L; apply L).
    assert (SB : nlshape B). { destruct HB as [[_ ->]|[_ ->]]; [exact (nlshape_tail n T HT)|]. apply nlshape_nl, nlshape_nl, nlshape_join; [|exact (nlshape_tail n T HT)]. apply read_nlhead. exact Nl. }
    destruct (nlhead_two _ _ _ (block_nlhead _ (proj1 Ny)) (proj2 Ny) ER) as [Eu ->]. pose proof (read_nl y Ny Eu) as ->. apply nlshape_inv in SB.
    destruct (nl_lost s n m ts R l L1 C1 SB) as [-> (j & ->)]; [destruct (fdoc m (cst n) ts); exact E|]. destruct HB as [[_ HB]|[X _]]; [|congruence]. destruct HT as [->|(_ & R & ->)]; [discriminate HB|]. destruct j; discriminate HB.
  - assert (St2 : stopped (StopTerminator :: cst n) (t :: ts) = false) by (apply unstopped; assumption).
    destruct (fblock m (cst n) (t :: ts)) as [x r1] eqn:Fb. destruct (fdoc m (cst n) r1) as [k r2] eqn:Fd. cbn [fst flat_map] in E. destruct (fblock_one s _ _ _ _ _ Fb) as (y' & Ey). rewrite Ey in E. cbn [app] in E. injection E as -> E.
    cbn [List.length] in Hm. destruct (Fy s (t :: ts) B m x r1 L C TB ltac:(cbn [List.length]; lia) St2 NCy Fb Ey) as [Ty He].
    destruct HB as [[-> ->]|[NL ->]]; [split; [constructor; [exact Ty|constructor]|]; split; [exact I|exact He]|].
    destruct (block_good y coll n Ty (proj1 Hn)) as (_ & Pp & _). destruct (Pp s (t :: ts) _ m C TB He ltac:(cbn [List.length]; lia)) as (x' & t' & ts1 & ts2 & P1 & P2 & _ & P4). rewrite Fb in P1. injection P1 as <- <-.
    destruct P4 as [P4|(_ & R & Q & _)]; [|discriminate Q]. destruct (cov_term _ _ _ _ P4) as (e & r3 & -> & F1 & F2 & F3 & F4).
    assert (Hm' : List.length ts = List.length ts1 + S (List.length r3)) by (apply (f_equal (@List.length token)) in P2; cbn [List.length] in P2; rewrite app_length in P2; cbn [List.length] in P2; lia).
    destruct m as [|m]; [lia|]. rewrite fdoc_step in Fd. rewrite (stopped_units _ _ _ _ _ P4) in Fd.
    rewrite cst_stop_false in Fd by (discriminate || (cbn; rewrite andb_false_r; reflexivity)). unfold is_terminator in Fd. rewrite F1 in Fd. change (kind_eqb Terminator Terminator) with true in Fd. cbn match in Fd.
    destruct (fdoc m (cst n) r3) as [k' r4] eqn:Fd'. injection Fd as <- _. cbn [flat_map blocks app] in E.
    assert (L3 : linked s r3).
    { pose proof (fblock_flips _ _ _ _ _ Fb) as Ff. pose proof (flips_linked _ _ _ Ff L) as X. apply linked_app in X. destruct X as [_ X]. apply (linked_app s [e] r3) in X. apply X. }
    destruct (IH m r3 T Hn Fl L3 F4 HT ltac:(lia) NCl ltac:(rewrite Fd'; exact E)) as (I1 & I2 & I3). split; [constructor; assumption|]. destruct l as [|q l]; [congruence|]. split; [|exact I3].
    split; [|exact I2]. intros X. discriminate (He X).
Qed.
