(** [to_yamd] gives the document that the stream stands for, and the stream of [parse] always stands for one. *)
From Verif Require Import Base Lexer LexSpec LexProofs LexFacts Ops Parser FParser Refine Refine2 Refine3
  Wf TokFacts StreamSpec StreamProofs StreamProofs2 StreamProofs3 Ast ToYamd Api Strict TreeAst AstSpec AstProofs Meaning.

(** ** Cutting line feeds *)

Lemma trim_start_repeat : forall k y, ~ starts_with_nl y -> trim_start c_nl (repeat c_nl k ++ y) = y.
Proof.
  induction k as [|k IH]; intros y H; [cbn [repeat app]|apply IH; exact H]. destruct y as [|c y]; [reflexivity|]. cbn [trim_start]. destruct (char_eqb c_nl c) eqn:E; [|reflexivity].
  apply N.eqb_eq in E. subst c. exfalso. apply H. exists y. reflexivity.
Qed.
Lemma rev_starts : forall y, ~ ends_with_nl y -> ~ starts_with_nl (rev y).
Proof. intros y H (z & E). apply H. exists (rev z). rewrite <- (rev_involutive y), E. reflexivity. Qed.
Lemma rev_repeat_c : forall (c : char) k, rev (repeat c k) = repeat c k.
Proof.
  induction k as [|k IH]; [reflexivity|]. cbn. rewrite IH. clear IH. induction k as [|k IH]; [reflexivity|]. cbn. rewrite IH. reflexivity.
Qed.
Lemma cut_end_trim : forall x y, cut_end x y -> trim_end c_nl x = y.
Proof.
  intros x y (k & -> & H). unfold trim_end. rewrite rev_app_distr, rev_repeat_c, trim_start_repeat by (apply rev_starts; exact H). apply rev_involutive.
Qed.
Lemma cut_both_trim : forall x y, cut_both x y -> trim_both c_nl x = y.
Proof. intros x y (j & z & -> & H & C). unfold trim_both. rewrite trim_start_repeat by exact H. apply cut_end_trim. exact C. Qed.
Lemma cut_last_trim : forall l m, cut_last l m -> trim_trailing_newline_from_text l = m.
Proof.
  intros l m H. unfold trim_trailing_newline_from_text. destruct H as [l x y C N|l x C|l p P|]; [| | |reflexivity]; rewrite rev_app_distr; cbn [rev app].
  - rewrite (cut_end_trim _ _ C). destruct y as [|c y]; [congruence|]. rewrite rev_involutive. reflexivity.
  - rewrite (cut_end_trim _ _ C). apply rev_involutive.
  - destruct p; try discriminate; reflexivity.
Qed.

Lemma trim_start_cut : forall x, exists k, x = repeat c_nl k ++ trim_start c_nl x /\ ~ starts_with_nl (trim_start c_nl x).
Proof.
  induction x as [|c x (k & E & H)].
  - exists 0. split; [reflexivity|]. intros (y & E). discriminate.
  - cbn [trim_start]. destruct (char_eqb c_nl c) eqn:Ec.
    + apply N.eqb_eq in Ec. subst c. exists (S k). split; [cbn; congruence|exact H].
    + exists 0. split; [reflexivity|]. intros (y & E'). injection E' as -> _. cbv in Ec. discriminate.
Qed.
Lemma trim_end_cut : forall x, cut_end x (trim_end c_nl x).
Proof.
  intros x. unfold trim_end. destruct (trim_start_cut (rev x)) as (k & E & H). exists k. split.
  - rewrite <- (rev_involutive x) at 1. rewrite E at 1. rewrite rev_app_distr, rev_repeat_c. reflexivity.
  - intros (y & E'). apply H. apply (f_equal (@rev _)) in E'. rewrite rev_involutive, rev_app_distr in E'. exists (rev y). exact E'.
Qed.
Lemma trim_both_cut : forall x, cut_both x (trim_both c_nl x).
Proof. intros x. destruct (trim_start_cut x) as (k & E & H). exists k, (trim_start c_nl x). split; [exact E|]. split; [exact H|apply trim_end_cut]. Qed.
Lemma trim_last_cut : forall l, cut_last l (trim_trailing_newline_from_text l).
Proof.
  intros l. unfold trim_trailing_newline_from_text. destruct (rev l) as [|p r] eqn:E.
  { apply (f_equal (@rev _)) in E. rewrite rev_involutive in E. subst l. constructor. }
  assert (El : l = rev r ++ [p]) by (rewrite <- (rev_involutive l), E; reflexivity). clear E. subst l.
  destruct p as [| | | |x| |]; try (apply cl_node; reflexivity).
  pose proof (trim_end_cut x) as C. destruct (trim_end c_nl x) as [|c y]; [apply cl_gone; exact C|]. cbn [rev]. apply cl_text; [exact C|discriminate].
Qed.

(** ** Running events *)

(** Several values in a text are joined. *)
Definition evalue (x : str) (st : stack) : option stack :=
  match st with
  | FItalic t :: r => Some (FItalic (t ++ x) :: r)
  | FStrikethrough t :: r => Some (FStrikethrough (t ++ x) :: r)
  | FCodeSpan t :: r => Some (FCodeSpan (t ++ x) :: r)
  | FEmphasis t :: r => Some (FEmphasis (t ++ x) :: r)
  | FTitle t :: r => Some (FTitle (t ++ x) :: r)
  | FDestination t :: r => Some (FDestination (t ++ x) :: r)
  | FModifier t :: r => Some (FModifier (t ++ x) :: r)
  | FIcon t :: r => Some (FIcon (t ++ x) :: r)
  | FCode l t :: r => Some (FCode l (t ++ x) :: r)
  | FMetadata t :: r => Some (FMetadata (t ++ x) :: r)
  | _ => strict_value x st
  end.
Definition estep (e : event) (st : stack) : option stack :=
  match fst e with
  | Start n => strict_start n (snd e) st
  | Value => evalue (snd e) st
  | End n => match st with f :: r => strict_end n f r | [] => None end
  end.
Fixpoint erun (es : list event) (st : stack) : option stack :=
  match es with [] => Some st | e :: es' => match estep e st with Some st' => erun es' st' | None => None end end.

Lemma estep_ok : forall source o e st st', op_kind_of o = fst e /\ as_str source (op_content o) = Ok (snd e) -> estep e st = Some st' -> step source o st = Ok (Some st').
Proof.
  intros source [k c] [k' x] st st' [K E] H. cbn [op_content op_kind_of fst snd] in *. subst k'. destruct k as [n|n|].
  - apply strict_step_ok. unfold strict_step. cbn [op_content op_kind_of]. rewrite E. exact H.
  - apply strict_step_ok. unfold strict_step. cbn [op_content op_kind_of]. rewrite E. exact H.
  - cbn [estep fst snd] in H. unfold step, step_value. cbn [op_content op_kind_of]. rewrite E. cbn [bind]. unfold ok.
    destruct st as [|[] st]; cbn in H; try discriminate; injection H as <-; reflexivity.
Qed.
Lemma erun_ok : forall source ops es st st', reads source ops es -> erun es st = Some st' -> run source ops st = Ok (Some st').
Proof.
  intros source ops es st st' R. revert st. induction R as [|o e ops es M R IH]; intros st H; cbn [run erun] in *; [injection H as <-; reflexivity|].
  destruct (estep e st) as [st1|] eqn:E; [|discriminate]. rewrite (estep_ok _ _ _ _ _ M E). cbn [bind]. auto.
Qed.
Lemma erun_app : forall a b st, erun (a ++ b) st = match erun a st with Some st' => erun b st' | None => None end.
Proof. induction a as [|e a IH]; intros b st; [reflexivity|]. cbn. destruct (estep e st); auto. Qed.
Lemma erun_node : forall n o c mid st st1 f r, strict_start n o st = Some st1 -> erun mid st1 = Some (f :: r) ->
  erun ((Start n, o) :: mid ++ [(End n, c)]) st = strict_end n f r.
Proof. intros n o c mid st st1 f r H1 H2. cbn [erun]. change (estep (Start n, o) st) with (strict_start n o st). rewrite H1, erun_app, H2. cbn [erun]. change (estep (End n, c) (f :: r)) with (strict_end n f r). destruct (strict_end n f r); reflexivity. Qed.

(** Nodes with just text inside. *)
Definition text_frame (n : node) (x : str) : option frame :=
  match n with
  | NItalic => Some (FItalic x) | NStrikethrough => Some (FStrikethrough x) | NCodeSpan => Some (FCodeSpan x) | NEmphasis => Some (FEmphasis x)
  | NTitle => Some (FTitle x) | NDestination => Some (FDestination x) | NModifier => Some (FModifier x) | NIcon => Some (FIcon x)
  | NMetadata => Some (FMetadata x) | _ => None
  end.
Lemma run_text_node : forall n x es f st, text_node n x es -> text_frame n x = Some f -> erun es st = strict_end n f st.
Proof.
  intros n x es f st (xs & -> & o & c & ->) F. destruct n; try discriminate; injection F as <-;
  (eapply erun_node; [reflexivity|];
   match goal with |- erun _ (?f [] :: _) = _ =>
     enough (G : forall y, erun (values xs) (f y :: st) = Some (f (y ++ concat xs) :: st)) by apply (G []) end;
   induction xs as [|x xs IH]; intros y; [rewrite app_nil_r; reflexivity|]; cbn; rewrite IH, <- app_assoc; reflexivity).
Qed.

Lemma run_link_parts : forall t u es (mk : str -> str -> frame) st,
  link_parts t u es ->
  (forall x, strict_end NTitle (FTitle x) (mk [] [] :: st) = Some (mk x [] :: st)) ->
  (forall x y, strict_end NDestination (FDestination y) (mk x [] :: st) = Some (mk x y :: st)) ->
  erun es (mk [] [] :: st) = Some (mk t u :: st).
Proof.
  intros t u es mk st (e1 & e2 & -> & T & U) H1 H2. rewrite erun_app, (run_text_node _ _ _ _ _ T eq_refl), H1, (run_text_node _ _ _ _ _ U eq_refl). apply H2.
Qed.

Lemma run_bold_means : forall es l b st, each bold_means es l -> erun es (FBold b :: st) = Some (FBold (b ++ l) :: st).
Proof.
  intros es l b st H. revert b. induction H as [|es x es' l P H IH]; intros b; [rewrite app_nil_r; reflexivity|]. rewrite erun_app.
  assert (G : erun es (FBold b :: st) = Some (FBold (b ++ [x]) :: st)).
  { destruct P as [x|x es T|x es T]; [reflexivity| |]; rewrite (run_text_node _ _ _ _ _ T eq_refl); reflexivity. }
  rewrite G, IH, <- app_assoc. reflexivity.
Qed.
Lemma run_inline_means : forall es l b st, each inline_means es l -> erun es (FParagraph b :: st) = Some (FParagraph (b ++ l) :: st).
Proof.
  intros es l b st H. revert b. induction H as [|es x es' l P H IH]; intros b; [rewrite app_nil_r; reflexivity|]. rewrite erun_app.
  assert (G : erun es (FParagraph b :: st) = Some (FParagraph (b ++ [x]) :: st)).
  { destruct P as [x|x es T|x es T|x es T|x es T|t u mid es T (o & c & ->)|m mid es T (o & c & ->)]; [reflexivity| | | | | |];
      try (rewrite (run_text_node _ _ _ _ _ T eq_refl); reflexivity).
    - erewrite erun_node; [|reflexivity|apply (run_link_parts t u mid FAnchor _ T); reflexivity]. reflexivity.
    - erewrite erun_node; [|reflexivity|apply (run_bold_means _ _ [] _ T)]. reflexivity. }
  rewrite G, IH, <- app_assoc. reflexivity.
Qed.
Lemma run_head_means : forall es l v b st, each head_means es l -> erun es (FHeading v b :: st) = Some (FHeading v (b ++ l) :: st).
Proof.
  intros es l v b st H. revert b. induction H as [|es x es' l P H IH]; intros b; [rewrite app_nil_r; reflexivity|]. rewrite erun_app.
  assert (G : erun es (FHeading v b :: st) = Some (FHeading v (b ++ [x]) :: st)).
  { destruct P as [x|t u mid es T (o & c & ->)]; [reflexivity|].
    erewrite erun_node; [|reflexivity|apply (run_link_parts t u mid FAnchor _ T); reflexivity]. reflexivity. }
  rewrite G, IH, <- app_assoc. reflexivity.
Qed.
Lemma run_paragraph_means : forall es l st, paragraph_means es l -> erun es st = strict_end NParagraph (FParagraph l) st.
Proof. intros es l st (mid & H & o & c & ->). eapply erun_node; [reflexivity|]. apply (run_inline_means _ _ [] _ H). Qed.
Lemma run_image_means : forall es i st, image_means es i -> erun es st = strict_end NImage (FImage (alt i) (src i)) st.
Proof. intros es i st (mid & H & o & c & ->). eapply erun_node; [reflexivity|]. apply (run_link_parts (alt i) (src i) mid FImage _ H); reflexivity. Qed.
Lemma run_images_mean : forall es l b st, each image_means es l -> erun es (FImages b :: st) = Some (FImages (b ++ l) :: st).
Proof.
  intros es l b st H. revert b. induction H as [|es x es' l P H IH]; intros b; [rewrite app_nil_r; reflexivity|]. rewrite erun_app.
  rewrite (run_image_means _ _ _ P). cbn [strict_end]. rewrite IH, <- app_assoc. destruct x. reflexivity.
Qed.
Lemma run_paragraphs_mean : forall es ps t i b st, paragraphs_mean es ps ->
  erun es (FHighlight t i b :: st) = Some (FHighlight t i (b ++ ps) :: st).
Proof.
  intros es ps t i b st H. revert b. induction H as [|x es ps H IH|es p es' ps (l & P & C) H IH]; intros b; [rewrite app_nil_r; reflexivity|apply IH|].
  rewrite erun_app, (run_paragraph_means _ _ _ P). cbn [strict_end]. rewrite IH, (cut_last_trim _ _ C), <- app_assoc. reflexivity.
Qed.

Scheme list_means_ind' := Minimality for list_means Sort Prop
with items_mean_ind' := Minimality for items_mean Sort Prop
with item_means_ind' := Minimality for item_means Sort Prop.
Combined Scheme lists_mean_ind from list_means_ind', items_mean_ind', item_means_ind'.
Scheme block_means_ind' := Minimality for block_means Sort Prop
with blocks_mean_ind' := Minimality for blocks_mean Sort Prop.
Combined Scheme all_blocks_ind from block_means_ind', blocks_mean_ind'.

Lemma lframe_start : forall ty o st lvl, count_list_depth st = lvl -> strict_start (list_node ty) o st = Some (lframe ty lvl [] :: st).
Proof. intros [] o st lvl <-; reflexivity. Qed.

Lemma run_lists_mean :
  (forall lvl es l, list_means lvl es l -> forall st, count_list_depth st = lvl -> erun es st = finish l st)
  /\ (forall lvl es its, items_mean lvl es its -> forall ty b st, count_list_depth st = lvl ->
        erun es (lframe ty lvl b :: st) = Some (lframe ty lvl (b ++ its) :: st))
  /\ (forall lvl es it, item_means lvl es it -> forall ty b st, count_list_depth st = lvl ->
        erun es (lframe ty lvl b :: st) = Some (lframe ty lvl (b ++ [it]) :: st)).
Proof.
  apply lists_mean_ind.
  - intros lvl ty mid its es _ IH (o & c & ->) st D. cbn [finish]. change (lnode ty) with (list_node ty). eapply erun_node; [apply lframe_start; exact D|]. apply (IH ty [] st D).
  - intros lvl ty b st D. rewrite app_nil_r. reflexivity.
  - intros lvl es it es' its _ IH1 _ IH2 ty b st D. rewrite erun_app, IH1, IH2, <- app_assoc by exact D. reflexivity.
  - intros lvl p t es (l & P & C) (o & c & ->) ty b st D. erewrite erun_node; [|reflexivity|].
    2:{ rewrite (run_paragraph_means _ _ _ P). cbn [strict_end]. rewrite (cut_last_trim _ _ C). reflexivity. }
    destruct ty; reflexivity.
  - intros lvl p t e l es (m & P & C) _ IH (o & c & ->) ty b st D. erewrite erun_node; [|reflexivity|].
    2:{ rewrite erun_app, (run_paragraph_means _ _ _ P). cbn [strict_end]. rewrite (cut_last_trim _ _ C).
        rewrite IH by (destruct ty; cbn; rewrite <- D; reflexivity). destruct l as [ty' lvl' its]. destruct ty'; reflexivity. }
    destruct ty, l as [[] ? ?]; reflexivity.
Qed.

Lemma run_code_mod : forall m lang st, option_means NModifier m lang -> erun m (FCode [] [] :: st) = Some (FCode (or_empty lang) [] :: st).
Proof. intros m lang st H. destruct H as [|x es T]; [reflexivity|]. rewrite (run_text_node _ _ _ _ _ T eq_refl). reflexivity. Qed.
Lemma run_coll_mod : forall m t st, option_means NModifier m t -> erun m (FCollapsible [] [] :: st) = Some (FCollapsible (or_empty t) [] :: st).
Proof. intros m lang st H. destruct H as [|x es T]; [reflexivity|]. rewrite (run_text_node _ _ _ _ _ T eq_refl). reflexivity. Qed.
Lemma run_hl_mod : forall m t st, option_means NModifier m t -> erun m (FHighlight None None [] :: st) = Some (FHighlight t None [] :: st).
Proof. intros m lang st H. destruct H as [|x es T]; [reflexivity|]. rewrite (run_text_node _ _ _ _ _ T eq_refl). reflexivity. Qed.
Lemma run_hl_icon : forall m t i st, option_means NIcon m i -> erun m (FHighlight t None [] :: st) = Some (FHighlight t i [] :: st).
Proof. intros m lang i st H. destruct H as [|x es T]; [reflexivity|]. rewrite (run_text_node _ _ _ _ _ T eq_refl). reflexivity. Qed.

Lemma run_block_means :
  (forall es y, block_means es y -> forall b st, count_list_depth st = 0 -> erun es (FDocument b :: st) = Some (FDocument (b ++ [y]) :: st))
  /\ (forall es ys, blocks_mean es ys -> forall b st, count_list_depth st = 0 -> erun es (FDocument b :: st) = Some (FDocument (b ++ ys) :: st)).
Proof.
  apply all_blocks_ind.
  - intros es l P b st D. rewrite (run_paragraph_means _ _ _ P). reflexivity.
  - intros level c mid l [L1 L2] H b st D. rewrite (erun_node _ _ _ _ _ (FHeading level [] :: FDocument b :: st) (FHeading level l) (FDocument b :: st)); [reflexivity| |apply (run_head_means _ _ level [] _ H)].
    unfold strict_start. rewrite count_hashes_repeat. apply Nat.leb_le in L1. apply Nat.leb_le in L2. rewrite L1, L2. reflexivity.
  - intros es i P b st D. rewrite (run_image_means _ _ _ P). destruct i. reflexivity.
  - intros mid l es H (o & c & ->) b st D. erewrite erun_node; [|reflexivity|apply (run_images_mean _ _ [] _ H)]. reflexivity.
  - intros m lang xs code es M C (o & c & ->) b st D. erewrite erun_node; [|reflexivity|].
    2:{ rewrite erun_app, (run_code_mod _ _ _ M).
        enough (G : forall y, erun (values xs) (FCode (or_empty lang) y :: FDocument b :: st) = Some (FCode (or_empty lang) (y ++ concat xs) :: FDocument b :: st)) by apply (G []).
        clear C. induction xs as [|x xs IH]; intros y; [rewrite app_nil_r; reflexivity|]. cbn. rewrite IH, <- app_assoc. reflexivity. }
    cbn [strict_end push_block fst snd]. unfold code_new. change ([] ++ concat xs) with (concat xs). rewrite trim_end_idem, (cut_end_trim _ _ C). reflexivity.
  - intros es l H b st D. rewrite (proj1 run_lists_mean _ _ _ H) by exact D. destruct l as [[] ? ?]; reflexivity.
  - intros m title i icon p ps es M I P (o & c & ->) b st D. erewrite erun_node; [|reflexivity|].
    2:{ rewrite erun_app, (run_hl_mod _ _ _ M), erun_app, (run_hl_icon _ _ _ _ I), (run_paragraphs_mean _ _ _ _ _ _ P). reflexivity. }
    reflexivity.
  - intros x es (xs & -> & o & c & ->) b st D. erewrite erun_node; [|reflexivity|].
    2:{ change (from_node NThematicBreak) with (Ok FThematicBreak). induction xs as [|x xs IH]; [reflexivity|]. cbn. exact IH. }
    reflexivity.
  - intros kind bar args es (o & c & ->) b st D. erewrite erun_node; [|reflexivity|reflexivity]. reflexivity.
  - intros m title d mid ys es M _ IH (o1 & c1 & ->) (o & c & ->) b st D. erewrite erun_node; [|reflexivity|].
    2:{ rewrite erun_app, (run_coll_mod _ _ _ M). erewrite erun_node; [|reflexivity|apply IH; exact D]. reflexivity. }
    reflexivity.
  - intros b st D. rewrite app_nil_r. reflexivity.
  - intros x es ys _ IH b st D. cbn. unfold estep. cbn. apply IH. exact D.
  - intros es y es' ys _ IH1 _ IH2 b st D. rewrite erun_app, IH1, IH2, <- app_assoc by exact D. reflexivity.
Qed.

Lemma means_run : forall es y, means es y -> exists m b, erun es [FYamd None []] = Some [FYamd m b] /\ yamd_new m b = y.
Proof.
  intros es y M. destruct M as [mid b es H (o & c & ->)|x m e mid b d T C H (o & c & ->)].
  - eexists. eexists. split; [erewrite erun_node; [|reflexivity|apply (proj2 run_block_means _ _ H); reflexivity]; reflexivity|reflexivity].
  - rewrite erun_app, (run_text_node _ _ _ _ _ T eq_refl). cbn [strict_end]. rewrite (cut_both_trim _ _ C).
    eexists. eexists. split; [erewrite erun_node; [|reflexivity|apply (proj2 run_block_means _ _ H); reflexivity]; reflexivity|]. cbn. unfold yamd_new.
    rewrite <- (cut_both_trim _ _ C), trim_both_idem. reflexivity.
Qed.
Lemma means_to_yamd : forall source ops es y, reads source ops es -> means es y -> to_yamd ops source = Ok y.
Proof.
  intros source ops es y R M. destruct (means_run es y M) as (m & b & E & <-). unfold to_yamd, try_to_yamd. rewrite (erun_ok _ _ _ _ _ R E). reflexivity.
Qed.

(** ** The stream of a parse stands for its document *)

Section Mean.
  Variable s : str.

  Lemma node_events : forall n o k c, node_of n (tevents_all s k) (tevents s (Node n o k c)).
  Proof. intros n o k c. exists (ttexts s o), (ttexts s c). reflexivity. Qed.
  Lemma text_node_events : forall n o k c, one_leaf k -> text_node n (inner s k) (tevents s (Node n o k c)).
  Proof.
    intros n o k c (b & ->). exists [ttexts s b]. split; [reflexivity|]. exists (ttexts s o), (ttexts s c). reflexivity.
  Qed.
  Lemma link_events : forall k, Forall wf k -> (exists t d, k = [t; d] /\ root NTitle t /\ root NDestination d) ->
    link_parts (link_text s k) (link_dest s k) (tevents_all s k).
  Proof.
    intros k W (t & d & -> & (o1 & k1 & c1 & ->) & (o2 & k2 & c2 & ->)).
    inversion W as [|? ? W1 W']; subst. inversion W' as [|? ? W2 _]; subst.
    inversion W1 as [| |? ? ? ? _ S1]; subst. inversion W2 as [| |? ? ? ? _ S2]; subst. destruct S1 as (_ & S1 & _). destruct S2 as (_ & S2 & _).
    exists (tevents s (Node NTitle o1 k1 c1)), (tevents s (Node NDestination o2 k2 c2)).
    split; [unfold tevents_all; cbn [flat_map]; rewrite app_nil_r; reflexivity|].
    unfold link_text, link_dest. rewrite child_text_hd, child_text_tl, child_text_hd by discriminate. split; apply text_node_events; assumption.
  Qed.

  Lemma each_items : forall (X : Type) (P : list event -> X -> Prop) (of_ : tree -> list X) (ok_ : node -> bool) k,
    Forall wf k -> items ok_ k ->
    (forall ts, exists x, of_ (Leaf ts) = [x] /\ P [(Value, ttexts s ts)] x) ->
    (forall n o k' c, wf (Node n o k' c) -> ok_ n = true -> exists x, of_ (Node n o k' c) = [x] /\ P (tevents s (Node n o k' c)) x) ->
    each P (tevents_all s k) (flat_map of_ k).
  Proof.
    intros X P of_ ok_ k W I HL HN. induction k as [|t k IH]; [constructor|]. inversion W as [|? ? Wt Wk]; subst.
    change (tevents_all s (t :: k)) with (tevents s t ++ tevents_all s k). cbn [flat_map].
    assert (G : (exists x, of_ t = [x] /\ P (tevents s t) x) /\ items ok_ k).
    { destruct t as [ts|ts|n o k' c]; cbn [items] in I; [|contradiction|]; [split; [apply HL|apply I]|]. destruct I as [I1 I2]. auto. }
    destruct G as [(x & E & Px) I']. rewrite E. cbn [app]. constructor; auto.
  Qed.

  Lemma mean_bolds : forall k, Forall wf k -> items in_bold k -> each bold_means (tevents_all s k) (flat_map (bold_of s) k).
  Proof.
    intros k W I. apply (each_items _ _ _ in_bold); [exact W|exact I| |].
    - intros ts. eexists. split; [reflexivity|constructor].
    - intros n o k' c Wn In0. inversion Wn as [| |? ? ? ? _ Sh]; subst. destruct n; try discriminate; destruct Sh as (_ & Sh & _);
      (eexists; split; [reflexivity|]; constructor; apply text_node_events; exact Sh).
  Qed.
  Lemma mean_pars : forall k, Forall wf k -> items inline k -> each inline_means (tevents_all s k) (pars_of s k).
  Proof.
    intros k W I. apply (each_items _ _ _ inline); [exact W|exact I| |].
    - intros ts. eexists. split; [reflexivity|constructor].
    - intros n o k' c Wn In0. inversion Wn as [| |? ? ? ? Wk Sh]; subst. destruct n; try discriminate; cbn [shape] in Sh; eexists; (split; [reflexivity|]).
      + destruct Sh as (_ & _ & Sh). eapply im_anchor; [apply link_events; eassumption|apply node_events].
      + destruct Sh as (_ & Sh & _). eapply im_bold; [apply mean_bolds; eassumption|apply node_events].
      + destruct Sh as (_ & Sh & _). constructor. apply text_node_events; exact Sh.
      + destruct Sh as (_ & Sh & _). constructor. apply text_node_events; exact Sh.
      + destruct Sh as (_ & Sh & _). constructor. apply text_node_events; exact Sh.
      + destruct Sh as (_ & Sh & _). constructor. apply text_node_events; exact Sh.
  Qed.
  Lemma mean_heads : forall k, Forall wf k -> items in_heading k -> each head_means (tevents_all s k) (flat_map (head_of s) k).
  Proof.
    intros k W I. apply (each_items _ _ _ in_heading); [exact W|exact I| |].
    - intros ts. eexists. split; [reflexivity|constructor].
    - intros n o k' c Wn In0. inversion Wn as [| |? ? ? ? Wk Sh]; subst. destruct n; try discriminate; cbn [shape] in Sh; eexists; (split; [reflexivity|]).
      destruct Sh as (_ & _ & Sh). eapply hm_anchor; [apply link_events; eassumption|apply node_events].
  Qed.
  Lemma mean_paragraph : forall t, wf t -> root NParagraph t -> exists b, paragraph_of s t = [b] /\ paragraph_means (tevents s t) b.
  Proof.
    intros t W (o & k & c & ->). exists (pars_of s k). split; [reflexivity|]. inversion W as [| |? ? ? ? Wk Sh]; subst. destruct Sh as (_ & _ & Sh & _).
    exists (tevents_all s k). split; [apply mean_pars; assumption|apply node_events].
  Qed.
  Lemma mean_trimmed : forall t, wf t -> root NParagraph t -> exists b, trimmed s t = [b] /\ trimmed_means (tevents s t) b.
  Proof.
    intros t W R. destruct (mean_paragraph t W R) as (b & E & M). exists (trim_trailing_newline_from_text b). split; [unfold trimmed; rewrite E; reflexivity|].
    exists b. split; [exact M|apply trim_last_cut].
  Qed.
  Lemma mean_image : forall t, wf t -> root NImage t -> exists i, image_of s t = [i] /\ image_means (tevents s t) i.
  Proof.
    intros t W (o & k & c & ->). eexists. split; [reflexivity|]. inversion W as [| |? ? ? ? Wk Sh]; subst. destruct Sh as (_ & _ & _ & Sh).
    exists (tevents_all s k). split; [apply link_events; assumption|apply node_events].
  Qed.
  Lemma mean_images : forall k, Forall wf k -> Forall (root NImage) k -> each image_means (tevents_all s k) (flat_map (image_of s) k).
  Proof.
    induction k as [|t k IH]; intros W R; [constructor|]. inversion W; subst. inversion R; subst.
    destruct (mean_image t) as (i & E & M); try assumption. change (tevents_all s (t :: k)) with (tevents s t ++ tevents_all s k). cbn [flat_map]. rewrite E.
    constructor; auto.
  Qed.
  Lemma mean_option : forall n k, Forall wf k -> opt_root n k -> (n = NModifier \/ n = NIcon) -> option_means n (tevents_all s k) (child_text s n k).
  Proof.
    intros n k W [->|(t & -> & (o & k' & c & ->))] Hn; [constructor|]. rewrite child_text_hd. unfold tevents_all. cbn [flat_map]. rewrite app_nil_r.
    constructor. apply text_node_events. inversion W as [|? ? Wt _]; subst. inversion Wt as [| |? ? ? ? _ Sh]; subst. destruct Hn as [->| ->]; apply Sh.
  Qed.
  Lemma mean_hl_body : forall k, hl_body k -> Forall wf k -> paragraphs_mean (tevents_all s k) (flat_map (trimmed s) k).
  Proof.
    intros k H. induction H as [|p k R H IH|a p k Ht R H IH]; intros W; [constructor| |].
    - inversion W as [|? ? Wp Wk]; subst. destruct (mean_trimmed p Wp R) as (b & E & M). change (tevents_all s (p :: k)) with (tevents s p ++ tevents_all s k).
      cbn [flat_map]. rewrite E. apply pm_cons; auto.
    - inversion W as [|? ? _ W']; subst. inversion W' as [|? ? Wp Wk]; subst. destruct (mean_trimmed p Wp R) as (b & E & M).
      change (tevents_all s (Leaf [a] :: p :: k)) with ((Value, ttexts s [a]) :: tevents s p ++ tevents_all s k).
      change (flat_map (trimmed s) (Leaf [a] :: p :: k)) with (trimmed s p ++ flat_map (trimmed s) k). rewrite E. apply pm_blank. apply pm_cons; auto.
  Qed.

  Definition list_mean (t : tree) : Prop :=
    match t with
    | Node NUnorderedList _ _ _ | Node NOrderedList _ _ _ => forall lvl, list_means lvl (tevents s t) (list_of s lvl t)
    | Node NListItem _ _ _ => forall lvl, exists it, item_of s lvl t = [it] /\ item_means lvl (tevents s t) it
    | _ => True
    end.
  Lemma mean_items : forall k, Forall list_mean k -> (exists lvl lk, Forall (item_at lvl lk) k) -> forall lvl,
    items_mean lvl (tevents_all s k) (flat_map (item_of s lvl) k).
  Proof.
    induction k as [|t k IH]; intros F (l0 & lk & I) lvl; [constructor|]. inversion F as [|? ? Ft Fk]; subst. inversion I as [|? ? It Ik]; subst.
    change (tevents_all s (t :: k)) with (tevents s t ++ tevents_all s k). cbn [flat_map].
    destruct It as (o & k' & -> & _). cbn [list_mean] in Ft. destruct (Ft lvl) as (it & E & M). rewrite E. cbn [app]. constructor; [exact M|eauto].
  Qed.
  Lemma mean_list : forall t, wf t -> list_mean t.
  Proof.
    induction t as [ts|ts|n o k c IH] using tree_ind'; intros W; try exact I.
    inversion W as [| |? ? ? ? Wk Sh]; subst.
    assert (F : Forall list_mean k).
    { clear - IH Wk. induction k as [|t k IHk]; [constructor|]. inversion IH; subst. inversion Wk; subst. constructor; auto. }
    destruct n; try exact I; cbn [list_mean].
    - intros lvl. destruct Sh as (_ & l0 & lk & p & M & R & H).
      assert (Wp : wf p) by (destruct H as [->|(x & -> & _)]; inversion Wk; assumption).
      destruct (mean_trimmed p Wp R) as (b & E & Mb). assert (E3 : concat (trimmed s p) = b) by (rewrite E; apply app_nil_r).
      destruct H as [->|(x & -> & Lx)]; cbn [item_of]; rewrite E3; eexists; (split; [reflexivity|]).
      + eapply lm_item; [exact Mb|]. pose proof (node_events NListItem o [p] c) as N. unfold tevents_all in N. cbn [flat_map] in N. rewrite app_nil_r in N. exact N.
      + inversion F as [|? ? _ F']; subst. inversion F' as [|? ? Fx _]; subst. destruct (list_kind_root _ _ Lx) as (ty' & kx & ->).
        eapply lm_nested; [exact Mb| |].
        2:{ pose proof (node_events NListItem o [p; Node (lnode ty') [] kx []] c) as N. unfold tevents_all in N. cbn [flat_map] in N. rewrite app_nil_r in N. exact N. }
        destruct ty'; apply Fx.
    - intros lvl. destruct Sh as (_ & _ & _ & l0 & Sh). rewrite list_of_eq. cbn [type_of]. eapply lm; [|apply (node_events NOrderedList)].
      apply mean_items; [exact F|eauto].
    - intros lvl. destruct Sh as (_ & _ & _ & l0 & Sh). rewrite list_of_eq. cbn [type_of]. eapply lm; [|apply (node_events NUnorderedList)].
      apply mean_items; [exact F|eauto].
  Qed.

  Definition block_mean (t : tree) : Prop :=
    match t with
    | Node NDocument _ k _ => blocks_mean (tevents_all s k) (flat_map (blocks s) k)
    | _ => block t -> match t with Leaf _ => True | _ => exists y, blocks s t = [y] /\ block_means (tevents s t) y end
    end.
  Lemma mean_blocks : forall k, Forall block_mean k -> Forall block k -> blocks_mean (tevents_all s k) (flat_map (blocks s) k).
  Proof.
    induction k as [|t k IH]; intros F B; [constructor|]. inversion F as [|? ? Ft Fk]; subst. inversion B as [|? ? Bt Bk]; subst.
    change (tevents_all s (t :: k)) with (tevents s t ++ tevents_all s k). cbn [flat_map]. destruct t as [ts|ts|n o k' c].
    - cbn. constructor. auto.
    - contradiction.
    - assert (G : exists y, blocks s (Node n o k' c) = [y] /\ block_means (tevents s (Node n o k' c)) y).
      { cbn [block_mean] in Ft. destruct n; auto. destruct Bt as [Bt|(lk & kk & Bt & _)]; [discriminate|destruct lk; discriminate]. }
      destruct G as (y & E & M). rewrite E. apply km_cons; auto.
  Qed.

  Lemma mean_block : forall t, wf t -> linked s (yield t) -> block_mean t.
  Proof.
    induction t as [ts|ts|n o k c IH] using tree_ind'; intros W L.
    - intros _. exact I.
    - intros [].
    - pose proof W as W0. inversion W as [| |? ? ? ? Wk Sh]; subst. cbn in L. fold (yields k) in L.
      assert (F : Forall block_mean k).
      { apply linked_kids in L. clear - IH Wk L. induction k as [|t k IHk]; [constructor|].
        inversion IH; subst. inversion Wk; subst. apply linked_cons in L. destruct L. constructor; auto. }
      destruct n; try (intros [B|(lk & kk & B & _)]; [discriminate B|destruct lk; discriminate B]).
      + (* code *) intros _. destruct Sh as (_ & k1 & x & -> & H). cbn [blocks]. eexists. split; [reflexivity|].
        apply Forall_app in Wk. destruct Wk as [W1 _].
        assert (O : opt_root NModifier k1) by (destruct H as [[_ H]|[_ ->]]; [exact H|left; reflexivity]).
        assert (G : child_text s NModifier (k1 ++ [Leaf x]) = child_text s NModifier k1 /\ inner s (k1 ++ [Leaf x]) = ttexts s x).
        { destruct O as [->|(m & -> & (o' & k' & c' & ->))]; cbn [app]; cbn; rewrite app_nil_r; auto. }
        destruct G as [-> ->]. pose proof (mean_option NModifier k1 W1 O (or_introl eq_refl)) as M.
        apply (km_code (tevents_all s k1) _ [ttexts s x]); [exact M|cbn [concat]; rewrite app_nil_r; apply trim_end_cut|]. pose proof (node_events NCode o (k1 ++ [Leaf x]) c) as N. unfold tevents_all in N. rewrite flat_map_app in N. exact N.
      + (* collapsible *) intros _. destruct Sh as (_ & _ & k1 & k2 & k3 & -> & O & H3). cbn [blocks]. eexists. split; [reflexivity|].
        pose proof Wk as Wk'. apply Forall_app in Wk'. destruct Wk' as [W1 _]. apply Forall_app in F. destruct F as [_ F]. inversion F as [|? ? Fd _]; subst. cbn [block_mean] in Fd.
        assert (N3 : child_text s NModifier (k1 ++ [Node NDocument [] k2 []] ++ k3) = child_text s NModifier k1).
        { assert (N : child_text s NModifier ([Node NDocument [] k2 []] ++ k3) = None).
          { cbn [app]. rewrite child_text_tl by discriminate. destruct H3 as [->|(e & -> & _)]; reflexivity. }
          destruct O as [->|(m & -> & (o' & k' & c' & ->))]; [exact N|]. cbn [app]. rewrite !child_text_hd. reflexivity. }
        assert (B3 : body_of s (k1 ++ [Node NDocument [] k2 []] ++ k3) = flat_map (blocks s) k2).
        { assert (N : body_of s ([Node NDocument [] k2 []] ++ k3) = flat_map (blocks s) k2).
          { unfold body_of. cbn [app flat_map]. destruct H3 as [->|(e & -> & _)]; cbn; rewrite app_nil_r; reflexivity. }
          destruct O as [->|(m & -> & (o' & k' & c' & ->))]; exact N. }
        assert (E3 : tevents_all s k3 = []) by (destruct H3 as [->|(e & -> & _)]; reflexivity).
        fold (body_of s (k1 ++ [Node NDocument [] k2 []] ++ k3)). rewrite N3, B3. pose proof (mean_option NModifier k1 W1 O (or_introl eq_refl)) as M.
        eapply km_collapsible; [exact M|exact Fd|apply (node_events NDocument [] k2 [])|].
        pose proof (node_events NCollapsible o (k1 ++ [Node NDocument [] k2 []] ++ k3) c) as N. unfold tevents_all in N, E3. rewrite !flat_map_app, E3, app_nil_r in N.
        cbn [flat_map] in N. rewrite app_nil_r in N. exact N.
      + (* document *) destruct Sh as (_ & _ & B). apply mean_blocks; assumption.
      + (* embed *) intros _. destruct Sh as (_ & _ & a & p & x & -> & _). eexists. split; [reflexivity|]. apply (km_embed _ (ttexts s [p])). exists (ttexts s o), (ttexts s c). reflexivity.
      + (* heading *) intros _. destruct Sh as (H1 & _ & H2 & _). eexists. split; [reflexivity|]. apply linked_app in L. destruct L as [Lo _].
        pose proof (heading_level s o Lo H1) as Hl. destruct Lo as [Fo _]. destruct H1 as (t & u & -> & Et & Eu). inversion Fo as [|? ? Ft F']; subst. inversion F' as [|? ? Fu _]; subst.
        destruct (x_hash s t Ft Et) as (l & _ & X). cbn [tevents]. fold (tevents_all s k).
        assert (Eo : ttexts s [t; u] = repeat c_hash l ++ [c_space]) by (cbn; rewrite X, (x_space_1 s u Fu Eu); reflexivity).
        rewrite Eo in *. rewrite count_hashes_repeat in *. apply km_heading; [exact Hl|apply mean_heads; assumption].
      + (* highlight *) intros _. destruct Sh as (_ & k1 & k2 & k3 & -> & O2 & H3 & H). cbn [blocks]. eexists. split; [reflexivity|].
        apply Forall_app in Wk. destruct Wk as [W1 Wk]. apply Forall_app in Wk. destruct Wk as [W2 W3].
        assert (O1 : opt_root NModifier k1) by (destruct H as [[_ H]|[_ ->]]; [exact H|left; reflexivity]). clear H.
        assert (G1 : child_text s NModifier (k1 ++ k2 ++ k3) = child_text s NModifier k1).
        { destruct O1 as [->|(m & -> & (o' & k' & c' & ->))]; [|cbn [app]; rewrite !child_text_hd; reflexivity]. cbn [app].
          destruct O2 as [->|(m & -> & (o' & k' & c' & ->))]; cbn [app]; [|rewrite child_text_tl by discriminate];
            rewrite hl_body_none by (assumption || discriminate); reflexivity. }
        assert (G2 : child_text s NIcon (k1 ++ k2 ++ k3) = child_text s NIcon k2).
        { assert (X : child_text s NIcon (k2 ++ k3) = child_text s NIcon k2).
          { destruct O2 as [->|(m & -> & (o' & k' & c' & ->))]; [|cbn [app]; rewrite !child_text_hd; reflexivity]. cbn [app]. rewrite hl_body_none by (assumption || discriminate). reflexivity. }
          destruct O1 as [->|(m & -> & (o' & k' & c' & ->))]; [exact X|]. cbn [app]. rewrite child_text_tl by discriminate. exact X. }
        assert (G3 : flat_map (trimmed s) (k1 ++ k2 ++ k3) = flat_map (trimmed s) k3).
        { rewrite !flat_map_app. destruct O1 as [->|(m & -> & (o' & k' & c' & ->))]; destruct O2 as [->|(m' & -> & (o2 & k2' & c2 & ->))]; reflexivity. }
        rewrite G1, G2, G3. eapply km_highlight; [exact (mean_option _ _ W1 O1 (or_introl eq_refl))|exact (mean_option _ _ W2 O2 (or_intror eq_refl))|apply mean_hl_body; [exact H3|exact W3]|].
        pose proof (node_events NHighlight o (k1 ++ k2 ++ k3) c) as N. unfold tevents_all in N. rewrite !flat_map_app in N. exact N.
      + (* image *) intros _. destruct (mean_image _ W0 (root_node _ _ _ _)) as (i & E1 & M). cbn [blocks]. rewrite E1. eexists. split; [reflexivity|]. constructor. exact M.
      + (* images *) intros _. destruct Sh as (_ & _ & _ & R). eexists. split; [reflexivity|]. eapply km_images; [apply mean_images; eassumption|apply (node_events NImages)].
      + (* ordered *) intros _. eexists. split; [reflexivity|]. constructor. apply (mean_list _ W0).
      + (* paragraph *) intros _. destruct (mean_paragraph _ W0 (root_node _ _ _ _)) as (p & E1 & M). cbn in E1. injection E1 as <-. eexists. split; [reflexivity|]. constructor. exact M.
      + (* break *) intros _. destruct Sh as (_ & _ & t & -> & _). eexists. split; [reflexivity|]. apply (km_break (ttexts s [t])). exists [ttexts s [t]]. split; [symmetry; apply app_nil_r|]. exists (ttexts s o), (ttexts s c). reflexivity.
      + (* unordered *) intros _. eexists. split; [reflexivity|]. constructor. apply (mean_list _ W0).
  Qed.

  Lemma mean_top : forall k, Forall wf k -> top k -> linked s (yields k) -> means (tevents_all s k) (doc_of s k).
  Proof.
    intros k W (k1 & d & -> & (o & kd & c & ->) & O) L.
    rewrite yields_app in L. apply linked_app in L. destruct L as [L1 L2]. apply linked_cons in L2. destruct L2 as [L2 _].
    apply Forall_app in W. destruct W as [W1 W2]. inversion W2 as [|? ? Wd _]; subst. pose proof (mean_block _ Wd L2) as M. cbn [block_mean] in M.
    assert (E : tevents_all s (k1 ++ [Node NDocument o kd c]) = tevents_all s k1 ++ tevents s (Node NDocument o kd c)).
    { unfold tevents_all. rewrite flat_map_app. cbn [flat_map]. rewrite app_nil_r. reflexivity. }
    rewrite E. destruct O as [->|(m & -> & (o' & k' & c' & ->))].
    - unfold doc_of, body_of. cbn [app flat_map child_text option_map]. rewrite app_nil_r. eapply mean_body; [exact M|apply node_events].
    - unfold doc_of, body_of. cbn [app]. rewrite child_text_hd. cbn [option_map flat_map]. rewrite app_nil_r.
      inversion W1 as [|? ? Wm _]; subst. inversion Wm as [| |? ? ? ? _ Sh]; subst. destruct Sh as (_ & Sh & _).
      unfold tevents_all. cbn [flat_map]. rewrite app_nil_r. eapply mean_metadata; [apply text_node_events; exact Sh|apply trim_both_cut|exact M|apply node_events].
  Qed.
End Mean.

Lemma parse_means : forall s ops es, parse s = Ok ops -> reads s ops es -> exists y, means es y /\ deserialize s = Ok y.
Proof.
  intros s ops es H R. exists (document_of s). split; [|apply deserialize_eq]. rewrite (reads_fun s ops es (stream s) R (parse_reads s ops H)).
  destruct (fparse_wf (spec_tokens s)) as [W T]. apply mean_top; [exact W|exact T|apply fparse_linked].
Qed.
Lemma parse_means_unique : forall s ops es, parse s = Ok ops -> reads s ops es ->
  exists y, means es y /\ deserialize s = Ok y /\ forall z, means es z -> z = y.
Proof.
  intros s ops es H R. destruct (parse_means s ops es H R) as (y & M & D). exists y. split; [exact M|]. split; [exact D|].
  intros z M'. pose proof (means_to_yamd _ _ _ _ R M) as E1. pose proof (means_to_yamd _ _ _ _ R M') as E2. congruence.
Qed.

(** Two streams one after the other: the blocks of both, the metadata of the one that has any. *)
Definition over (a b : option str) : option str := match b with Some x => Some x | None => a end.
Definition trimmed (m : option str) : option str := match m with Some m => Some (trim_both c_nl m) | None => None end.
Lemma means_run_after : forall es y m0 b0, means es y -> m0 = None \/ metadata y = None ->
  exists m, erun es [FYamd m0 b0] = Some [FYamd m (b0 ++ body y)] /\ trimmed m = over (trimmed m0) (metadata y).
Proof.
  intros es y m0 b0 M Q. destruct M as [mid b es H (o & c & ->)|x m e mid b d T C H (o & c & ->)].
  - eexists. split; [erewrite erun_node; [|reflexivity|apply (proj2 run_block_means _ _ H); reflexivity]; reflexivity|reflexivity].
  - destruct Q as [->|Q]; [|discriminate]. rewrite erun_app, (run_text_node _ _ _ _ _ T eq_refl). cbn [strict_end]. rewrite (cut_both_trim _ _ C).
    eexists. split; [erewrite erun_node; [|reflexivity|apply (proj2 run_block_means _ _ H); reflexivity]; reflexivity|]. cbn.
    rewrite <- (cut_both_trim _ _ C), trim_both_idem. reflexivity.
Qed.
Lemma means_twice : forall source ops1 es1 y1 ops2 es2 y2, reads source ops1 es1 -> means es1 y1 -> reads source ops2 es2 -> means es2 y2 ->
  metadata y1 = None \/ metadata y2 = None ->
  to_yamd (ops1 ++ ops2) source = Ok (mk_yamd (over (metadata y1) (metadata y2)) (body y1 ++ body y2)).
Proof.
  intros source ops1 es1 y1 ops2 es2 y2 R1 M1 R2 M2 Q.
  destruct (means_run_after es1 y1 None [] M1 (or_introl eq_refl)) as (m1 & E1 & T1). destruct (means_run_after es2 y2 m1 (body y1) M2) as (m2 & E2 & T2).
  { destruct Q as [Q|Q]; [|auto]. left. rewrite Q in T1. destruct m1; [discriminate|reflexivity]. }
  assert (R : reads source (ops1 ++ ops2) (es1 ++ es2)) by (unfold reads in *; apply Forall2_app; assumption).
  unfold to_yamd, try_to_yamd. erewrite (erun_ok _ _ _ _ _ R); [|rewrite erun_app, E1; exact E2].
  cbn [bind]. unfold yamd_new. change (match m2 with Some m => Some (trim_both c_nl m) | None => None end) with (trimmed m2).
  rewrite T2, T1. destruct (metadata y1); reflexivity.
Qed.
