(** What the stop conditions rule out inside the nodes of a tree, and how paragraphs and headings end. *)
From Verif Require Import Base Lexer LexSpec LexProofs LexFacts Ops Parser FParser Refine Refine2 Refine3 Wf TokFacts StreamSpec StreamProofs Lines
  StreamProofs2 StreamProofs3 Ast ToYamd Api Strict TreeAst AstSpec AstProofs.

(** ** Tokens without stops *)

Lemma nth_is_app : forall i f a b, nth_is i f a = true -> nth_is i f (a ++ b) = true.
Proof.
  intros i f a b H. unfold nth_is in *. destruct (nth_error a i) as [t|] eqn:E; [|discriminate]. rewrite nth_error_app1; [rewrite E; exact H|].
  apply nth_error_Some. congruence.
Qed.
Lemma boundary_app : forall l k a b, boundary_at l k a = true -> boundary_at l k (a ++ b) = true.
Proof.
  intros l k a b H. unfold boundary_at in *. destruct (l =? 0); rewrite !andb_true_iff in *; intuition auto using nth_is_app.
Qed.
Lemma fmatches_app : forall c a b, fmatches c a = true -> fmatches c (a ++ b) = true.
Proof.
  intros [| | |cur k] a b H; cbn [fmatches] in *; auto using nth_is_app.
  - rewrite orb_true_iff, andb_true_iff in *. intuition auto using nth_is_app.
  - rewrite andb_true_iff in *. destruct H as [H1 H2]. split; [apply nth_is_app; exact H1|].
    apply existsb_exists in H2. destruct H2 as (l & Hl & H2). apply existsb_exists. exists l. split; [exact Hl|apply boundary_app; exact H2].
Qed.

(** None of the stops [st] starts in [ts]. *)
Definition quiet (st : list stop_condition) (ts : list token) : Prop :=
  forall a b c, ts = a ++ b -> In c st -> fmatches c b = false.

Lemma quiet_mid : forall st a b c, quiet st (a ++ b ++ c) -> quiet st b.
Proof.
  intros st a b c Q x y s -> Hs. apply not_true_is_false. intros F. apply (fmatches_app _ _ c) in F.
  rewrite (Q (a ++ x) (y ++ c) s) in F; [discriminate| |exact Hs]. rewrite <- !app_assoc. reflexivity.
Qed.
Lemma fmatches_nil : forall c, fmatches c [] = false.
Proof. intros []; reflexivity. Qed.
Lemma awake_quiet : forall st st' a rest, incl st' st -> awake st a rest -> quiet st' a.
Proof.
  intros st st' a rest I A x y c E Hc. subst a. apply awake_app in A. destruct A as [_ A]. destruct y as [|t y]; [apply fmatches_nil|].
  destruct A as [A _]. apply not_true_is_false. intros F. apply (fmatches_app _ _ rest) in F. unfold stopped in A.
  assert (X : existsb (fun c => fmatches c (t :: y ++ rest)) st = true) by (apply existsb_exists; exists c; auto). congruence.
Qed.
Lemma awake_incl : forall st st' a rest, incl st' st -> awake st a rest -> awake st' a rest.
Proof.
  intros st st' a rest I. induction a as [|t a IH]; intros A; [exact Logic.I|]. destruct A as [A1 A2]. split; [|auto].
  unfold stopped in *. apply not_true_is_false. intros X. apply existsb_exists in X. destruct X as (c & Hc & X).
  assert (Y : existsb (fun c => fmatches c (t :: a ++ rest)) st = true) by (apply existsb_exists; exists c; auto). congruence.
Qed.

(** ** The property *)

Definition stops (cs : bool) : list stop_condition := if cs then [StopCollapsibleEnd] else [].
Definition is_coll (n : node) : bool := match n with NCollapsible => true | _ => false end.

(** A text that ends at the end of the document, at a blank line or at the end of the collapsible. *)
Definition ended (a rest : list token) : Prop :=
  rest = [] \/ nth_is 0 is_terminator rest = true \/ (fmatches StopCollapsibleEnd rest = true /\ awake [StopCollapsibleEnd] a rest).
Definition over (t : tree) (rest : list token) : Prop :=
  yield t <> []
  /\ match t with Node (NParagraph | NHeading) _ k _ => ended (yields k) rest | _ => True end.
Fixpoint overs (k : list tree) (rest : list token) : Prop :=
  match k with [] => True | t :: r => over t (yields r ++ rest) /\ overs r rest end.

Definition calm_node (cs : bool) (n : node) (o : list token) (k : list tree) (c rest : list token) : Prop :=
  match n with
  | NParagraph | NHeading | NImage => quiet (StopTerminator :: stops cs) (yields k)
  | NEmbed => quiet (stops cs) (yields k)
  | NListItem => exists lvl lk, marker lvl lk o /\ match k with p :: _ => quiet [StopListBoundary lvl lk] (yield p) | [] => True end
  | NDocument => overs k (c ++ rest)
  | _ => True
  end.
Fixpoint calm (cs : bool) (t : tree) (rest : list token) : Prop :=
  match t with
  | Node n o k c =>
      calm_node cs n o k c rest
      /\ (fix go k := match k with [] => True | u :: r => calm (cs || is_coll n) u (flat_map yield r ++ c ++ rest) /\ go r end) k
  | _ => True
  end.
Fixpoint calms (cs : bool) (k : list tree) (rest : list token) : Prop :=
  match k with [] => True | t :: r => calm cs t (yields r ++ rest) /\ calms cs r rest end.

Lemma calm_eq : forall cs n o k c rest, calm cs (Node n o k c) rest <-> calm_node cs n o k c rest /\ calms (cs || is_coll n) k (c ++ rest).
Proof.
  intros cs n o k c rest. cbn [calm]. apply and_iff_compat_l. induction k as [|u k IH]; [reflexivity|]. cbn [calms].
  apply and_iff_compat_l. exact IH.
Qed.
Lemma calms_app : forall cs a b rest, calms cs (a ++ b) rest <-> calms cs a (yields b ++ rest) /\ calms cs b rest.
Proof.
  intros cs a b rest. induction a as [|t a IH]; cbn; [tauto|]. rewrite IH. rewrite yields_app, <- app_assoc. tauto.
Qed.

(** Whatever follows. *)
Definition still (cs : bool) (t : tree) : Prop := forall rest, calm cs t rest.
Lemma still_node : forall cs n o k c, (forall rest, calm_node cs n o k c rest) -> Forall (still (cs || is_coll n)) k -> still cs (Node n o k c).
Proof.
  intros cs n o k c H F rest. apply calm_eq. split; [apply H|]. generalize (c ++ rest). clear rest H. intros rest. induction F; cbn; auto.
Qed.
Lemma still_leaf : forall cs ts, still cs (Leaf ts). Proof. intros cs ts rest. exact I. Qed.
Lemma stills : forall cs k rest, Forall (still cs) k -> calms cs k rest.
Proof. intros cs k rest H. induction H; cbn; auto. Qed.

(** Nodes that the property says nothing about. *)
Definition inert (n : node) : bool :=
  match n with
  | NAnchor | NBold | NItalic | NStrikethrough | NCodeSpan | NEmphasis | NTitle | NDestination | NModifier | NIcon | NMetadata => true
  | _ => false
  end.
Lemma allowed_inert : forall n m, inert n = true \/ n = NParagraph \/ n = NHeading \/ n = NImage \/ n = NEmbed \/ n = NCode -> allowed n m = true -> inert m = true.
Proof. intros n m H A. destruct H as [H|[->|[->|[->|[->| ->]]]]]; [destruct n; try discriminate H|..]; destruct m; try discriminate A; reflexivity. Qed.
Lemma inert_still : forall cs t, wf t -> match t with Node n _ _ _ => inert n = true | _ => True end -> still cs t.
Proof.
  intros cs t. revert cs. induction t as [ts|ts|n o k c IH] using tree_ind'; intros cs W N; try (intros rest; exact I).
  inversion W as [| |? ? ? ? Wk Sh]; subst. apply still_node; [intros rest; destruct n; try discriminate; exact I|].
  pose proof (shape_kids _ _ _ _ Sh) as K. rewrite Forall_forall in *. intros t Ht. apply IH; auto. specialize (K t Ht).
  destruct t; try exact I. eapply allowed_inert; [left; exact N|exact K].
Qed.
Lemma kids_still : forall cs n o k c, wf (Node n o k c) -> n = NParagraph \/ n = NHeading \/ n = NImage \/ n = NEmbed \/ n = NCode -> Forall (still cs) k.
Proof.
  intros cs n o k c W N. inversion W as [| |? ? ? ? Wk Sh]; subst. pose proof (shape_kids _ _ _ _ Sh) as K. rewrite Forall_forall in *. intros t Ht.
  apply inert_still; auto. specialize (K t Ht). destruct t; try exact I. eapply allowed_inert; [right; exact N|exact K].
Qed.

(** ** Inline nodes and paragraphs *)

Lemma par_still : forall cs st ts t rest, incl (StopTerminator :: stops cs) st -> fparagraph st ts = (t, rest) -> still cs t.
Proof.
  intros cs st ts t rest HS H. pose proof (fparagraph_wf st ts t rest (HS _ (or_introl eq_refl)) H) as [W (o & k & c & ->)].
  pose proof W as W'. inversion W' as [| |? ? ? ? _ Sh]; subst. destruct Sh as (-> & -> & _).
  apply fparagraph_facts in H. destruct H as [_ A]. cbn in A. rewrite app_nil_r in A. fold (yields k) in A.
  apply still_node; [intros rest0; cbn; eapply awake_quiet; [exact HS|exact A]|]. eapply kids_still; [exact W|auto].
Qed.

Lemma heading_awake : forall st ts t rest, fheading st ts = Some (t, rest) ->
  exists o k, t = Node NHeading o k [] /\ awake st (yields k) rest /\ stopped st rest = true.
Proof.
  intros st ts t rest H. rewrite fheading_eq in H.
  destruct (fseq [is_hash; is_space_1] ts) as [[o r]|] eqn:Q; [|discriminate].
  destruct (fitems fanchor (S (length r)) st [] r) as [k r'] eqn:F. injection H as <- <-. exists o, k. split; [reflexivity|].
  pose proof F as F'. apply fitems_facts in F; [|apply covers_anchor|apply snugs_anchor|apply wakes_anchor| |lia|exact I].
  - split; [apply F|]. eapply fitems_stopped; [apply covers_anchor| |exact F']. lia.
  - intros st0 ts0 t0 rest0 E. apply fanchor_facts in E. apply E.
Qed.
Lemma par_awake : forall st ts t rest, fparagraph st ts = (t, rest) ->
  exists k, t = Node NParagraph [] k [] /\ awake st (yields k) rest /\ stopped st rest = true.
Proof.
  intros st ts t rest H. pose proof H as H'. apply fparagraph_facts in H'. destruct H' as [_ A]. unfold fparagraph in H.
  destruct (fitems finline (S (length ts)) st [] ts) as [k r] eqn:F. injection H as <- <-. exists k. split; [reflexivity|].
  cbn in A. rewrite app_nil_r in A. split; [exact A|]. eapply fitems_stopped; [apply covers_inline| |exact F]. lia.
Qed.

(** ** Blocks *)

Definition stills_by (cs : bool) (st : list stop_condition) (g : fparser) : Prop := forall ts t rest, g st ts = Some (t, rest) -> still cs t.
Lemma stills_orelse : forall cs st f g, stills_by cs st f -> stills_by cs st g -> stills_by cs st (forelse f g).
Proof. intros cs st f g F G ts t rest H. apply forelse_some in H. destruct H as [H|H]; eauto. Qed.

Lemma still_heading : forall cs st, incl (StopTerminator :: stops cs) st -> stills_by cs st fheading.
Proof.
  intros cs st HS ts t rest H. pose proof (fheading_wf st ts t rest (HS _ (or_introl eq_refl)) H) as [W _].
  apply heading_awake in H. destruct H as (o & k & -> & A & _). apply still_node; [intros rest0; cbn; eapply awake_quiet; [exact HS|exact A]|].
  eapply kids_still; [exact W|auto].
Qed.

Lemma title_awake : forall st ts t rest, ftitle st ts = Some (t, rest) -> exists o b c, t = Node NTitle [o] [Leaf b] [c] /\ kind o = LeftSquareBracket /\ awake st (b ++ [c]) rest.
Proof.
  intros st ts t rest E. unfold ftitle, fdelim in E. destruct ts as [|a r]; [discriminate|].
  destruct (is_left_bracket a) eqn:B; [|discriminate]. destruct (until st is_right_bracket r) as [[[b c] r']|] eqn:U; [|discriminate].
  injection E as <- <-. apply until_awake in U. destruct U as [U _]. exists a, b, c. split; [reflexivity|]. split; [|exact U].
  unfold is_left_bracket in B. apply andb_true_iff in B. apply kind_eqb_eq. apply B.
Qed.
Lemma bracket_awake : forall st t r, kind t = LeftSquareBracket -> stopped st (t :: r) = false.
Proof.
  intros st t r H. unfold stopped.
  apply not_true_is_false. intros X. apply existsb_exists in X. destruct X as (c & _ & X).
  destruct c as [| | |cur lk]; cbn [fmatches] in X; unfold nth_is in X; cbn [nth_error is_some_and] in X.
  - unfold is_terminator in X. rewrite H in X. discriminate.
  - unfold is_collapsible_end, is_eol in X. rewrite H in X. discriminate.
  - unfold is_two_bangs in X. rewrite H in X. discriminate.
  - apply andb_true_iff in X. destruct X as [_ X]. apply existsb_exists in X. destruct X as (l & _ & X). unfold boundary_at, nth_is in X. cbn [nth_error is_some_and] in X.
    destruct (l =? 0); apply andb_true_iff in X; destruct X as [_ X]; apply andb_true_iff in X; destruct X as [X _].
    + unfold is_list_marker, list_kind_of in X. rewrite H in X. discriminate.
    + unfold is_indent in X. rewrite H in X. discriminate.
Qed.

Lemma still_image : forall cs st, incl (StopTerminator :: stops cs) st -> stills_by cs st fimage.
Proof.
  intros cs st HS ts t rest H. pose proof (fimage_wf st ts t rest (HS _ (or_introl eq_refl)) H) as [W _]. unfold fimage in H. destruct ts as [|a r]; [discriminate|].
  destruct (is_bang a) eqn:Ea; [|discriminate].
  destruct (ftitle st r) as [[t1 r1]|] eqn:E1; [|discriminate].
  destruct (fdest st r1) as [[t2 r2]|] eqn:E2; [|discriminate].
  assert (G : forall c, wf (Node NImage [a] [t1; t2] c) -> still cs (Node NImage [a] [t1; t2] c)).
  { intros c Wc. apply still_node; [|eapply kids_still; [exact Wc|auto]]. intros rest0. cbn [calm_node].
    apply (awake_quiet st _ _ r2 HS). cbn. rewrite app_nil_r. apply awake_app.
    pose proof (covers_dest _ _ _ _ E2) as [E2' _]. split; [|eapply fdest_facts; exact E2]. rewrite <- E2'.
    pose proof (title_awake _ _ _ _ E1) as (o & b & c' & -> & K & A). cbn. rewrite app_nil_r. split; [|exact A]. apply bracket_awake. exact K. }
  destruct r2 as [|e r3]; [injection H as <- <-; apply G; exact W|].
  destruct (is_eol e); [injection H as <- <-; apply G; exact W|].
  destruct (stopped st (e :: r3)); [|discriminate]. injection H as <- <-. apply G. exact W.
Qed.
Lemma images_loop_still : forall cs st, incl (StopTerminator :: stops cs) st -> forall n ts k rest, fimages_loop n st ts = Some (k, rest) -> Forall (still cs) k.
Proof.
  intros cs st HS n. induction n; intros ts k rest H; cbn [fimages_loop] in H; [discriminate|].
  destruct ts as [|t r]; [injection H as <- <-; constructor|].
  destruct (fimage st (t :: r)) as [[x r1]|] eqn:E.
  - destruct (fimages_loop n st r1) as [[k' r']|] eqn:F; [|discriminate]. injection H as <- <-. constructor; [eapply still_image; eauto|eauto].
  - destruct (stopped st (t :: r)); [|discriminate]. injection H as <- <-. constructor.
Qed.
Lemma still_images : forall cs st, incl (StopTerminator :: stops cs) st -> stills_by cs st fimages.
Proof.
  intros cs st HS ts t rest H. unfold fimages in H.
  destruct (fimages_loop (S (length ts)) st ts) as [[k r]|] eqn:F; [|discriminate]. apply (images_loop_still cs st HS) in F.
  destruct k as [|x [|y k]]; [discriminate| |].
  - injection H as <- <-. inversion F; assumption.
  - injection H as <- <-. apply still_node; [intros rest0; exact I|]. destruct cs; exact F.
Qed.
Lemma still_break : forall cs st, stills_by cs st fbreak.
Proof.
  intros cs st ts t rest H. unfold fbreak in H. destruct ts as [|a r]; [discriminate|]. destruct (is_dash5 a); [|discriminate].
  injection H as <- <-. apply still_node; [intros rest0; exact I|repeat constructor; apply still_leaf].
Qed.

Lemma lists_still : forall cs st, incl (StopTerminator :: stops cs) st -> forall n,
  (forall level k ts mk x rest, fitem n level k st ts = Some (mk, x, rest) -> still cs x)
  /\ (forall level ts mk x rest, flist n level st ts = Some (mk, x, rest) -> still cs x)
  /\ (forall level lk ts k rest, flist_items n level lk st ts = (k, rest) -> Forall (still cs) k).
Proof.
  intros cs st HS. induction n; [repeat split; intros; cbn in *; try discriminate; injection H as <- <-; constructor|].
  destruct IHn as (II & IN & IS). split; [|split].
  - intros level k ts mk x rest H. cbn [fitem] in H.
    destruct (nth_is 0 col0 ts) eqn:C0; cbn [negb] in H; [|discriminate].
    destruct (nth_error ts (if level =? 0 then 0 else 1)) as [m|] eqn:NE; [|discriminate].
    destruct (list_kind_of m) as [mk0|] eqn:LK; [|discriminate].
    destruct (fseq (marker_preds level k) ts) as [[o r]|] eqn:Q; [|discriminate].
    pose proof (fitem_marker _ _ _ _ _ _ _ Q C0 NE LK) as M.
    destruct (fparagraph (StopListBoundary level mk0 :: st) r) as [par r1] eqn:P.
    assert (SP : still cs par) by (eapply par_still; [|exact P]; intros y Hy; right; apply HS; exact Hy).
    assert (QP : quiet [StopListBoundary level mk0] (yield par)).
    { apply fparagraph_facts in P. destruct P as [_ P]. eapply awake_quiet; [|exact P]. intros y [<-|[]]. left. reflexivity. }
    assert (G : forall kk, Forall (still cs) kk -> still cs (Node NListItem o (par :: kk) [])).
    { intros kk F. apply still_node; [intros rest0; exists level, mk0; auto|]. cbn [is_coll]. rewrite orb_false_r. auto. }
    destruct (negb (stopped st r1)).
    + destruct (flist n (level + 1) st r1) as [[[mk' y] r2]|] eqn:F; injection H as <- <- <-; apply G; auto.
      apply IN in F. auto.
    + injection H as <- <- <-. apply G. auto.
  - intros level ts mk x rest H. cbn [flist] in H.
    destruct (fitem n level None st ts) as [[[lk y] r]|] eqn:E; [|discriminate].
    destruct (flist_items n level lk st r) as [k r1] eqn:F. injection H as <- <- <-. apply II in E. apply IS in F.
    apply still_node; [intros rest0; destruct lk; exact I|]. destruct lk; cbn; rewrite orb_false_r; auto.
  - intros level lk ts k rest H. cbn [flist_items] in H.
    destruct (fitem n level (Some lk) st ts) as [[[mk x] r]|] eqn:E; [|injection H as <- <-; constructor].
    destruct (flist_items n level lk st r) as [k' r1] eqn:F. injection H as <- <-. apply II in E. apply IS in F. auto.
Qed.
Lemma still_list : forall cs st, incl (StopTerminator :: stops cs) st -> stills_by cs st flist0.
Proof.
  intros cs st HS ts t rest H. unfold flist0 in H. destruct (flist (2 * length ts + 3) 0 st ts) as [[[mk x] r]|] eqn:F; [|discriminate].
  injection H as <- <-. apply (lists_still cs st HS) in F. exact F.
Qed.

Lemma incl_highlight : forall cs st, incl (stops cs) st -> incl (StopTerminator :: stops cs) (StopTerminator :: StopHighlightEnd :: st).
Proof. intros cs st H y [<-|Hy]; [left; reflexivity|right; right; apply H; exact Hy]. Qed.
Lemma highlight_loop_still : forall cs st, incl (stops cs) st -> forall n ts k c rest, fhighlight_loop n st ts = Some (k, c, rest) -> Forall (still cs) k.
Proof.
  intros cs st HS n. induction n; intros ts k c rest H; cbn [fhighlight_loop] in H; [discriminate|].
  destruct ts as [|t r]; [discriminate|]. destruct (stopped st (t :: r)) eqn:S0; [discriminate|].
  destruct (is_two_bangs t) eqn:E2.
  - destruct (with_eol t r) as [x r'] eqn:W. injection H as <- <- <-. constructor.
  - destruct (if is_terminator t then ([Leaf [t]], r) else ([], t :: r)) as [l r1] eqn:HL.
    destruct (fparagraph (StopTerminator :: StopHighlightEnd :: st) r1) as [par r2] eqn:P.
    destruct (fhighlight_loop n st r2) as [[[k' c'] r3]|] eqn:F; [|discriminate]. injection H as <- <- <-.
    apply (par_still cs _ _ _ _ (incl_highlight cs st HS)) in P. apply IHn in F. apply Forall_app. split; [|auto].
    destruct (is_terminator t); injection HL as <- <-; repeat constructor; apply still_leaf.
Qed.
Lemma still_highlight : forall cs st, incl (stops cs) st -> stills_by cs st fhighlight.
Proof.
  intros cs st HS ts t rest H. unfold fhighlight in H.
  destruct (fseq [is_two_bangs; fun t => is_space_1 t || is_eol t] ts) as [[o r]|] eqn:Q; [|discriminate].
  set (skip := is_eol (last o (mk_token Literal 0 0 (mk_pos 0 0 0) false))) in *.
  destruct (if negb skip then opt_tree (fmodifier st r) r else ([], r)) as [k1 r1] eqn:K1.
  destruct (opt_tree (ficon (StopTerminator :: st) r1) r1) as [k2 r2] eqn:K2.
  destruct (nth_is 0 col0 r2); [|discriminate].
  destruct (fhighlight_loop (S (length r2)) st r2) as [[[k3 c] r3]|] eqn:F; [|discriminate].
  injection H as <- <-. apply (highlight_loop_still cs st HS) in F. apply still_node; [intros rest0; exact I|]. cbn [is_coll]. rewrite orb_false_r.
  apply Forall_app. split; [|apply Forall_app; split; [|exact F]].
  - destruct (negb skip); [|injection K1 as <- <-; constructor]. destruct (fmodifier st r) as [[x y]|] eqn:E; injection K1 as <- <-; [|constructor].
    apply makes_modifier in E. destruct E as [W (? & ? & ? & ->)]. constructor; [apply inert_still; [exact W|reflexivity]|constructor].
  - destruct (ficon (StopTerminator :: st) r1) as [[x y]|] eqn:E; injection K2 as <- <-; [|constructor].
    apply makes_icon in E. destruct E as [W (? & ? & ? & ->)]. constructor; [apply inert_still; [exact W|reflexivity]|constructor].
Qed.

Lemma still_embed : forall cs st, incl (stops cs) st -> stills_by cs st fembed.
Proof.
  intros cs st HS ts t rest H. unfold fembed in H. destruct ts as [|a r]; [discriminate|]. destruct (is_left_curly2 a); [|discriminate].
  destruct (until st is_pipe r) as [[[b1 p] r1]|] eqn:U1; [|discriminate].
  destruct (until st is_right_curly2 r1) as [[[b2 c] r2]|] eqn:U2; [|discriminate].
  destruct (fclose_line st c r2) as [[cl rest']|] eqn:C; [|discriminate]. injection H as <- <-.
  pose proof (until_app _ _ _ _ _ _ U2) as [E2 _]. apply until_awake in U1. apply until_awake in U2. destruct U1 as [U1 _]. destruct U2 as [U2 _].
  apply still_node; [|repeat constructor; apply still_leaf]. intros rest0. cbn [calm_node].
  assert (A : awake st (yields [Leaf b1; Leaf [p]; Leaf b2] ++ [c]) r2).
  { cbn. rewrite app_nil_r. rewrite E2 in U1. change (b1 ++ p :: b2) with (b1 ++ [p] ++ b2). rewrite <- !app_assoc, app_assoc. apply awake_app.
    split; [|exact U2]. rewrite <- app_assoc. exact U1. }
  apply awake_app in A. destruct A as [A _]. eapply awake_quiet; [exact HS|exact A].
Qed.
Lemma still_code : forall cs st, stills_by cs st fcode.
Proof.
  intros cs st ts t rest H. apply makes_code in H. destruct H as [W (o & k & c & ->)]. apply still_node; [intros rest0; exact I|].
  eapply kids_still; [exact W|auto 6].
Qed.

(** ** Documents *)

(** The stops of a document: ends of collapsibles. *)
Definition doc_stops (cs : bool) (st : list stop_condition) : Prop := incl (stops cs) st /\ forall c, In c st -> c = StopCollapsibleEnd.

Lemma ended_stopped : forall cs st a rest, doc_stops cs st -> awake (StopTerminator :: st) a rest -> stopped (StopTerminator :: st) rest = true -> ended a rest.
Proof.
  intros cs st a rest [_ D] A H. unfold stopped in H. destruct rest as [|t r]; [left; reflexivity|]. cbn [existsb] in H. apply orb_true_iff in H. destruct H as [H|H].
  - right. left. exact H.
  - right. right. apply existsb_exists in H. destruct H as (c & Hc & H). pose proof (D c Hc) as ->. split; [exact H|].
    eapply awake_incl; [|exact A]. intros y [<-|[]]. right. exact Hc.
Qed.

Lemma simple_calm : forall cs st ts t rest, doc_stops cs st -> fsimple st ts = (t, rest) -> 1 <= length (yield t) -> still cs t /\ over t rest.
Proof.
  intros cs st ts t rest D H L.
  assert (NE : yield t <> []) by (intros X; rewrite X in L; cbn in L; lia). unfold fsimple in H.
  assert (HS : incl (StopTerminator :: stops cs) (StopTerminator :: st)).
  { intros y [<-|Hy]; [left; reflexivity|right; apply D; exact Hy]. }
  destruct (forelse flist0 (forelse fimages (forelse fbreak fheading)) (StopTerminator :: st) ts) as [[y r]|] eqn:E.
  - injection H as -> ->. split.
    + clear L NE. revert ts t rest E. change (stills_by cs (StopTerminator :: st) (forelse flist0 (forelse fimages (forelse fbreak fheading)))). apply stills_orelse; [apply still_list; exact HS|]. apply stills_orelse; [apply still_images; exact HS|].
      apply stills_orelse; [apply still_break|apply still_heading; exact HS].
    + assert (IT : In StopTerminator (StopTerminator :: st)) by (left; reflexivity). split; [exact NE|]. clear L NE.
      apply forelse_some in E. destruct E as [E|E].
      { apply flist0_wf in E; [|exact IT]. destruct E as [_ (lk & k & -> & _)]. destruct lk; exact I. }
      apply forelse_some in E. destruct E as [E|E].
      { apply fimages_wf in E; [|left; reflexivity]. destruct E as [_ [(? & ? & ? & ->)|(? & ? & ? & ->)]]; exact I. }
      apply forelse_some in E. destruct E as [E|E].
      { apply makes_break in E. destruct E as [_ (? & ? & ? & ->)]. exact I. }
      apply heading_awake in E. destruct E as (o & k & -> & A & S0). cbn. eapply ended_stopped; eauto.
  - split; [eapply par_still; [exact HS|exact H]|]. split; [exact NE|]. apply par_awake in H. destruct H as (k & -> & A & S0). eapply ended_stopped; eauto.
Qed.

(** The tokens after a tree may be turned into text. *)
Lemma awake_flips : forall st x a b, flips a b -> awake st x a -> awake st x b.
Proof.
  intros st x a b F. induction x as [|t x IH]; intros A; [exact I|]. destruct A as [A1 A2]. split; [|auto].
  rewrite <- A1. apply flips_stopped. constructor; [left; reflexivity|]. apply flips_app; [apply flips_refl|exact F].
Qed.
Lemma ended_flips : forall x a b, flips a b -> ended x a -> ended x b.
Proof.
  intros x a b F [->|[H|[H1 H2]]].
  - inversion F. left. reflexivity.
  - right. left. rewrite (flips_nth is_terminator _ _ 0 flip_terminator F). exact H.
  - right. right. split; [rewrite (flips_fmatches _ _ _ F); exact H1|eapply awake_flips; eauto].
Qed.
Lemma over_flips : forall t a b, flips a b -> over t a -> over t b.
Proof.
  intros t a b F [N H]. split; [exact N|]. destruct t as [ts|ts|n o k c]; try exact I. destruct n; try exact I; eapply ended_flips; eauto.
Qed.
Lemma overs_flips : forall k a b, flips a b -> overs k a -> overs k b.
Proof.
  induction k as [|t k IH]; intros a b F H; [exact I|]. destruct H as [H1 H2]. split; [|eapply IH; eauto].
  eapply over_flips; [|exact H1]. apply flips_app; [apply flips_refl|exact F].
Qed.
Lemma calm_flips : forall t cs a b, flips a b -> calm cs t a -> calm cs t b.
Proof.
  induction t as [ts|ts|n o k c IH] using tree_ind'; intros cs a b F T; try exact I.
  apply calm_eq in T. destruct T as [T K]. apply calm_eq. split.
  - destruct n; cbn [calm_node] in *; try exact T. eapply overs_flips; [|exact T]. apply flips_app; [apply flips_refl|exact F].
  - clear T. induction k as [|t k IHk]; [exact I|]. inversion IH as [|? ? H1 H2]; subst. destruct K as [K1 K2]. split; [|apply IHk; assumption].
    eapply H1; [|exact K1]. apply flips_app; [apply flips_refl|]. apply flips_app; [apply flips_refl|exact F].
Qed.

Lemma docs_calm : forall n,
  (forall cs src st ts k rest, doc_stops cs st -> 3 * length ts < n -> vtok src ts -> fdoc n st ts = (k, rest) -> calms cs k rest /\ overs k rest)
  /\ (forall cs src st ts t rest, doc_stops cs st -> ts <> [] -> 3 * length ts <= n -> vtok src ts -> fcollapsible n st ts = CMatch t rest -> calm cs t rest).
Proof.
  induction n as [n IHn] using lt_wf_ind. destruct n.
  { split; intros; cbn in *; [lia|discriminate]. }
  destruct (IHn n (Nat.lt_succ_diag_r n)) as [ID IC].
  assert (DF : forall src st ts k rest, 3 * length ts < n -> vtok src ts -> fdoc n st ts = (k, rest) -> flips ts (yields k ++ rest)).
  { intros src st ts k rest Hn V H. destruct (docs_ok (S (3 * length ts)) n) as [D _].
    specialize (D src [] ts st [] ltac:(lia) Hn V). unfold doc_ok in D. rewrite H in D. apply D. }
  split.
  - intros cs src st ts k rest DS Hn V H. cbn [fdoc] in H. destruct ts as [|t r]; [injection H as <- <-; split; exact I|].
    destruct (stopped st (t :: r)) eqn:S0; [injection H as <- <-; split; exact I|].
    assert (G : forall X, (let '(x, r1) := X in calm cs x r1 /\ over x r1 /\ flips (t :: r) (yield x ++ r1) /\ 1 <= length (yield x)) ->
              (let '(x, r1) := X in let (k, r2) := fdoc n st r1 in (x :: k, r2)) = (k, rest) -> calms cs k rest /\ overs k rest).
    { intros [x r1] (Tx & Ox & Fx & Lx) E. destruct (fdoc n st r1) as [k' r2] eqn:F. injection E as <- <-.
      pose proof (flips_length _ _ Fx) as LL. rewrite app_length in LL.
      assert (Ln : 3 * length r1 < n) by lia.
      assert (V1 : vtok src r1) by (pose proof (flips_vtok src _ _ Fx V) as V1; apply Forall_app in V1; apply V1).
      destruct (ID cs _ _ _ _ _ DS Ln V1 F) as [I1 I2]. pose proof (DF _ _ _ _ _ Ln V1 F) as FF.
      split; (split; [|assumption]); [eapply calm_flips; eauto|eapply over_flips; eauto]. }
    refine (G _ _ H). clear G H.
    destruct (is_terminator t) eqn:T.
    { split; [exact I|]. split; [split; [discriminate|exact I]|]. split; [apply flips_refl|cbn; lia]. }
    assert (NE : forall y, 1 <= length (yield y) -> yield y <> []) by (intros y Ly X; rewrite X in Ly; cbn in Ly; lia).
    destruct (fcode st (t :: r)) as [[y r1]|] eqn:E1.
    { pose proof (covers_code _ _ _ _ E1) as [Ey Ly]. pose proof (makes_code _ _ _ _ E1) as [_ (? & ? & ? & Ec)]. apply (still_code cs) in E1.
      split; [apply E1|]. split; [split; [apply NE; exact Ly|rewrite Ec; exact I]|]. split; [rewrite <- Ey; apply flips_refl|exact Ly]. }
    assert (Ln : 3 * length (t :: r) <= n) by (cbn [length] in *; lia).
    destruct (docs_ok (3 * length (t :: r)) n) as [_ CO].
    specialize (CO src [] (t :: r) st [] ltac:(discriminate) ltac:(lia) Ln V). unfold coll_ok in CO.
    destruct (fcollapsible n st (t :: r)) as [y r1|ts'] eqn:E2.
    { destruct CO as (Fy & Ly & _).
      assert (Ro : root NCollapsible y).
      { clear - E2. destruct n; [discriminate|]. cbn [fcollapsible] in E2.
        destruct (fseq [is_collapsible_start; is_space_or_eol] (t :: r)) as [[o q]|]; [|discriminate].
        destruct (opt_tree (fmodifier st q) q) as [k1 q1]. destruct (nth_is 0 col0 q1); [|discriminate].
        destruct (fdoc n (StopCollapsibleEnd :: st) q1) as [k2 q2].
        destruct (match q2 with e :: r3 => if is_eol e then ([Skip [e]], r3) else ([], q2) | [] => ([], q2) end) as [k3 q3].
        destruct (fcollapsible_end q3) as [[c q4]|]; [|discriminate]. injection E2 as <- _. apply root_node. }
      split; [|split; [|split; [exact Fy|exact Ly]]]; [eapply (IC cs src st (t :: r)); eauto; discriminate|]. split; [apply NE; exact Ly|]. destruct Ro as (? & ? & ? & ->). exact I. }
    destruct CO as [F2 _].
    destruct (forelse fembed fhighlight st ts') as [[y r1]|] eqn:E3.
    { pose proof (covers_orelse _ _ covers_embed covers_highlight _ _ _ _ E3) as [Ey Ly]. rewrite Ey in F2.
      assert (Oy : over y r1).
      { split; [apply NE; exact Ly|]. apply forelse_some in E3. destruct E3 as [E3|E3]; [apply makes_embed in E3|apply makes_highlight in E3]; destruct E3 as [_ (? & ? & ? & ->)]; exact I. }
      split; [|auto]. apply (stills_orelse cs st _ _ (still_embed cs st (proj1 DS)) (still_highlight cs st (proj1 DS)) _ _ _ E3). }
    destruct (fsimple st ts') as [y r1] eqn:E4.
    assert (V' : vtok src ts') by (eapply flips_vtok; eauto).
    pose proof (simple_block_ST src [] ts' st [] y r1 V' E4) as [Ey _].
    assert (Ly : 1 <= length (yield y)).
    { eapply fsimple_progress; [exact E4|rewrite (flips_stopped st _ _ F2); exact S0|].
      rewrite (flips_nth is_terminator _ _ 0 flip_terminator F2). exact T. }
    destruct (simple_calm cs st ts' y r1 DS E4 Ly) as [Sy Oy].
    split; [apply Sy|]. split; [exact Oy|]. split; [rewrite <- Ey; exact F2|exact Ly].
  - intros cs src st ts t rest DS NE Hn V H. cbn [fcollapsible] in H.
    destruct (fseq [is_collapsible_start; is_space_or_eol] ts) as [[o r]|] eqn:Q; [|discriminate].
    apply fseq_app in Q. destruct Q as (-> & Lo & _). simpl in Lo.
    destruct (opt_tree (fmodifier st r) r) as [k1 r1] eqn:K1.
    pose proof (opt_tree_app _ _ _ _ _ covers_modifier K1) as Er.
    destruct (nth_is 0 col0 r1); [|discriminate].
    destruct (fdoc n (StopCollapsibleEnd :: st) r1) as [k2 r2] eqn:D.
    destruct (match r2 with
              | e :: r3 => if is_eol e then ([Skip [e]], r3) else ([], r2)
              | [] => ([], r2) end) as [k3 r3] eqn:K3.
    destruct (fcollapsible_end r3) as [[c rest']|] eqn:CE; [|discriminate]. injection H as <- <-.
    apply fcollapsible_end_app in CE. destruct CE as [-> _].
    assert (L1 : 3 * length r1 < n).
    { subst r. rewrite !app_length in Hn. lia. }
    assert (V1 : vtok src r1).
    { subst r. apply Forall_app in V. destruct V as [_ V]. apply Forall_app in V. apply V. }
    assert (DS' : doc_stops true (StopCollapsibleEnd :: st)).
    { split; [intros y [<-|[]]; left; reflexivity|]. intros y [<-|Hy]; [reflexivity|apply DS; exact Hy]. }
    destruct (ID true _ _ _ _ _ DS' L1 V1 D) as [T2 O2].
    assert (K3' : r2 = yields k3 ++ c ++ rest' /\ Forall (still true) k3).
    { destruct r2 as [|e r2']; [injection K3 as <- <-; auto|].
      destruct (is_eol e); injection K3 as <- E3; [|subst; auto]. subst. split; [reflexivity|]. repeat constructor. }
    destruct K3' as [E3 S3].
    apply calm_eq. cbn [is_coll]. rewrite orb_true_r. split; [exact I|]. apply calms_app. split.
    + apply stills. destruct (fmodifier st r) as [[x y]|] eqn:E; injection K1 as <- <-; [|constructor].
      apply makes_modifier in E. destruct E as [W (? & ? & ? & ->)]. constructor; [apply inert_still; [exact W|reflexivity]|constructor].
    + split; [|apply stills; exact S3]. apply calm_eq. rewrite <- E3. split; [exact O2|exact T2].
Qed.

Theorem fparse_calm : forall s, calms false (fparse (spec_tokens s)) [].
Proof.
  intros s. pose proof (vtok_lex s) as V. revert V. generalize (spec_tokens s). intros ts V. unfold fparse.
  destruct (opt_tree (fmetadata [] ts) ts) as [k1 r1] eqn:K1. pose proof (opt_tree_app _ _ _ _ _ (covers_delim _ _ _) K1) as E1.
  assert (V1 : vtok s r1) by (subst ts; apply Forall_app in V; apply V).
  destruct (fdoc (3 * length r1 + 5) [] r1) as [k2 r2] eqn:D.
  assert (r2 = []) as ->.
  { destruct (docs_ok (3 * length r1 + 5) (3 * length r1 + 5)) as [DO _]. specialize (DO s [] r1 [] [] ltac:(lia) ltac:(lia) V1).
    unfold doc_ok in DO. rewrite D in DO. destruct DO as (_ & S0 & _). destruct r2; [reflexivity|discriminate]. }
  apply (proj1 (docs_calm _)) with (cs := false) (src := s) in D; [|split; [intros y []|intros y []]|lia|exact V1]. apply calms_app. split.
  - apply stills. destruct (fmetadata [] ts) as [[x y]|] eqn:E; injection K1 as <- <-; [|constructor].
    apply makes_metadata in E. destruct E as [W (? & ? & ? & ->)]. constructor; [apply inert_still; [exact W|reflexivity]|constructor].
  - cbn [calms]. split; [|exact I]. apply calm_eq. destruct D as [D1 D2]. split; [exact D2|exact D1].
Qed.
