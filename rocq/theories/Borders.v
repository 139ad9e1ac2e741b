(** Where blocks begin and end: facts about the trees of FParser.v with the tokens after them. *)
From Coq Require Import Lia.
From Verif Require Import Base Lexer LexSpec LexProofs LexFacts Ops Parser FParser Refine Refine2 Refine3
  Wf TokFacts StreamSpec StreamProofs StreamProofs2 Lines StreamProofs3.

(** ** No [%}] is passed over *)

Lemma awake_quiet : forall st a rest, In StopCollapsibleEnd st -> awake st a rest -> quiet a.
Proof.
  intros st a rest C. induction a as [|t a IH]; intros A; [constructor|]. destruct A as [A1 A2]. constructor; [|exact (IH A2)].
  destruct (is_collapsible_end t) eqn:E; [|reflexivity]. exfalso.
  assert (X : existsb (fun c => fmatches c (t :: a ++ rest)) st = true); [|cbn [stopped] in A1; congruence].
  apply existsb_exists. exists StopCollapsibleEnd. split; [exact C|]. cbn. rewrite E. reflexivity.
Qed.
Definition hushes (g : fparser) : Prop := forall st ts t rest, In StopCollapsibleEnd st -> g st ts = Some (t, rest) -> quiet (yield t).

Lemma no_end : forall t, kind t <> CollapsibleEnd -> is_collapsible_end t = false.
Proof. intros t H. unfold is_collapsible_end. destruct (kind t); try reflexivity. congruence. Qed.
Ltac kinds H := unfold is_bang, is_left_bracket, is_space_1, is_hash, is_dash5, is_two_bangs, is_one_bang, is_eol, is_left_curly2, is_indent, is_terminator, is_list_marker, is_space_or_eol, is_backtick3, is_collapsible_start in H;
  repeat match type of H with context [match ?k with _ => _ end] => is_var k; destruct k end;
  match goal with |- kind ?t <> _ => let K := fresh in intro K; rewrite K in H; cbn in H; discriminate H end.
Ltac nce := apply no_end; match goal with H : _ = true |- kind _ <> _ => kinds H end.

Lemma quiet_app : forall a b, quiet (a ++ b) <-> quiet a /\ quiet b.
Proof. intros a b. apply Forall_app. Qed.
Lemma quiet_one : forall t, is_collapsible_end t = false -> quiet [t].
Proof. intros t H. constructor; [exact H|constructor]. Qed.

Lemma hushes_delim : forall n f g, (forall t, f t = true -> is_collapsible_end t = false) -> hushes (fdelim n f g).
Proof.
  intros n f g Hf st ts t rest C E. unfold fdelim in E. destruct ts as [|a r]; [discriminate|]. destruct (f a) eqn:Fa; [|discriminate].
  destruct (until st g r) as [[[b c] r']|] eqn:U; [|discriminate]. injection E as <- <-. apply until_awake in U. destruct U as [U _].
  cbn. rewrite app_nil_r. constructor; [apply Hf; exact Fa|]. eapply awake_quiet; eauto.
Qed.
Lemma hushes_title : hushes ftitle. Proof. apply hushes_delim. intros t H. nce. Qed.
Lemma hushes_dest : hushes fdest. Proof. intros st ts t rest C E. apply fdest_facts in E. eapply awake_quiet; [exact C|apply E]. Qed.
Lemma hush_par : forall st ts t rest, In StopCollapsibleEnd st -> fparagraph st ts = (t, rest) -> quiet (yield t).
Proof. intros st ts t rest C E. apply fparagraph_facts in E. eapply awake_quiet; [exact C|apply E]. Qed.
Lemma hushes_heading : hushes fheading.
Proof.
  intros st ts t rest C H. unfold fheading in H. destruct ts as [|a [|u r]]; [discriminate|discriminate|]. destruct (is_hash a && is_space_1 u) eqn:Q; [|discriminate]. apply andb_true_iff in Q. destruct Q as [Qa Qu].
  destruct (fitems fanchor (S (length r)) st [] r) as [k r'] eqn:F. injection H as <- <-.
  apply fitems_facts in F; [|apply covers_anchor|apply snugs_anchor|apply wakes_anchor| |lia|exact I].
  - destruct F as (_ & _ & F). cbn. rewrite app_nil_r. constructor; [nce|constructor; [nce|]]. eapply awake_quiet; eauto.
  - intros st0 ts0 t0 rest0 E. apply fanchor_facts in E. apply E.
Qed.
Lemma hushes_image : hushes fimage.
Proof.
  intros st ts t rest C H. unfold fimage in H. destruct ts as [|a r]; [discriminate|]. destruct (is_bang a) eqn:Ea; [|discriminate].
  destruct (ftitle st r) as [[t1 r1]|] eqn:E1; [|discriminate]. destruct (fdest st r1) as [[t2 r2]|] eqn:E2; [|discriminate].
  apply hushes_title in E1; [|exact C]. apply hushes_dest in E2; [|exact C].
  assert (G : forall c, quiet c -> quiet (yield (Node NImage [a] [t1; t2] c))).
  { intros c Qc. cbn. constructor; [nce|]. rewrite app_nil_r. apply quiet_app. split; [apply quiet_app; auto|exact Qc]. }
  destruct r2 as [|e r3]; [injection H as <- <-; apply G; constructor|]. destruct (is_eol e) eqn:Ee; [injection H as <- <-; apply G; apply quiet_one; nce|].
  destruct (stopped st (e :: r3)); [|discriminate]. injection H as <- <-. apply G. constructor.
Qed.
Lemma hush_images : forall n st ts k rest, In StopCollapsibleEnd st -> fimages_loop n st ts = Some (k, rest) -> quiet (yields k).
Proof.
  induction n; intros st ts k rest C H; cbn [fimages_loop] in H; [discriminate|]. destruct ts as [|t r]; [injection H as <- <-; constructor|].
  destruct (fimage st (t :: r)) as [[x r1]|] eqn:E; [|destruct (stopped st (t :: r)); [injection H as <- <-; constructor|discriminate]].
  destruct (fimages_loop n st r1) as [[k' r']|] eqn:F; [|discriminate]. injection H as <- <-. cbn. apply quiet_app. split; [eapply hushes_image; eauto|eapply IHn; eauto].
Qed.
Lemma hushes_images : hushes fimages.
Proof.
  intros st ts t rest C H. unfold fimages in H. destruct (fimages_loop (S (length ts)) st ts) as [[k r]|] eqn:F; [|discriminate]. apply hush_images in F; [|exact C].
  destruct k as [|x [|y k]]; [discriminate| |]; injection H as <- <-; [apply quiet_app in F; apply F|]. cbn. rewrite app_nil_r. exact F.
Qed.
Lemma hushes_break : hushes fbreak.
Proof. intros st ts t rest C H. unfold fbreak in H. destruct ts as [|a r]; [discriminate|]. destruct (is_dash5 a) eqn:E; [|discriminate]. injection H as <- <-. cbn. apply quiet_one. nce. Qed.
Lemma hush_marker : forall level k ts o r, fseq (marker_preds level k) ts = Some (o, r) -> quiet o.
Proof.
  intros level k ts o r H. unfold marker_preds in H.
  destruct (level =? 0); cbn [fseq] in H; (destruct ts as [|a ts]; [discriminate|]);
    repeat match type of H with
           | context [if ?f ?x then _ else _] => let E := fresh "E" in destruct (f x) eqn:E; [|discriminate H]
           | context [match ?l with [] => None | _ :: _ => _ end] => destruct l; [discriminate H|]
           end; injection H as <- <-; unfold quiet, free; rewrite ?Forall_cons_iff; (repeat split; try apply Forall_nil); apply no_end.
  all: match goal with |- kind ?t <> _ => match goal with H : _ t = true |- _ => unfold is_list_marker, list_kind_of, is_indent, is_space_1 in H; let K := fresh in intro K; rewrite K in H; discriminate H end end.
Qed.
Lemma hush_lists : forall n,
  (forall level k ts st mk x rest, In StopCollapsibleEnd st -> fitem n level k st ts = Some (mk, x, rest) -> quiet (yield x))
  /\ (forall level ts st mk x rest, In StopCollapsibleEnd st -> flist n level st ts = Some (mk, x, rest) -> quiet (yield x))
  /\ (forall level lk ts st k rest, In StopCollapsibleEnd st -> flist_items n level lk st ts = (k, rest) -> quiet (yields k)).
Proof.
  induction n; [split; [intros; discriminate|split; [intros; discriminate|]]; intros level lk ts st k rest C H; injection H as <- <-; constructor|].
  destruct IHn as (II & IN & IS). split; [|split].
  - intros level k ts st mk x rest C H. cbn [fitem] in H.
    destruct (negb (nth_is 0 col0 ts)); [discriminate|].
    destruct (nth_error ts (if level =? 0 then 0 else 1)) as [m|]; [|discriminate].
    destruct (list_kind_of m) as [mk0|]; [|discriminate].
    destruct (fseq (marker_preds level k) ts) as [[o r]|] eqn:Q; [|discriminate]. apply hush_marker in Q.
    destruct (fparagraph (StopListBoundary level mk0 :: st) r) as [par r1] eqn:P.
    apply hush_par in P; [|right; exact C].
    assert (G : forall kk, quiet (yields kk) -> quiet (yield (Node NListItem o kk []))).
    { intros kk F. cbn. rewrite app_nil_r. apply quiet_app. auto. }
    assert (G1 : quiet (yields [par])) by (cbn; rewrite app_nil_r; exact P).
    destruct (negb (stopped st r1)).
    + destruct (flist n (level + 1) st r1) as [[[mk' y] r2]|] eqn:F; injection H as <- <- <-; apply G; auto.
      apply IN in F; [|exact C]. cbn. rewrite app_nil_r. apply quiet_app. auto.
    + injection H as <- <- <-. apply G. exact G1.
  - intros level ts st mk x rest C H. cbn [flist] in H.
    destruct (fitem n level None st ts) as [[[lk y] r]|] eqn:E; [|discriminate].
    destruct (flist_items n level lk st r) as [k r1] eqn:F. injection H as <- <- <-. apply II in E; [|exact C]. apply IS in F; [|exact C].
    cbn. rewrite app_nil_r. apply quiet_app. auto.
  - intros level lk ts st k rest C H. cbn [flist_items] in H.
    destruct (fitem n level (Some lk) st ts) as [[[mk x] r]|] eqn:E; [|injection H as <- <-; constructor].
    destruct (flist_items n level lk st r) as [k' r1] eqn:F. injection H as <- <-. apply II in E; [|exact C]. apply IS in F; [|exact C]. cbn. apply quiet_app. auto.
Qed.
Lemma hushes_list : hushes flist0.
Proof.
  intros st ts t rest C H. unfold flist0 in H. destruct (flist (2 * length ts + 3) 0 st ts) as [[[mk x] r]|] eqn:F; [|discriminate].
  injection H as <- <-. apply (proj1 (proj2 (hush_lists _))) in F; assumption.
Qed.
Lemma hushes_orelse : forall f g, hushes f -> hushes g -> hushes (forelse f g).
Proof. intros f g F G st ts t rest C H. apply forelse_some in H. destruct H as [H|H]; eauto. Qed.
Lemma hush_close : forall st c r x rest, is_collapsible_end c = false -> fclose_line st c r = Some (x, rest) -> quiet x.
Proof.
  intros st c r x rest K H. unfold fclose_line in H. destruct r as [|e r]; [injection H as <- <-; apply quiet_one; exact K|].
  destruct (is_eol e) eqn:Ee; [injection H as <- <-; constructor; [exact K|apply quiet_one; nce]|]. destruct (_ || _)%bool; [|discriminate]. injection H as <- <-. apply quiet_one. exact K.
Qed.
Lemma hushes_embed : hushes fembed.
Proof.
  intros st ts t rest C H. unfold fembed in H. destruct ts as [|a r]; [discriminate|]. destruct (is_left_curly2 a) eqn:Ea; [|discriminate].
  destruct (until st is_pipe r) as [[[b1 p] r1]|] eqn:U1; [|discriminate]. destruct (until st is_right_curly2 r1) as [[[b2 c] r2]|] eqn:U2; [|discriminate].
  destruct (fclose_line st c r2) as [[cl rest']|] eqn:CL; [|discriminate]. injection H as <- <-.
  apply until_awake in U1. apply until_awake in U2. destruct U1 as [U1 _]. destruct U2 as [U2 _]. apply awake_quiet in U1; [|exact C]. apply awake_quiet in U2; [|exact C].
  apply quiet_app in U1, U2. destruct U1 as [A1 A2]. destruct U2 as [A3 A4]. inversion A4; subst. apply hush_close in CL; [|assumption].
  cbn. constructor; [nce|]. rewrite app_nil_r. apply quiet_app. split; [|exact CL]. apply quiet_app. split; [exact A1|]. inversion A2; subst. constructor; assumption.
Qed.
Lemma hush_modifier : hushes fmodifier.
Proof.
  intros st ts t rest C H. unfold fmodifier in H. destruct (nth_is 0 col0 ts); [discriminate|]. destruct (until st is_eol_or_terminator ts) as [[[b c] r]|] eqn:U; [|discriminate]. injection H as <- <-.
  apply until_awake in U. destruct U as [U _]. cbn. rewrite app_nil_r. eapply awake_quiet; eauto.
Qed.
Lemma hush_icon : hushes ficon.
Proof.
  intros st ts t rest C H. unfold ficon in H. destruct (fseq [is_one_bang; is_space_1] ts) as [[o r]|] eqn:Q; [|discriminate].
  destruct (until st is_eol r) as [[[b c] r']|] eqn:U; [|discriminate]. injection H as <- <-. apply until_awake in U. destruct U as [U _].
  cbn [fseq] in Q. destruct ts as [|a [|u ts]]; [discriminate|destruct (is_one_bang a); discriminate|]. destruct (is_one_bang a) eqn:E1; [|discriminate]. destruct (is_space_1 u) eqn:E2; [|discriminate]. injection Q as <- <-.
  cbn. rewrite app_nil_r. constructor; [nce|constructor; [nce|]]. eapply awake_quiet; eauto.
Qed.
Lemma hush_opt : forall g st ts k r, hushes g -> In StopCollapsibleEnd st -> opt_tree (g st ts) ts = (k, r) -> quiet (yields k).
Proof.
  intros g st ts k r H C E. destruct (g st ts) as [[x y]|] eqn:G; injection E as <- <-; [|constructor]. cbn. rewrite app_nil_r. eapply H; eauto.
Qed.
Lemma hush_hl : forall n st ts k c rest, In StopCollapsibleEnd st -> fhighlight_loop n st ts = Some (k, c, rest) -> quiet (yields k ++ c).
Proof.
  induction n; intros st ts k c rest C H; cbn [fhighlight_loop] in H; [discriminate|]. destruct ts as [|t r]; [discriminate|]. destruct (stopped st (t :: r)) eqn:S0; [discriminate|].
  destruct (is_two_bangs t) eqn:E2.
  - unfold with_eol in H. destruct r as [|e r]; [injection H as <- <- <-; apply quiet_one; nce|]. destruct (is_eol e) eqn:Ee; injection H as <- <- <-; [constructor; [nce|apply quiet_one; nce]|apply quiet_one; nce].
  - destruct (if is_terminator t then ([Leaf [t]], r) else ([], t :: r)) as [l r1] eqn:HL.
    destruct (fparagraph (StopTerminator :: StopHighlightEnd :: st) r1) as [par r2] eqn:P.
    destruct (fhighlight_loop n st r2) as [[[k' c'] r3]|] eqn:F; [|discriminate]. injection H as <- <- <-.
    apply hush_par in P; [|right; right; exact C]. apply IHn in F; [|exact C]. rewrite yields_app. cbn [yields flat_map]. rewrite <- !app_assoc. apply quiet_app. split.
    + destruct (is_terminator t) eqn:Et; injection HL as <- <-; [cbn; apply quiet_one; nce|constructor].
    + apply quiet_app. auto.
Qed.
Lemma hushes_highlight : hushes fhighlight.
Proof.
  intros st ts t rest C H. unfold fhighlight in H.
  destruct (fseq [is_two_bangs; fun t => is_space_1 t || is_eol t] ts) as [[o r]|] eqn:Q; [|discriminate].
  set (skip := is_eol (last o (mk_token Literal 0 0 (mk_pos 0 0 0) false))) in *.
  destruct (if negb skip then opt_tree (fmodifier st r) r else ([], r)) as [k1 r1] eqn:K1.
  destruct (opt_tree (ficon (StopTerminator :: st) r1) r1) as [k2 r2] eqn:K2.
  destruct (nth_is 0 col0 r2); [|discriminate].
  destruct (fhighlight_loop (S (length r2)) st r2) as [[[k3 c] r3]|] eqn:F; [|discriminate].
  injection H as <- <-. apply hush_hl in F; [|exact C].
  cbn [yield]. fold (yields (k1 ++ k2 ++ k3)). rewrite !yields_app, <- !app_assoc. apply quiet_app. split.
  { cbn [fseq] in Q. destruct ts as [|a [|u ts]]; [discriminate|destruct (is_two_bangs a); discriminate|]. destruct (is_two_bangs a) eqn:E1; [|discriminate].
    destruct (is_space_1 u || is_eol u) eqn:E2; [|discriminate]. injection Q as <- <-. constructor; [nce|]. apply quiet_one. apply orb_true_iff in E2. apply no_end. intro K. unfold is_space_1, is_eol in E2. rewrite K in E2. destruct E2; discriminate. }
  apply quiet_app. split.
  { destruct (negb skip); [|injection K1 as <- <-; constructor]. eapply hush_opt; [apply hush_modifier|exact C|exact K1]. }
  apply quiet_app. split; [|exact F]. eapply (hush_opt ficon (StopTerminator :: st)); [apply hush_icon|right; exact C|exact K2].
Qed.
Lemma fsimple_hush : forall st ts t rest, In StopCollapsibleEnd st -> fsimple st ts = (t, rest) -> quiet (yield t).
Proof.
  intros st ts t rest C H. unfold fsimple in H.
  destruct (forelse flist0 (forelse fimages (forelse fbreak fheading)) (StopTerminator :: st) ts) as [[y r]|] eqn:E.
  - injection H as -> ->. revert E. apply (hushes_orelse _ _ hushes_list (hushes_orelse _ _ hushes_images (hushes_orelse _ _ hushes_break hushes_heading))). right. exact C.
  - eapply hush_par; [|exact H]. right. exact C.
Qed.

(** ** Stops after blocks *)

Lemma heading_stopped : forall st ts t rest, fheading st ts = Some (t, rest) -> stopped st rest = true.
Proof.
  intros st ts t rest H. unfold fheading in H. destruct ts as [|a [|u r]]; [discriminate|discriminate|]. destruct (is_hash a && is_space_1 u); [|discriminate].
  destruct (fitems fanchor (S (length r)) st [] r) as [k r'] eqn:F. injection H as <- <-. eapply fitems_stopped; [apply covers_anchor| |exact F]. lia.
Qed.
Lemma images_stopped : forall n st ts k rest, fimages_loop n st ts = Some (k, rest) -> stopped st rest = true.
Proof.
  induction n; intros st ts k rest H; cbn [fimages_loop] in H; [discriminate|]. destruct ts as [|t r]; [injection H as <- <-; reflexivity|].
  destruct (fimage st (t :: r)) as [[x r1]|] eqn:E; [|destruct (stopped st (t :: r)) eqn:S0; [injection H as <- <-; exact S0|discriminate]].
  destruct (fimages_loop n st r1) as [[k' r']|] eqn:F; [|discriminate]. injection H as <- <-. eapply IHn. exact F.
Qed.

(** A line that starts with a list marker. *)
Definition list_line (r : list token) : bool :=
  nth_is 0 col0 r
  && ((nth_is 0 (is_list_marker None) r && nth_is 1 is_space_1 r)
      || (nth_is 0 (fun t => kind_eqb (kind t) Space) r && nth_is 1 (is_list_marker None) r && nth_is 2 is_space_1 r)).
Definition list_over (st : list stop_condition) (r : list token) : Prop := stopped st r = true \/ list_line r = true.

Lemma marker_any : forall k t, is_list_marker k t = true -> is_list_marker None t = true.
Proof. intros k t H. unfold is_list_marker in *. destruct (list_kind_of t); [reflexivity|discriminate]. Qed.
Lemma nth_impl : forall i (f g : token -> bool) r, (forall t, f t = true -> g t = true) -> nth_is i f r = true -> nth_is i g r = true.
Proof. intros i f g r H. unfold nth_is, is_some_and. destruct (nth_error r i); auto. Qed.
Lemma boundary_line : forall cur k r, fmatches (StopListBoundary cur k) r = true -> list_line r = true.
Proof.
  intros cur k r H. cbn [fmatches] in H. apply andb_true_iff in H. destruct H as [H0 H]. apply existsb_exists in H. destruct H as (l & _ & H). unfold list_line. rewrite H0. cbn [andb].
  unfold boundary_at in H. destruct (l =? 0).
  - repeat (apply andb_true_iff in H; destruct H as [? H]). apply orb_true_iff. left. apply andb_true_iff. split; [|exact H]. eapply nth_impl; [apply marker_any|eassumption].
  - apply andb_true_iff in H. destruct H as [_ H]. apply andb_true_iff in H. destruct H as [H1 H]. apply andb_true_iff in H. destruct H as [H2 H3].
    apply orb_true_iff. right. apply andb_true_iff. split; [|exact H3]. apply andb_true_iff. split.
    + eapply nth_impl; [|exact H1]. intros t E. apply andb_true_iff in E. apply E.
    + eapply nth_impl; [apply marker_any|exact H2].
Qed.
Lemma stopped_boundary : forall cur k st r, stopped (StopListBoundary cur k :: st) r = true -> list_over st r.
Proof.
  intros cur k st [|t r] H; [left; reflexivity|]. cbn [stopped existsb] in H. apply orb_true_iff in H. destruct H as [H|H]; [right; eapply boundary_line; exact H|left; exact H].
Qed.
Lemma lists_over : forall n,
  (forall level k ts st mk x rest, fitem n level k st ts = Some (mk, x, rest) -> list_over st rest)
  /\ (forall level ts st mk x rest, flist n level st ts = Some (mk, x, rest) -> list_over st rest)
  /\ (forall level lk ts st k rest, list_over st ts -> flist_items n level lk st ts = (k, rest) -> list_over st rest).
Proof.
  induction n; [split; [intros; discriminate|split; [intros; discriminate|]]; intros level lk ts st k rest C H; injection H as <- <-; exact C|].
  destruct IHn as (II & IN & IS). split; [|split].
  - intros level k ts st mk x rest H. cbn [fitem] in H.
    destruct (negb (nth_is 0 col0 ts)); [discriminate|].
    destruct (nth_error ts (if level =? 0 then 0 else 1)) as [m|]; [|discriminate].
    destruct (list_kind_of m) as [mk0|]; [|discriminate].
    destruct (fseq (marker_preds level k) ts) as [[o r]|] eqn:Q; [|discriminate].
    destruct (fparagraph (StopListBoundary level mk0 :: st) r) as [par r1] eqn:P.
    apply fparagraph_stopped in P. apply stopped_boundary in P.
    destruct (negb (stopped st r1)).
    + destruct (flist n (level + 1) st r1) as [[[mk' y] r2]|] eqn:F; injection H as <- <- <-; [eapply IN; exact F|exact P].
    + injection H as <- <- <-. exact P.
  - intros level ts st mk x rest H. cbn [flist] in H.
    destruct (fitem n level None st ts) as [[[lk y] r]|] eqn:E; [|discriminate].
    destruct (flist_items n level lk st r) as [k r1] eqn:F. injection H as <- <- <-. apply II in E. eapply IS; eauto.
  - intros level lk ts st k rest C H. cbn [flist_items] in H.
    destruct (fitem n level (Some lk) st ts) as [[[mk x] r]|] eqn:E; [|injection H as <- <-; exact C].
    destruct (flist_items n level lk st r) as [k' r1] eqn:F. injection H as <- <-. apply II in E. eapply IS; eauto.
Qed.

(** ** The property *)

Definition ends_block_node (n : node) : bool := match n with NParagraph | NHeading | NImage | NImages => true | _ => false end.
Definition list_node (n : node) : bool := match n with NUnorderedList | NOrderedList => true | _ => false end.
(** A block [t] of a document that is read up to the stops [st], with [r] after it. *)
Definition kid (st : list stop_condition) (t : tree) (r : list token) : Prop :=
  match t with
  | Node n o k c =>
      (ends_block_node n = true -> stopped (StopTerminator :: st) r = true)
      /\ (list_node n = true -> list_over (StopTerminator :: st) r)
      /\ (In StopCollapsibleEnd st -> n <> NCode -> n <> NCollapsible -> quiet (yield t))
      /\ (n = NCollapsible -> In StopCollapsibleEnd st -> forall o' b e k', k = Node NModifier o' b [e] :: k' -> is_eol e = true ->
          nth_is 0 is_collapsible_end (yields k' ++ c) = false)
      /\ (n <> NCollapsible -> fseq [is_collapsible_start; is_space_or_eol] (yield t ++ r) = None)
  | _ => True
  end.
Fixpoint kids (st : list stop_condition) (k : list tree) (r : list token) : Prop :=
  match k with [] => True | t :: k' => kid st t (yields k' ++ r) /\ kids st k' r end.

(** The line ending after [c] belongs to [c]. *)
Definition shut (c rest : list token) : Prop := (exists c' e, c = c' ++ [e] /\ is_eol e = true) \/ nth_is 0 is_eol rest = false.

Definition bord (n : node) (o : list token) (k : list tree) (c rest : list token) : Prop :=
  match n with
  | NDocument => rest = [] -> kids [] k []
  | NImage | NCode | NEmbed | NHighlight => shut c rest
  | NCollapsible => shut c rest /\ exists k1 k2 k3, k = k1 ++ [Node NDocument [] k2 []] ++ k3 /\ opt_root NModifier k1
      /\ (k3 = [] \/ exists e, k3 = [Skip [e]]) /\ nth_is 0 col0 (yields k2 ++ yields k3 ++ c) = true /\ kids [StopCollapsibleEnd] k2 (yields k3 ++ c ++ rest)
  | _ => True
  end.

(** Nodes without other nodes inside that have borders. *)
Definition bare (n : node) : bool :=
  match n with NImage | NImages | NCode | NEmbed | NHighlight | NCollapsible | NDocument => false | _ => true end.
Lemma bare_kid : forall n m, allowed n m = true -> bare n = true \/ n = NHighlight \/ n = NCode \/ n = NImage -> bare m = true.
Proof. intros [] [] H [B|[B|[B|B]]]; try discriminate; reflexivity. Qed.
Lemma bare_every : forall t, wf t -> match t with Node n _ _ _ => bare n = true | _ => True end -> forall rest, every bord t rest.
Proof.
  induction t as [ts|ts|n o k c IH] using tree_ind'; intros W B rest; try exact I. inversion W as [| |? ? ? ? Wk Sh]; subst.
  apply every_node. split; [destruct n; try discriminate B; exact I|]. apply shape_kids in Sh. clear W.
  generalize (c ++ rest). clear rest. induction k as [|t k IHk]; intros rest; [exact I|]. inversion IH as [|? ? IH1 IH2]; subst. inversion Wk as [|? ? W1 W2]; subst. inversion Sh as [|? ? S1 S2]; subst. split.
  - apply IH1; [exact W1|]. destruct t as [| |m ? ? ?]; try exact I. eapply bare_kid; [exact S1|auto].
  - apply IHk; auto.
Qed.
Lemma bare_everys : forall n k rest, Forall wf k -> Forall (kid_ok n) k -> bare n = true \/ n = NHighlight \/ n = NCode \/ n = NImage -> everys bord k rest.
Proof.
  intros n k rest W K B. revert W K. induction k as [|t k IH]; intros W K; [exact I|]. inversion W; inversion K; subst. split; [|apply IH; assumption].
  apply bare_every; [assumption|]. destruct t as [| |m ? ? ?]; try exact I. eapply bare_kid; eauto.
Qed.
(** A node of which only the closing tokens matter. *)
Lemma node_every : forall n o k c rest, wf (Node n o k c) -> bare n = true \/ n = NHighlight \/ n = NCode \/ n = NImage -> bord n o k c rest -> every bord (Node n o k c) rest.
Proof.
  intros n o k c rest W B H. inversion W as [| |? ? ? ? Wk Sh]; subst. apply every_node. split; [exact H|]. apply shape_kids in Sh. eapply bare_everys; eauto.
Qed.

Definition bords (g : fparser) : Prop := forall st ts t rest, g st ts = Some (t, rest) -> every bord t rest.

Lemma close_shut : forall st c r x rest, fclose_line st c r = Some (x, rest) -> shut x rest.
Proof.
  intros st c r x rest H. unfold fclose_line in H. destruct r as [|e r]; [injection H as <- <-; right; reflexivity|].
  destruct (is_eol e) eqn:Ee; [injection H as <- <-; left; exists [c], e; auto|]. destruct (_ || _)%bool; [|discriminate]. injection H as <- <-. right. exact Ee.
Qed.
Lemma with_eol_shut : forall c r x rest, with_eol c r = (x, rest) -> shut x rest.
Proof.
  intros c r x rest H. unfold with_eol in H. destruct r as [|e r]; [injection H as <- <-; right; reflexivity|].
  destruct (is_eol e) eqn:Ee; injection H as <- <-; [left; exists [c], e; auto|right; exact Ee].
Qed.
Lemma coll_end_shut : forall ts c rest, fcollapsible_end ts = Some (c, rest) -> shut c rest.
Proof.
  intros ts c rest H. unfold fcollapsible_end in H. cbn [fseq] in H. destruct ts as [|t r]; [discriminate|]. destruct (is_collapsible_end t); [|discriminate].
  destruct r as [|e r]; [injection H as <- <-; right; reflexivity|]. destruct (is_eol e) eqn:Ee; injection H as <- <-; [left; exists [t], e; auto|right; exact Ee].
Qed.
Lemma bords_image : forall st ts t rest, In StopTerminator st -> fimage st ts = Some (t, rest) -> every bord t rest.
Proof.
  intros st ts t rest HS H. pose proof (fimage_wf _ _ _ _ HS H) as [W _]. unfold fimage in H. destruct ts as [|a r]; [discriminate|]. destruct (is_bang a); [|discriminate].
  destruct (ftitle st r) as [[t1 r1]|]; [|discriminate]. destruct (fdest st r1) as [[t2 r2]|]; [|discriminate].
  destruct r2 as [|e r3]; [injection H as <- <-; apply node_every; [exact W|auto|right; reflexivity]|].
  destruct (is_eol e) eqn:Ee; [injection H as <- <-; apply node_every; [exact W|auto|left; exists [], e; auto]|].
  destruct (stopped st (e :: r3)); [|discriminate]. injection H as <- <-. apply node_every; [exact W|auto|right; exact Ee].
Qed.
Lemma images_bord : forall n st ts k rest, In StopTerminator st -> length ts < n -> fimages_loop n st ts = Some (k, rest) -> everys bord k rest.
Proof.
  induction n; intros st ts k rest HS Hn H; [lia|]. cbn [fimages_loop] in H.
  destruct ts as [|t r]; [injection H as <- <-; exact I|].
  destruct (fimage st (t :: r)) as [[x r1]|] eqn:E.
  - destruct (fimages_loop n st r1) as [[k' r']|] eqn:F; [|discriminate]. injection H as <- <-.
    pose proof (covers_image _ _ _ _ E) as [Ex L].
    assert (LL : length (t :: r) = length (yield x) + length r1) by (rewrite Ex; apply app_length).
    assert (Lr : length r1 < n) by lia. pose proof (fimages_loop_app _ _ _ _ _ Lr F) as Er.
    cbn [everys]. split; [|eapply IHn; eauto]. rewrite <- Er. eapply bords_image; eauto.
  - destruct (stopped st (t :: r)); [|discriminate]. injection H as <- <-. exact I.
Qed.
Lemma bords_images : forall st ts t rest, In StopTerminator st -> fimages st ts = Some (t, rest) -> every bord t rest.
Proof.
  intros st ts t rest HS H. unfold fimages in H.
  destruct (fimages_loop (S (length ts)) st ts) as [[k r]|] eqn:F; [|discriminate]. apply images_bord in F; [|exact HS|lia].
  destruct k as [|x [|y k]]; [discriminate| |]; injection H as <- <-; [apply F|]. apply every_node. split; [exact I|exact F].
Qed.
Lemma bords_embed : bords fembed.
Proof.
  intros st ts t rest H. pose proof (makes_embed _ _ _ _ H) as [W _]. unfold fembed in H. destruct ts as [|a r]; [discriminate|]. destruct (is_left_curly2 a); [|discriminate].
  destruct (until st is_pipe r) as [[[b1 p] r1]|]; [|discriminate]. destruct (until st is_right_curly2 r1) as [[[b2 c] r2]|]; [|discriminate].
  destruct (fclose_line st c r2) as [[cl rest']|] eqn:C; [|discriminate]. injection H as <- <-. apply every_node. split; [eapply close_shut; exact C|cbn; auto].
Qed.
Lemma bords_code : bords fcode.
Proof.
  intros st ts t rest H. pose proof (makes_code _ _ _ _ H) as [W _]. unfold fcode in H. destruct (ffence ts) as [[o r]|]; [|discriminate].
  match type of H with context[let (_, _) := ?X in _] => destruct X as [k1 r1] end.
  destruct (until [] is_backtick3 r1) as [[[b c] r2]|]; [|discriminate].
  destruct (fclose_line st c r2) as [[cl rest']|] eqn:C; [|discriminate]. injection H as <- <-. apply node_every; [exact W|auto|eapply close_shut; exact C].
Qed.
Lemma hl_shut : forall n st ts k c rest, fhighlight_loop n st ts = Some (k, c, rest) -> shut c rest.
Proof.
  induction n; intros st ts k c rest H; cbn [fhighlight_loop] in H; [discriminate|]. destruct ts as [|t r]; [discriminate|]. destruct (stopped st (t :: r)); [discriminate|].
  destruct (is_two_bangs t).
  - destruct (with_eol t r) as [x r'] eqn:W. injection H as <- <- <-. eapply with_eol_shut. exact W.
  - destruct (if is_terminator t then ([Leaf [t]], r) else ([], t :: r)) as [l r1].
    destruct (fparagraph (StopTerminator :: StopHighlightEnd :: st) r1) as [par r2].
    destruct (fhighlight_loop n st r2) as [[[k' c'] r3]|] eqn:F; [|discriminate]. injection H as <- <- <-. eapply IHn. exact F.
Qed.
Lemma bords_highlight : bords fhighlight.
Proof.
  intros st ts t rest H. pose proof (makes_highlight _ _ _ _ H) as [W _]. unfold fhighlight in H.
  destruct (fseq [is_two_bangs; fun t => is_space_1 t || is_eol t] ts) as [[o r]|]; [|discriminate].
  match type of H with context[let (_, _) := ?X in _] => destruct X as [k1 r1] end.
  match type of H with context[let (_, _) := ?X in _] => destruct X as [k2 r2] end.
  destruct (nth_is 0 col0 r2); [|discriminate].
  destruct (fhighlight_loop (S (length r2)) st r2) as [[[k3 c] r3]|] eqn:F; [|discriminate].
  injection H as <- <-. apply node_every; [exact W|auto|eapply hl_shut; exact F].
Qed.
Lemma root_bare : forall n t, wf t -> root n t -> bare n = true -> forall rest, every bord t rest.
Proof. intros n t W (o & k & c & ->) B rest. apply bare_every; assumption. Qed.
Lemma fsimple_bord : forall st ts t rest, fsimple st ts = (t, rest) -> every bord t rest.
Proof.
  intros st ts t rest H. unfold fsimple in H.
  destruct (forelse flist0 (forelse fimages (forelse fbreak fheading)) (StopTerminator :: st) ts) as [[y r]|] eqn:E.
  - injection H as -> ->. orelse_cases E.
    + apply flist0_wf in E; [|left; reflexivity]. destruct E as [W (lk & k & -> & _)]. apply bare_every; [exact W|destruct lk; reflexivity].
    + eapply bords_images; [|exact E]. left. reflexivity.
    + apply makes_break in E. destruct E as [W R]. eapply root_bare; eauto.
    + apply fheading_wf in E; [|left; reflexivity]. destruct E as [W R]. eapply root_bare; eauto.
  - apply fparagraph_wf in H; [|left; reflexivity]. destruct H as [W R]. eapply root_bare; eauto.
Qed.
(** ** Stability when an opening brace is turned into text *)

Lemma shut_flips : forall c a b, flips a b -> shut c a -> shut c b.
Proof. intros c a b F [H|H]; [left; exact H|right]. rewrite (flips_nth is_eol _ _ 0 flip_eol F). exact H. Qed.
Lemma flip_marker : forall k x y, flip x y -> is_list_marker k y = is_list_marker k x.
Proof.
  intros k x y [->|[H ->]]; [reflexivity|]. unfold is_collapsible_start in H. unfold is_list_marker, list_kind_of. cbn [kind literal_of].
  destruct (kind x); try discriminate; reflexivity.
Qed.
Lemma flip_space : forall x y, flip x y -> kind_eqb (kind y) Space = kind_eqb (kind x) Space.
Proof.
  intros x y [->|[H ->]]; [reflexivity|]. unfold is_collapsible_start in H. cbn [kind literal_of]. destruct (kind x); try discriminate; reflexivity.
Qed.
Lemma line_flips : forall a b, flips a b -> list_line b = list_line a.
Proof.
  intros a b F. unfold list_line. rewrite (flips_nth col0 _ _ 0 flip_col0 F), !(flips_nth (is_list_marker None) _ _ _ (flip_marker None) F), !(flips_nth is_space_1 _ _ _ flip_space1 F), (flips_nth (fun t => kind_eqb (kind t) Space) _ _ 0 flip_space F). reflexivity.
Qed.
Lemma over_flips : forall st a b, flips a b -> list_over st a -> list_over st b.
Proof. intros st a b F [H|H]; [left; rewrite (flips_stopped st _ _ F); exact H|right; rewrite (line_flips _ _ F); exact H]. Qed.
Lemma opening_flips : forall a b, flips a b -> fseq [is_collapsible_start; is_space_or_eol] a = None -> fseq [is_collapsible_start; is_space_or_eol] b = None.
Proof.
  intros a b F H. cbn [fseq] in *. destruct F as [|x y a b Fx F]; [reflexivity|]. destruct (is_collapsible_start y) eqn:Ey; [|reflexivity].
  destruct Fx as [->|[Hx ->]]; [|discriminate Ey]. rewrite Ey in H. destruct F as [|x' y' a b Fy F]; [reflexivity|].
  assert (E : is_space_or_eol y' = is_space_or_eol x'); [|rewrite E; destruct (is_space_or_eol x'); [discriminate|reflexivity]].
  destruct Fy as [->|[Hx ->]]; [reflexivity|]. unfold is_collapsible_start in Hx. unfold is_space_or_eol. cbn [kind literal_of]. destruct (kind x'); try discriminate; reflexivity.
Qed.
Lemma kid_flips : forall st t a b, flips a b -> kid st t a -> kid st t b.
Proof.
  intros st t a b F H. destruct t as [| |n o k c]; try exact I. destruct H as (H1 & H2 & H3 & H4 & H5). split; [|split; [|split; [|split]]].
  - intros E. rewrite (flips_stopped _ _ _ F). auto.
  - intros E. eapply over_flips; eauto.
  - exact H3.
  - exact H4.
  - intros E. eapply opening_flips; [|apply H5; exact E]. apply flips_app; [apply flips_refl|exact F].
Qed.
Lemma kids_flips : forall st k a b, flips a b -> kids st k a -> kids st k b.
Proof.
  intros st. induction k as [|t k IH]; intros a b F H; [exact I|]. destruct H as [H1 H2]. split; [|eapply IH; eauto]. eapply kid_flips; [|exact H1]. apply flips_app; [apply flips_refl|exact F].
Qed.
Lemma bord_flips : forall n o k c a b, flips a b -> bord n o k c a -> bord n o k c b.
Proof.
  intros n o k c a b F H. destruct n; cbn [bord] in *; try exact H; try (eapply shut_flips; eauto; fail).
  2: { intros ->. apply H. inversion F. reflexivity. }
  destruct H as [H1 (k1 & k2 & k3 & E & O & E3 & C & K)]. split; [eapply shut_flips; eauto|]. exists k1, k2, k3. repeat split; try assumption.
  eapply kids_flips; [|exact K]. apply flips_app; [apply flips_refl|]. apply flips_app; [apply flips_refl|exact F].
Qed.
Lemma every_bord_flips : forall t a b, flips a b -> every bord t a -> every bord t b.
Proof.
  induction t as [ts|ts|n o k c IH] using tree_ind'; intros a b F T; try exact I.
  apply every_node in T. destruct T as [T K]. apply every_node. split; [eapply bord_flips; eauto|].
  clear T. induction k as [|t k IHk]; [exact I|]. inversion IH as [|? ? H1 H2]; subst. destruct K as [K1 K2]. split; [|apply IHk; assumption].
  eapply H1; [|exact K1]. apply flips_app; [apply flips_refl|]. apply flips_app; [apply flips_refl|exact F].
Qed.

(** ** The blocks of a document *)

Definition same_stops (a b : list stop_condition) : Prop := forall c, In c a <-> In c b.
Lemma existsb_same : forall (A : Type) (f : A -> bool) a b, (forall c, In c a <-> In c b) -> existsb f a = existsb f b.
Proof.
  intros A f a b H. destruct (existsb f a) eqn:E; symmetry.
  - apply existsb_exists in E. destruct E as (c & C1 & C2). apply existsb_exists. exists c. split; [apply H; exact C1|exact C2].
  - destruct (existsb f b) eqn:E'; [|reflexivity]. apply existsb_exists in E'. destruct E' as (c & C1 & C2).
    assert (X : existsb f a = true) by (apply existsb_exists; exists c; split; [apply H; exact C1|exact C2]). congruence.
Qed.
Lemma stopped_same : forall a b r, same_stops a b -> stopped a r = stopped b r.
Proof. intros a b [|t r] H; [reflexivity|]. cbn [stopped]. apply existsb_same. exact H. Qed.
Lemma same_cons : forall c a b, same_stops a b -> same_stops (c :: a) (c :: b).
Proof. intros c a b H x. cbn. rewrite (H x). tauto. Qed.
Lemma calm_same : forall st, calm st -> same_stops (StopCollapsibleEnd :: st) [StopCollapsibleEnd].
Proof.
  intros st C x. cbn. split; [|intros [->|[]]; left; reflexivity]. intros [->|H]; [left; reflexivity|]. unfold calm in C. rewrite Forall_forall in C. left. symmetry. symmetry. apply C. exact H.
Qed.
Lemma kid_same : forall a b t r, same_stops a b -> kid a t r -> kid b t r.
Proof.
  intros a b t r S H. destruct t as [| |n o k c]; try exact I. destruct H as (H1 & H2 & H3 & H4 & H5). split; [|split; [|split; [|split]]].
  - intros E. rewrite <- (stopped_same _ _ _ (same_cons StopTerminator _ _ S)). auto.
  - intros E. destruct (H2 E) as [X|X]; [left|right; exact X]. rewrite <- (stopped_same _ _ _ (same_cons StopTerminator _ _ S)). exact X.
  - intros E. apply H3. apply S. exact E.
  - intros E E2. apply H4; [exact E|]. apply S. exact E2.
  - exact H5.
Qed.
Lemma kids_same : forall a b k r, same_stops a b -> kids a k r -> kids b k r.
Proof. intros a b k r S. induction k as [|t k IH]; intros H; [exact I|]. destruct H as [H1 H2]. split; [eapply kid_same; eauto|auto]. Qed.

Lemma kid_code : forall st ts t rest, fcode st ts = Some (t, rest) -> kid st t rest.
Proof.
  intros st ts t rest H. assert (O : fseq [is_collapsible_start; is_space_or_eol] (yield t ++ rest) = None).
  { pose proof (covers_code _ _ _ _ H) as [<- _]. unfold fcode, ffence in H. destruct ts as [|a ts]; [reflexivity|]. cbn [fseq] in *.
    destruct (is_backtick3 a) eqn:B; [|discriminate]. unfold is_backtick3 in B. unfold is_collapsible_start. destruct (kind a); try discriminate; reflexivity. }
  apply makes_code in H. destruct H as [_ (o & k & c & ->)].
  split; [discriminate|]. split; [discriminate|]. split; [congruence|]. split; [discriminate|auto].
Qed.
Lemma kid_embed_hl : forall st ts t rest, fseq [is_collapsible_start; is_space_or_eol] ts = None -> ts = yield t ++ rest -> forelse fembed fhighlight st ts = Some (t, rest) -> kid st t rest.
Proof.
  intros st ts t rest O Y H. rewrite Y in O. orelse_cases H.
  - pose proof (hushes_embed st ts t rest) as Q. pose proof H as H'. apply makes_embed in H. destruct H as [_ (o & k & c & ->)].
    split; [discriminate|]. split; [discriminate|]. split; [intros; apply Q; auto|]. split; [discriminate|auto].
  - pose proof (hushes_highlight st ts t rest) as Q. pose proof H as H'. apply makes_highlight in H. destruct H as [_ (o & k & c & ->)].
    split; [discriminate|]. split; [discriminate|]. split; [intros; apply Q; auto|]. split; [discriminate|auto].
Qed.
Lemma coll_fail_opening : forall n st ts ts', 1 <= n -> fcollapsible n st ts = CFail ts' -> fseq [is_collapsible_start; is_space_or_eol] ts' = None.
Proof.
  intros [|n] st ts ts' L H; [lia|]. cbn [fcollapsible] in H. destruct (fseq [is_collapsible_start; is_space_or_eol] ts) as [[o r]|] eqn:Q; [|injection H as <-; exact Q].
  assert (X : forall l, fseq [is_collapsible_start; is_space_or_eol] (flip_head l) = None) by (intros [|t l]; reflexivity).
  destruct (opt_tree (fmodifier st r) r) as [k1 r1]. destruct (nth_is 0 col0 r1); [|injection H as <-; apply X].
  destruct (fdoc n (StopCollapsibleEnd :: st) r1) as [k2 r2].
  destruct (match r2 with
            | e :: r3 => if is_eol e then ([Skip [e]], r3) else ([], r2)
            | [] => ([], r2) end) as [k3 r3].
  destruct (fcollapsible_end r3) as [[c rest]|]; [discriminate|]. injection H as <-. apply X.
Qed.
Lemma kid_simple : forall st ts t rest, fseq [is_collapsible_start; is_space_or_eol] ts = None -> ts = yield t ++ rest -> fsimple st ts = (t, rest) -> kid st t rest.
Proof.
  intros st ts t rest O Y H. rewrite Y in O. pose proof (fsimple_hush st ts t rest) as Q. pose proof H as H0. unfold fsimple in H.
  destruct (forelse flist0 (forelse fimages (forelse fbreak fheading)) (StopTerminator :: st) ts) as [[y r]|] eqn:E.
  - injection H as -> ->. orelse_cases E.
    + assert (L : list_over (StopTerminator :: st) rest).
      { unfold flist0 in E. destruct (flist _ _ _ _) as [[[mk x] r]|] eqn:F; [|discriminate]. injection E as <- <-. eapply (proj1 (proj2 (lists_over _))). exact F. }
      apply flist0_wf in E; [|left; reflexivity]. destruct E as [W (lk & k & -> & _)]. destruct lk; (split; [discriminate|]; split; [intros; exact L|]; split; [intros; apply Q; auto|]; split; [discriminate|auto]).
    + assert (L : stopped (StopTerminator :: st) rest = true).
      { unfold fimages in E. destruct (fimages_loop _ _ _) as [[k r]|] eqn:F; [|discriminate]. apply images_stopped in F. destruct k as [|x [|z k]]; [discriminate| |]; injection E as <- <-; exact F. }
      apply fimages_wf in E; [|left; reflexivity]. destruct E as [W [R|R]]; destruct R as (o & k & c & ->); (split; [intros; exact L|]; split; [discriminate|]; split; [intros; apply Q; auto|]; split; [discriminate|auto]).
    + apply makes_break in E. destruct E as [W (o & k & c & ->)]. split; [discriminate|]; split; [discriminate|]; split; [intros; apply Q; auto|]; split; [discriminate|auto].
    + pose proof (heading_stopped _ _ _ _ E) as L. apply fheading_wf in E; [|left; reflexivity]. destruct E as [W (o & k & c & ->)].
      split; [intros; exact L|]; split; [discriminate|]; split; [intros; apply Q; auto|]; split; [discriminate|auto].
  - pose proof (fparagraph_stopped _ _ _ _ H) as L. pose proof (fparagraph_wf (StopTerminator :: st) _ _ _ (or_introl eq_refl) H) as [W (o & k & c & ->)].
    split; [intros; exact L|]. split; [discriminate|]. split; [intros; apply Q; auto|]. split; [discriminate|auto].
Qed.

Lemma nth0_app : forall f (a b : list token), 1 <= length a -> nth_is 0 f (a ++ b) = nth_is 0 f a.
Proof. intros f [|t a] b L; [cbn in L; lia|reflexivity]. Qed.
Lemma awake_last : forall st c rest b, awake st (b ++ [c]) rest -> stopped st (c :: rest) = false.
Proof. induction b as [|t b IH]; intros [A1 A2]; [exact A1|auto]. Qed.

Lemma docs_bord : forall n,
  (forall src st ts k rest, calm st -> 3 * length ts < n -> vtok src ts -> fdoc n st ts = (k, rest) -> everys bord k rest /\ kids st k rest)
  /\ (forall src st ts t rest, calm st -> ts <> [] -> 3 * length ts <= n -> vtok src ts -> fcollapsible n st ts = CMatch t rest -> every bord t rest /\ kid st t rest).
Proof.
  induction n as [n IHn] using lt_wf_ind. destruct n.
  { split; intros; cbn in *; [lia|discriminate]. }
  destruct (IHn n (Nat.lt_succ_diag_r n)) as [ID IC].
  assert (DF : forall src st ts k rest, 3 * length ts < n -> vtok src ts -> fdoc n st ts = (k, rest) -> flips ts (yields k ++ rest)).
  { intros src st ts k rest Hn V H. destruct (docs_ok (S (3 * length ts)) n) as [D _].
    specialize (D src [] ts st [] ltac:(lia) Hn V). unfold doc_ok in D. rewrite H in D. apply D. }
  split.
  - intros src st ts k rest C Hn V H. cbn [fdoc] in H. destruct ts as [|t r]; [injection H as <- <-; split; exact I|].
    destruct (stopped st (t :: r)) eqn:S0; [injection H as <- <-; split; exact I|].
    assert (G : forall X, (let '(x, r1) := X in (every bord x r1 /\ kid st x r1) /\ flips (t :: r) (yield x ++ r1) /\ 1 <= length (yield x)) ->
              (let '(x, r1) := X in let (k, r2) := fdoc n st r1 in (x :: k, r2)) = (k, rest) -> everys bord k rest /\ kids st k rest).
    { intros [x r1] ([Tx Bx] & Fx & Lx) E. destruct (fdoc n st r1) as [k' r2] eqn:F. injection E as <- <-.
      pose proof (flips_length _ _ Fx) as LL. rewrite app_length in LL.
      assert (Ln : 3 * length r1 < n) by lia.
      assert (V1 : vtok src r1) by (pose proof (flips_vtok src _ _ Fx V) as V1; apply Forall_app in V1; apply V1).
      destruct (ID _ _ _ _ _ C Ln V1 F) as [I1 I2]. pose proof (DF _ _ _ _ _ Ln V1 F) as F1. split; [split; [|exact I1]; eapply every_bord_flips; eauto|]. split; [|exact I2]. eapply kid_flips; eauto. }
    refine (G _ _ H). clear G H.
    destruct (is_terminator t) eqn:T.
    { split; [split; exact I|]. split; [apply flips_refl|cbn; lia]. }
    destruct (fcode st (t :: r)) as [[y r1]|] eqn:E1.
    { pose proof (covers_code _ _ _ _ E1) as [Ey Ly]. pose proof (kid_code _ _ _ _ E1) as By. apply bords_code in E1. split; [split; assumption|]. split; [rewrite <- Ey; apply flips_refl|exact Ly]. }
    assert (Ln : 3 * length (t :: r) <= n) by (cbn [length] in *; lia).
    destruct (docs_ok (3 * length (t :: r)) n) as [_ CO].
    specialize (CO src [] (t :: r) st [] ltac:(discriminate) ltac:(lia) Ln V). unfold coll_ok in CO.
    destruct (fcollapsible n st (t :: r)) as [y r1|ts'] eqn:E2.
    { destruct CO as (Fy & Ly & _). split; [|split; [exact Fy|exact Ly]]. eapply (IC src st (t :: r)); eauto; discriminate. }
    destruct CO as [F2 _].
    destruct (forelse fembed fhighlight st ts') as [[y r1]|] eqn:E3.
    { pose proof (covers_orelse _ _ covers_embed covers_highlight _ _ _ _ E3) as [Ey Ly]. rewrite Ey in F2. split; [|auto]. split; [|eapply kid_embed_hl; [|exact Ey|exact E3]; eapply coll_fail_opening; [|exact E2]; cbn [length] in Ln; lia].
      orelse_cases E3; [eapply bords_embed; eauto|eapply bords_highlight; eauto]. }
    destruct (fsimple st ts') as [y r1] eqn:E4.
    assert (V' : vtok src ts') by (eapply flips_vtok; eauto).
    pose proof (simple_block_ST src [] ts' st [] y r1 V' E4) as [Ey _].
    split; [split; [eapply fsimple_bord; eauto|]|].
    { eapply kid_simple; [|exact Ey|exact E4]. eapply coll_fail_opening; [|exact E2]. cbn [length] in Ln. lia. }
    split; [rewrite <- Ey; exact F2|]. eapply fsimple_progress; [exact E4|rewrite (flips_stopped st _ _ F2); exact S0|].
    rewrite (flips_nth is_terminator _ _ 0 flip_terminator F2). exact T.
  - intros src st ts t rest C NE Hn V H. cbn [fcollapsible] in H.
    destruct (fseq [is_collapsible_start; is_space_or_eol] ts) as [[o r]|] eqn:Q; [|discriminate].
    apply fseq_app in Q. destruct Q as (-> & Lo & _). simpl in Lo.
    destruct (opt_tree (fmodifier st r) r) as [k1 r1] eqn:K1.
    pose proof (opt_tree_app _ _ _ _ _ covers_modifier K1) as Er.
    destruct (nth_is 0 col0 r1) eqn:C1; [|discriminate].
    destruct (fdoc n (StopCollapsibleEnd :: st) r1) as [k2 r2] eqn:D.
    destruct (match r2 with
              | e :: r3 => if is_eol e then ([Skip [e]], r3) else ([], r2)
              | [] => ([], r2) end) as [k3 r3] eqn:K3.
    destruct (fcollapsible_end r3) as [[c rest']|] eqn:CE; [|discriminate]. injection H as <- <-.
    pose proof (coll_end_shut _ _ _ CE) as Sh.
    apply fcollapsible_end_app in CE. destruct CE as [-> Lc].
    assert (L1 : 3 * length r1 < n).
    { subst r. rewrite !app_length in Hn. lia. }
    assert (V1 : vtok src r1).
    { subst r. apply Forall_app in V. destruct V as [_ V]. apply Forall_app in V. apply V. }
    pose proof (ID _ _ _ _ _ (Forall_cons _ eq_refl C) L1 V1 D) as [T2 B2].
    pose proof (DF _ _ _ _ _ L1 V1 D) as FD.
    assert (K3' : r2 = yields k3 ++ c ++ rest' /\ (k3 = [] \/ exists e, k3 = [Skip [e]]) /\ forall a, everys bord k3 a).
    { destruct r2 as [|e r2']; [injection K3 as <- <-; split; auto; split; [left; reflexivity|intros; exact I]|].
      destruct (is_eol e); injection K3 as <- E3; [|subst; split; auto; split; [left; reflexivity|intros; exact I]]. subst. split; [reflexivity|]. split; [right; eauto|intros; split; exact I]. }
    destruct K3' as (E3 & S3 & B3).
    assert (M : opt_root NModifier k1 /\ forall a, everys bord k1 a).
    { destruct (fmodifier st r) as [[x y]|] eqn:E; injection K1 as <- <-; [|split; [left; reflexivity|intros; exact I]].
      apply makes_modifier in E. destruct E as [W R]. split; [right; exists x; auto|]. intros a. split; [|exact I]. eapply root_bare; eauto. }
    destruct M as [M1 M2].
    assert (CC : nth_is 0 col0 (yields k2 ++ yields k3 ++ c) = true).
    { rewrite <- (flips_nth col0 _ _ 0 flip_col0 FD), E3 in C1. revert C1 Lc. rewrite !app_assoc. intros C1 Lc. rewrite nth0_app in C1; [exact C1|]. rewrite !app_length. lia. }
    split.
    + apply every_node. split; [|apply everys_app; split; [apply M2|split; [|apply B3]]].
      * split; [exact Sh|]. exists k1, k2, k3. repeat split; try assumption. rewrite <- E3. eapply kids_same; [|exact B2]. apply calm_same. exact C.
      * apply every_node. cbn [app]. rewrite <- E3. split; [|exact T2]. intros X. exfalso. rewrite X in E3. apply (f_equal (@length _)) in E3. rewrite !app_length in E3. cbn [length] in E3. lia.
    + split; [discriminate|]. split; [discriminate|]. split; [congruence|]. split; [|congruence].
      intros _ HC o' b e k' EK Ee.
      destruct (fmodifier st r) as [[x y]|] eqn:E; injection K1 as <- <-; [|discriminate EK].
      unfold fmodifier in E. destruct (nth_is 0 col0 r); [discriminate|]. destruct (until st is_eol_or_terminator r) as [[[b' c'] r']|] eqn:U; [|discriminate].
      injection E as <- <-. cbn [app] in EK. injection EK as <- <- <- <-. apply until_awake in U. destruct U as [U _]. apply awake_last in U.
      assert (X : nth_is 0 is_collapsible_end r' = false).
      { destruct (nth_is 0 is_collapsible_end r') eqn:X; [|reflexivity]. exfalso. cbn [stopped] in U.
        assert (Z : existsb (fun c => fmatches c (c' :: r')) st = true); [|congruence]. apply existsb_exists. exists StopCollapsibleEnd. split; [exact HC|]. cbn [fmatches]. unfold nth_is in *. cbn [nth_error is_some_and] in *. rewrite Ee, X. apply orb_true_r. }
      rewrite <- (flips_nth is_collapsible_end _ _ 0 flip_collapsible_end FD), E3, !app_assoc in X. rewrite nth0_app in X by (rewrite !app_length; lia).
      unfold yields in *. cbn [flat_map yield app]. rewrite app_nil_r. exact X.
Qed.

(** ** The whole source *)
Theorem fparse_bord : forall s, everys bord (fparse (spec_tokens s)) [].
Proof.
  intros s. pose proof (vtok_lex s) as V. revert V. generalize (spec_tokens s). intros ts V. unfold fparse.
  destruct (opt_tree (fmetadata [] ts) ts) as [k1 r1] eqn:K1. pose proof (opt_tree_app _ _ _ _ _ (covers_delim _ _ _) K1) as E1.
  assert (V1 : vtok s r1) by (subst ts; apply Forall_app in V; apply V).
  destruct (fdoc (3 * length r1 + 5) [] r1) as [k2 r2] eqn:D.
  assert (r2 = []) as ->.
  { destruct (docs_ok (3 * length r1 + 5) (3 * length r1 + 5)) as [DO _]. specialize (DO s [] r1 [] [] ltac:(lia) ltac:(lia) V1).
    unfold doc_ok in DO. rewrite D in DO. destruct DO as (_ & S0 & _). destruct r2; [reflexivity|discriminate]. }
  apply (proj1 (docs_bord _)) with (src := s) in D; [|constructor|lia|exact V1]. destruct D as [D1 D2].
  assert (M : opt_root NMetadata k1 /\ forall a, everys bord k1 a).
  { destruct (fmetadata [] ts) as [[x y]|] eqn:E; injection K1 as <- <-; [|split; [left; reflexivity|intros; exact I]].
    apply makes_metadata in E. destruct E as [W R]. split; [right; exists x; auto|]. intros a. split; [|exact I]. eapply root_bare; eauto. }
  destruct M as [M1 M2]. apply everys_app. split; [apply M2|]. split; [|exact I]. apply every_node. split; [intros _; exact D2|exact D1].
Qed.
