(** Blocks that are read back from what [Display] writes for them are tame: headings. *)
From Coq Require Import String Bool.
From Verif Require Import Base Lexer LexSpec LexProofs LexFacts Ops Parser FParser Refine Refine2 Refine3 Wf TokFacts StreamSpec Lines ToYamd TreeAst Ast Api AstSpec AstProofs Tame Settled Mild Runs Units ULex Stops Inline LinkUnits AstUnits Calm Blocks Docs Highlight Lists UBlocks UList UDocs Unsettled UnsettledHl Span Written UnsettledDoc BackInline BackPar.
From Verif Require RawTree RawAst RawLinks StreamProofs RawLex.
Open Scope list_scope.

(** ** Brackets *)

Definition btok (s : str) (t : token) : Prop :=
  ttext s t <> [] /\ (forall c k, RawLinks.bracket c k -> In c (ttext s t) -> kind t = k /\ ttext s t = [c] /\ tlen t = 1)
  /\ (is_right_bracket t = true -> In c_rsquare (ttext s t)).
Definition btoks (s : str) (ts : list token) : Prop := Forall (btok s) ts.
Definition leaves (s : str) (k : list tree) : Prop := Forall (fun t => match t with Leaf b => btoks s b | _ => True end) k.
Lemma btoks_app : forall s a b, btoks s (a ++ b) -> btoks s a /\ btoks s b.
Proof. intros s a b H. apply Forall_app in H. exact H. Qed.
Lemma bracket_at : forall s ts x y c k, RawLinks.bracket c k -> btoks s ts -> ttexts s ts = x ++ c :: y ->
  exists a t b, ts = a ++ t :: b /\ kind t = k /\ tlen t = 1 /\ ttexts s a = x /\ ttexts s b = y.
Proof.
  intros s ts x y c k B. revert x y. induction ts as [|t ts IH]; intros x y L E; [destruct x; discriminate|].
  inversion L as [|? ? (O & R & _) L']; subst. rewrite ttexts_cons in E. apply RawLex.app_eq_mid in E. destruct E as [(z & -> & E)|(z & E & ->)].
  - destruct (IH _ _ L' E) as (a & u & b & -> & K & T & <- & <-). exists (t :: a), u, b. repeat split; auto.
  - assert (Hi : In c (ttext s t)) by (rewrite E; apply in_or_app; right; left; reflexivity).
    destruct (R c k B Hi) as (K & Y & T). rewrite Y in E. destruct x as [|? [|? ?]]; try discriminate. injection E as <-. exists [], t, ts. repeat split; auto.
Qed.
Lemma no_rsquare_at : forall s ts, btoks s ts -> ~ In c_rsquare (ttexts s ts) -> free is_right_bracket ts.
Proof.
  intros s ts L H. apply Forall_forall. intros t Ht. destruct (is_right_bracket t) eqn:E; [|reflexivity]. exfalso. apply H. apply in_flat_map. exists t. split; [exact Ht|].
  unfold btoks in L. rewrite Forall_forall in L. apply (L t Ht). exact E.
Qed.
Lemma no_text_at : forall s ts, btoks s ts -> ttexts s ts = [] -> ts = [].
Proof.
  intros s [|t ts] L E; [reflexivity|]. exfalso. inversion L as [|? ? (O & _) _]; subst. rewrite ttexts_cons in E. apply app_eq_nil in E. destruct E as [E _]. congruence.
Qed.
Lemma units_linkless : forall s k rest, Forall wf k -> items in_heading k -> leaves s k -> everys tight k rest -> none_missed opens_anchor k ->
  linkless (flat_map (head_of s) k).
Proof.
  intros s k rest. induction k as [|t k IH]; intros W It L T N; [exact I|]. apply items_cons_inv in It. destruct It as [It Ik]. inversion W as [|? ? W1 W2]; subst. destruct T as [T1 T2].
  inversion L as [|? ? L1 L2]; subst.
  destruct t as [b|ts|n o kk c]; [|contradiction|].
  2:{ destruct n; try discriminate It. cbn. apply IH; auto. }
  cbn [none_missed] in N. destruct N as [N0 N]. specialize (IH W2 Ik L2 T2 N). cbn [flat_map head_of app linkless]. split; [|exact IH].
  assert (Hk : k = [] \/ exists o kk c k', k = Node NAnchor o kk c :: k').
  { destruct k as [|[b2|ts2|n o kk c] k]; [left; reflexivity|destruct It; contradiction|destruct Ik|]. destruct Ik as [Ik _]. destruct n; try discriminate Ik. right. eauto 6. }
  intros (a & t & u & v & E & Ln & Nt).
  destruct Hk as [->|(o & kk & c & k' & ->)].
  - cbn [flat_map] in E. rewrite app_nil_r in E.
    destruct (bracket_at s b a _ c_lsquare _ ltac:(left; split; reflexivity) L1 E) as (b1 & x1 & b2 & -> & K1 & T1' & E1 & E2). apply btoks_app in L1. destruct L1 as [_ L1].
    apply (btoks_app _ [x1]) in L1. destruct L1 as [_ L1].
    destruct (bracket_at s b2 t _ c_rsquare _ ltac:(right; left; split; reflexivity) L1 E2) as (b3 & x2 & b4 & -> & K2 & T2' & E3 & E4).
    pose proof (btoks_app _ _ _ L1) as [L3 L4]. apply (btoks_app _ [x2]) in L4. destruct L4 as [_ L4].
    destruct (bracket_at s b4 [] _ c_lparen _ ltac:(right; right; left; split; reflexivity) L4 E4) as (b5 & x3 & b6 & -> & K3 & T3' & E5 & E6).
    pose proof (btoks_app _ _ _ L4) as [L5 L6]. apply (no_text_at s b5 L5) in E5. subst b5. apply (btoks_app _ [x3]) in L6. destruct L6 as [_ L6]. cbn [app] in *.
    destruct (bracket_at s b6 u _ c_rparen _ ltac:(right; right; right; split; reflexivity) L6 E6) as (b7 & x4 & b8 & -> & K4 & T4' & E7 & E8).
    apply (N0 b1 (x1 :: b3 ++ x2 :: x3 :: b7 ++ x4 :: b8) eq_refl ltac:(discriminate)). cbn [yields flat_map]. rewrite app_nil_r.
    exists x1, b3, x2, x3, b7, x4, b8. split; [reflexivity|]. split; [apply RawLinks.bracket_test; assumption|]. split; [apply (no_rsquare_at s); [exact L3|rewrite E3; exact Nt]|].
    split; [apply RawLinks.bracket_test; assumption|]. split; [apply RawLinks.bracket_test; assumption|exact K4].
  - cbn [flat_map head_of app] in E. destruct T2 as [T2 _]. inversion W2 as [|? ? Wa _]; subst.
    destruct (RawLinks.anchor_tokens _ _ _ _ Wa T2) as (w & bb & vv & pp & dd & qq & Ey & Kw & Fb & Kv & Kp & Kq).
    assert (Ea : exists z, ttexts s b = a ++ c_lsquare :: z /\ z ++ [c_lsquare; c_rsquare; c_lparen; c_rparen] = t ++ c_rsquare :: c_lparen :: u ++ c_rparen :: v).
    { apply RawLex.app_eq_mid in E. destruct E as [(z & -> & _)|(z & E1 & E2)]; [rewrite app_length in Ln; lia|]. exists z. auto. }
    destruct Ea as (z & E1 & E2). 
    destruct (bracket_at s b a _ c_lsquare _ ltac:(left; split; reflexivity) L1 E1) as (b1 & x1 & b2 & -> & K1 & T1' & E1' & E2'). apply btoks_app in L1. destruct L1 as [_ L1].
    apply (btoks_app _ [x1]) in L1. destruct L1 as [_ L1]. subst z.
    apply RawLex.app_eq_mid in E2. destruct E2 as [(z & -> & _)|(z & E2 & E3)].
    + apply (N0 b1 (x1 :: b2) eq_refl ltac:(discriminate)). cbn [yields flat_map]. rewrite Ey. fold (yields k').
      exists x1, (b2 ++ w :: bb), vv, pp, dd, qq, (yields k'). split; [repeat (cbn [app]; rewrite <- app_assoc); reflexivity|]. split; [apply RawLinks.bracket_test; assumption|].
      split; [|auto]. apply Forall_app. split; [apply (no_rsquare_at s); [exact L1|intros X; apply Nt; apply in_or_app; left; exact X]|].
      constructor; [exact Kw|exact Fb].
    + destruct (bracket_at s b2 t _ c_rsquare _ ltac:(right; left; split; reflexivity) L1 E2) as (b3 & x2 & b4 & -> & K2 & T2' & E5 & E6).
      pose proof (btoks_app _ _ _ L1) as [L3 L4]. apply (btoks_app _ [x2]) in L4. destruct L4 as [_ L4]. subst z.
      destruct (ttexts s b4) as [|y z] eqn:E4; [discriminate E3|]. cbn [app] in E3. injection E3 as <- E3.
      destruct (bracket_at s b4 [] _ c_lparen _ ltac:(right; right; left; split; reflexivity) L4 E4) as (b5 & x3 & b6 & -> & K3 & T3' & E7 & E8).
      pose proof (btoks_app _ _ _ L4) as [L5 _]. apply (no_text_at s b5 L5) in E7. subst b5. cbn [app] in *.
      apply (N0 b1 (x1 :: b3 ++ x2 :: x3 :: b6) eq_refl ltac:(discriminate)). cbn [yields flat_map]. rewrite Ey. fold (yields k').
      exists x1, b3, x2, x3, (b6 ++ w :: bb ++ vv :: pp :: dd), qq, (yields k'). split; [repeat (cbn [app]; rewrite <- app_assoc); reflexivity|].
      split; [apply RawLinks.bracket_test; assumption|]. split; [apply (no_rsquare_at s); [exact L3|rewrite E5; exact Nt]|].
      split; [apply RawLinks.bracket_test; assumption|]. split; [apply RawLinks.bracket_test; assumption|exact Kq].
Qed.

(** The tokens of texts in which brackets are not escaped. *)
Lemma bracket_single : forall c k, RawLinks.bracket c k -> single_kind c = Some k /\ utf8_len c = 1.
Proof. intros c k [[-> ->]|[[-> ->]|[[-> ->]|[-> ->]]]]; split; reflexivity. Qed.
Lemma btoks_units : forall s d b r U R, cov s b (d ++ r) (U ++ R) -> ttexts s d = chars U -> (forall c k, RawLinks.bracket c k -> ~ In (escd c) U) -> btoks s d.
Proof.
  intros s d b r U R H E N. apply Forall_forall. intros t Ht. apply in_split in Ht. destruct Ht as (d1 & d2 & ->). destruct (token_in _ _ _ _ _ _ _ _ H E) as (A & g & C & -> & G & T & L & Ut & _). split; [|split].
  - rewrite T. destruct g; [|discriminate]. exfalso. destruct (kind t); cbn in G; try (destruct G as (c & m & _ & X); discriminate X); try discriminate G; destruct G as (u & g' & X & _); discriminate X.
  - intros c k B Hc. destruct (bracket_single c k B) as [Sk U1]. rewrite T in Hc. assert (X : In (raw c) g).
    { clear - Hc N B. assert (Ng : ~ In (escd c) g) by (intros X; apply (N c k B); apply in_or_app; right; apply in_or_app; left; exact X). clear N. induction g as [|[e d] g IH]; [destruct Hc|]. cbn [chars snd] in Hc. destruct Hc as [->|Hc].
      - destruct e; [exfalso; apply Ng; left; reflexivity|left; reflexivity].
      - right. apply IH; [exact Hc|]. intros X. apply Ng. right. exact X. }
    pose proof (single_group _ _ _ _ G X Sk) as K. split; [exact K|]. assert (Eg : g = [raw c]).
    { destruct (single_kind_char _ _ Sk) as (K1 & K2 & K3 & K4 & K5 & K6). rewrite K in G. assert (Y : exists m, g = repeat (raw c) (S m)) by (destruct k; cbn in G, K1; try congruence; destruct G as (c' & m & Y1 & ->); assert (c' = c) by congruence; subst; exists m; reflexivity). destruct Y as (m & ->).
      pose proof (utok_single c k (repeat (raw c) m ++ C ++ R) Sk) as U2. cbn [repeat app] in Ut, U2. rewrite Ut in U2. injection U2 as _ U2 _. destruct m; [reflexivity|discriminate U2]. }
    subst g. rewrite T, L. cbn. split; [reflexivity|]. rewrite U1. reflexivity.
  - intros K. unfold is_right_bracket in K. apply andb_true_iff in K. destruct K as [K _]. apply kind_eqb_eq in K. rewrite K in G. cbn in G. destruct G as (c & m & Y & ->). injection Y as <-. rewrite T. left. reflexivity.
Qed.
Lemma u_htext_plain : forall x c k, RawLinks.bracket c k -> ~ In (escd c) (u_htext x).
Proof. intros x c k [[-> _]|[[-> _]|[[-> _]|[-> _]]]]; unfold u_htext; noesc. Qed.
Lemma leaves_units : forall s k b r R, Forall wf k -> items in_heading k -> cov s b (yields k ++ r) (u_heads (flat_map (head_of s) k) ++ R) -> leaves s k.
Proof.
  intros s k. induction k as [|t k IH]; intros b r R W It H; [constructor|]. pose proof (cov_gtok _ _ _ _ _ H) as G. apply items_cons_inv in It. destruct It as [It Ik]. inversion W as [|? ? W1 W2]; subst.
  assert (E1 : ttexts s (yield t) = chars (u_heads (head_of s t))).
  { pose proof (heads_text s [t]) as X. cbn [yields flat_map] in X. rewrite !app_nil_r in X. apply X; [constructor; [exact W1|constructor]| |cbn [yields flat_map] in G; apply Forall_app in G; apply G].
    destruct t; cbn; tauto. }
  cbn [yields flat_map] in H. rewrite <- app_assoc in H. unfold u_heads in H. rewrite map_app, uflats_app, <- app_assoc in H. fold (u_heads (head_of s t)) in H.
  constructor; [|exact (IH _ _ _ W2 Ik (span _ _ _ _ _ _ H E1))]. destruct t as [d|d|n o kk c]; auto. cbn [head_of] in H, E1. unfold u_heads, uflats in H, E1. cbn [map flat_map u_head uflat] in H, E1. rewrite app_nil_r in H, E1. cbn [yield] in H, E1.
  apply (btoks_units s d b _ _ _ H E1). apply u_htext_plain.
Qed.

(** ** Headings *)

Lemma heading_back : forall coll n k l, (n <> 0 <-> coll = true) -> back coll n (YHeading k l).
Proof.
  intros coll n k0 l0 Hn s ts B fuel x r L C TB Hf NS NC E Bx.
  assert (X : exists ts', fcollapsible fuel (cst n) ts = CFail ts' /\ flips ts ts' /\ fheading (StopTerminator :: cst n) ts' = Some (x, r)).
  { pose proof (fblock_from _ _ _ _ _ E) as F. destruct F as [F|[F|(ts' & F1 & F2 & [F|[F|[F|[F|[F|[F|F]]]]]])]]; eauto; by_root; discriminate Bx. }
  destruct X as (ts' & E1 & Fl & EP). destruct (RawTree.heading_awake _ _ _ _ EP) as (o & k & Ex & Aw & St). pose proof (covers_heading _ _ _ _ EP) as [Ets _]. pose proof EP as W. apply fheading_wf in W; [|left; reflexivity]. destruct W as [W _].
  pose proof (snugs_heading _ _ _ _ EP r) as Sn.
  subst x. cbn [yield] in Ets. change (flat_map yield) with yields in Ets. rewrite app_nil_r in Ets. inversion W as [| |? ? ? ? Wk Sh]; subst. cbn [blocks] in Bx. assert (k0 = count_hashes (ttexts s o) /\ l0 = flat_map (head_of s) k) as [-> ->] by (split; congruence).
  pose proof (flips_linked _ _ _ Fl L) as L'. rewrite <- app_assoc in L'. apply linked_app in L'. destruct L' as [Lo Lk]. apply linked_app in Lk. destruct Lk as [Lk _]. destruct Sh as (So & _ & It & _).
  pose proof (heading_level s o Lo So) as Lv. pose proof (head_items s k Wk Lk It) as [No1 No2]. set (l := flat_map (head_of s) k) in *. set (m := count_hashes (ttexts s o)) in *. cbn [u_block] in *.
  assert (Et : ts = (o ++ yields k) ++ r).
  { destruct m as [|m]; [lia|]. cbn [repeat app] in C. destruct (cov_cons_inv _ _ _ _ C) as (t & ts1 & ->); [discriminate|]. rewrite (fcoll_none _ _ _ _ _ _ _ C) in E1; [congruence|reflexivity]. }
  subst ts. rewrite <- !app_assoc in C.
  assert (To : ttexts s o = chars (repeat (raw c_hash) m ++ [raw c_space])).
  { destruct So as (t1 & t2 & -> & H1 & H2). destruct Lo as [Fo _]. inversion Fo as [|? ? F1 Fo']; subst. inversion Fo' as [|? ? F2 _]; subst. destruct (StreamProofs.x_hash s t1 F1 H1) as (j & _ & Y).
    assert (Z : ttexts s [t1; t2] = repeat c_hash j ++ [c_space]) by (cbn; rewrite Y, (StreamProofs.x_space_1 s t2 F2 H2), app_nil_r; reflexivity). subst m. rewrite Z, count_hashes_repeat, chars_app. f_equal. clear. induction j; [reflexivity|]. cbn. f_equal. exact IHj. }
  assert (C1 : cov s (aft true (repeat (raw c_hash) m ++ [raw c_space])) (yields k ++ r) (u_heads l ++ B)) by (apply (span s o _ _ (repeat (raw c_hash) m ++ [raw c_space]) _); [rewrite <- !app_assoc; exact C|exact To]).
  assert (Tx : ttexts s (yields k) = chars (u_heads l)) by (apply heads_text; [exact Wk|exact It|exact (cov_gtok _ _ _ _ _ C1)]).
  assert (Q : tidy coll (u_heads l)).
  { eapply span_tidy; [exact C1|exact Tx|eapply RawTree.awake_quiet; [apply stops_cst; apply Hn|exact Aw]|]. intros X. apply NC. rewrite !chars_app. apply in_or_app. right. apply in_or_app. right. exact X. }
  split.
  2:{ intros (U & EU). apply (last_nl s n _ _ _ _ _ C1 Tx (proj1 Q) TB). destruct (u_heads l) as [|u us _] using rev_ind; [rewrite app_nil_r in EU; apply app_inj_tail in EU; destruct EU as [_ EU]; discriminate EU|]. rewrite !app_assoc in EU. apply app_inj_tail in EU. destruct EU as [_ ->]. exists us. reflexivity. }
  split; [exact Lv|]. split; [|split; [exact No2|split]].
  - rewrite Forall_forall in *. intros h Hh. pose proof (No1 h Hh) as Nh. assert (I : forall us, In us (uparts (u_head h)) -> tidy coll us).
    { intros us Hu. eapply tidy_infix; [|exact Q]. eapply infix_trans; [apply parts_infix; exact Hu|]. unfold u_heads, uflats. apply infix_flat. apply in_map. exact Hh. }
    destruct h as [y|t u]; cbn [u_head uparts tame_head] in *.
    + split; [intros ->; congruence|]. eapply tidy_inner; [apply I; left; reflexivity|apply shows_htext|apply u_htext_chars].
    + split; eapply tidy_inner; [apply I; left; reflexivity|apply shows_title|apply u_title_chars|apply I; right; left; reflexivity|apply shows_dest|apply u_dest_chars].
  - apply (units_linkless s k r Wk It (leaves_units _ _ _ _ _ Wk It C1)); apply every_node in Sn; [apply everys_app in Sn || idtac; apply Sn|apply Sn].
  - destruct l as [|[y|t u] l'] eqn:El; try exact I. intros (z & ->). destruct So as (t1 & t2 & -> & H1 & H2). destruct Lo as [Fo _]. inversion Fo as [|? ? F1 Fo']; subst. inversion Fo' as [|? ? F2 _]; subst.
    assert (T1 : ttexts s [t1] = chars (repeat (raw c_hash) m)).
    { rewrite chars_app in To. cbn [ttexts flat_map] in To. rewrite (StreamProofs.x_space_1 s t2 F2 H2), app_nil_r in To. apply app_inj_tail in To. destruct To as [To _]. cbn [ttexts flat_map]. rewrite app_nil_r. exact To. }
    pose proof (span s [t1] _ _ (repeat (raw c_hash) m) _ C T1) as C2. cbn [app] in C2. unfold is_space_1 in H2. rewrite (run_test _ _ _ _ _ c_space Space 1 C2 eq_refl) in H2 by (lia || (left; discriminate)).
    unfold u_heads, uflats in H2. cbn [map flat_map u_head uflat] in H2. pose proof (u_htext_chars ([c_space] ++ z)) as Ec. destruct (u_htext ([c_space] ++ z)) as [|[e c] w] eqn:Eu; [discriminate Ec|]. cbn [chars snd app] in Ec. injection Ec as -> _.
    destruct e; [|discriminate H2]. assert (X : ~ In (escd c_space) (u_htext ([c_space] ++ z))) by (unfold u_htext; noesc). apply X. rewrite Eu. left. reflexivity.
Qed.
