(** Blocks that are read back from what [Display] writes for them are tame: images, code and embeds. *)
From Coq Require Import String Bool.
From Verif Require Import Base Lexer LexSpec LexProofs LexFacts Ops Parser FParser Refine Refine2 Refine3 Wf TokFacts StreamSpec Lines ToYamd TreeAst Ast Api AstSpec AstProofs Tame Settled Mild Runs Units ULex Stops Inline LinkUnits AstUnits Calm Blocks Docs Highlight Lists UBlocks UList UDocs Unsettled UnsettledHl Span Written UnsettledDoc BackInline BackPar.
From Verif Require RawTree RawAst RawLinks.
Open Scope list_scope.

Lemma not_ends : forall A c d, c <> d -> ~ ends d (A ++ [raw c]).
Proof. intros A c d H (r & E). apply app_inj_tail in E. destruct E as [_ E]. injection E as E. congruence. Qed.

(** ** Thematic breaks *)

Lemma break_back : forall coll n, back coll n YThematicBreak.
Proof. intros coll n s ts B fuel x r L C TB Hf NS NC E Bx. split; [exact I|]. intros X. exfalso. exact (not_ends (repeat (raw c_minus) 4) c_minus c_nl ltac:(discriminate) X). Qed.

(** ** Code *)

Lemma code_back : forall coll n lang code, back coll n (YCode lang code).
Proof.
  intros coll n lang code s ts B fuel x r L C TB Hf NS NC E Bx. assert (He : ~ ends c_nl (u_block (YCode lang code))).
  { cbn [u_block]. unfold u_codeblock. change fence with ([raw c_backtick; raw c_backtick] ++ [raw c_backtick]). rewrite !app_assoc. apply not_ends. discriminate. }
  split; [|intros X; contradiction]. cbn [u_block] in *. unfold u_codeblock in NC. rewrite !chars_app, u_lang_chars, u_code_chars in NC.
  assert (N1 : ~ In c_cr lang) by (intros X; apply NC; apply in_or_app; right; apply in_or_app; left; exact X).
  assert (N2 : ~ In c_cr code) by (intros X; apply NC; do 3 (apply in_or_app; right); apply in_or_app; left; exact X).
  assert (N3 : ~ ends_with_nl code).
  { pose proof (fblock_from _ _ _ _ _ E) as F. destruct F as [F|[F|(ts' & F1 & F2 & [F|[F|[F|[F|[F|[F|F]]]]]])]]; by_root; try discriminate Bx. cbn [blocks] in Bx. injection Bx as _ <-. intros (y & Y). eapply trim_end_no_nl. exact Y. }
  assert (M : mild_block coll (YCode lang code)) by (split; [exact N1|split; assumption]). apply mild_settled; [exact M|].
  apply (code_conv coll n lang code M s ts B fuel x r C TB ltac:(intros X; contradiction) Hf E Bx).
Qed.

(** ** Images *)

Lemma image_units : forall s coll b o k c r i R, wf (Node NImage o k c) -> RawTree.still coll (Node NImage o k c) -> image_of s (Node NImage o k c) = [i] ->
  cov s b ((o ++ yields k) ++ r) (uimage (u_image i) ++ R) -> ~ In c_cr (chars (uimage (u_image i))) -> tame_image coll i /\ cov s (aft b (uimage (u_image i))) r R.
Proof.
  intros s coll b o k c r i R W St Ei C NC. pose proof (cov_gtok _ _ _ _ _ C) as G. apply Forall_app in G. destruct G as [Go Gk]. inversion W as [| |? ? ? ? Wk Sh]; subst. destruct Sh as (_ & So & _).
  cbn [image_of] in Ei. injection Ei as <-. pose proof (link_split s NImage o k c W (or_intror eq_refl) Gk) as Tk. set (a := link_text s k) in *. set (d := link_dest s k) in *.
  assert (To : ttexts s o = chars [raw c_bang]) by (eapply (delim_text s is_bang o 0 Bang c_bang So Go); [intros t H; exact H|reflexivity|reflexivity]).
  assert (EU : uimage (u_image (mk_image a d)) = [raw c_bang] ++ ulink (u_alt a) (u_dest d)) by reflexivity. rewrite EU in *.
  assert (Tk2 : ttexts s (yields k) = chars (ulink (u_alt a) (u_dest d))).
  { rewrite Tk. unfold ulink. rewrite !chars_app, u_alt_chars, u_dest_chars. reflexivity. }
  assert (C1 : cov s (aft b [raw c_bang]) (yields k ++ r) (ulink (u_alt a) (u_dest d) ++ R)) by (apply (span s o b _ [raw c_bang]); [rewrite !app_assoc in *; exact C|exact To]).
  assert (Q : tidy coll (ulink (u_alt a) (u_dest d))).
  { eapply span_tidy; [exact C1|exact Tk2| |intros X; apply NC; rewrite chars_app; apply in_or_app; right; exact X]. specialize (St []). apply RawTree.calm_eq in St. apply St. }
  split; [|rewrite aft_app; exact (span _ _ _ _ _ _ C1 Tk2)].
  split; cbn [alt src].
  - eapply tidy_inner; [eapply tidy_infix; [|exact Q]|apply shows_alt|apply u_alt_chars]. exists [raw c_lsquare]. eexists. unfold ulink. reflexivity.
  - eapply tidy_inner; [eapply tidy_infix; [|exact Q]|apply shows_dest|apply u_dest_chars]. exists ([raw c_lsquare] ++ u_alt a ++ [raw c_rsquare] ++ [raw c_lparen]), [raw c_rparen]. unfold ulink. rewrite <- !app_assoc. reflexivity.
Qed.
Lemma images_units : forall s coll k b r B, Forall wf k -> Forall (root NImage) k -> Forall (RawTree.still coll) k -> cov s b (yields k ++ r) (uimages (map u_image (flat_map (image_of s) k)) ++ B) ->
  ~ In c_cr (chars (uimages (map u_image (flat_map (image_of s) k)))) -> Forall (tame_image coll) (flat_map (image_of s) k).
Proof.
  intros s coll k. induction k as [|t k IH]; intros b r B W R S C NC; [constructor|]. inversion W as [|? ? W1 W2]; subst. inversion R as [|? ? R1 R2]; subst. inversion S as [|? ? S1 S2]; subst. destruct R1 as (o & kk & c & ->).
  cbn [flat_map image_of app map uimages] in *. set (i := mk_image (link_text s kk) (link_dest s kk)) in *. set (l := flat_map (image_of s) k) in *.
  cbn [yields flat_map yield] in C. change (flat_map yield) with yields in C. rewrite <- !app_assoc in C. rewrite (app_assoc o) in C.
  destruct (image_units s coll b o kk c _ i _ W1 S1 eq_refl C ltac:(intros X; apply NC; rewrite chars_app; apply in_or_app; left; exact X)) as [T C1]. constructor; [exact T|].
  destruct k as [|t2 k]; [constructor|]. assert (El : exists j l', l = j :: l') by (inversion R2 as [|? ? (o2 & k2 & c2 & ->) _]; subst; cbn; eauto). destruct El as (j & l' & El).
  rewrite El in C1, NC |- *. rewrite El in IH. cbn [map] in *.
  inversion W1 as [| |? ? ? ? _ Sh]; subst. destruct Sh as (_ & _ & [->|(e & -> & He)] & _).
  - exfalso. inversion R2 as [|? ? (o2 & k2 & c2 & ->) _]; subst. inversion W2 as [|? ? W3 _]; subst. inversion W3 as [| |? ? ? ? _ Sh]; subst. destruct Sh as (_ & (t & -> & Ht) & _). cbn [app yields flat_map yield] in C1.
    unfold is_bang in Ht. apply andb_true_iff in Ht. destruct Ht as [Ht _]. apply kind_eqb_eq in Ht. destruct (kind_first _ _ _ _ _ c_bang C1) as (q & Q); [rewrite Ht; reflexivity|discriminate Q].
  - apply (IH (aft (aft b (uimage (u_image i))) [raw c_nl]) r B W2 R2 S2).
    + apply (span s [e] _ _ [raw c_nl]); [exact C1|]. pose proof (cov_gtok _ _ _ _ _ C1) as G. inversion G as [|? ? G1 _]; subst. rewrite ttexts_one. apply gtok_eol; [exact G1|]. apply kind_eqb_eq in He. exact He.
    + intros X. apply NC. rewrite chars_app. apply in_or_app. right. right. exact X.
Qed.
Lemma uimages_end : forall l, l <> [] -> exists A, uimages l = A ++ [raw c_rparen].
Proof.
  induction l as [|i l IH]; intros NE; [congruence|]. cbn [uimages]. assert (E : exists A, uimage i = A ++ [raw c_rparen]) by (unfold uimage, ulink; rewrite !app_assoc, app_comm_cons; eauto). destruct l as [|j l].
  - rewrite app_nil_r. exact E.
  - destruct IH as (A & ->); [discriminate|]. exists (uimage i ++ raw c_nl :: A). rewrite <- app_assoc. reflexivity.
Qed.
Lemma images_from : forall n coll fuel s ts x r R, (coll = true -> n <> 0) -> cov s true ts (raw c_bang :: R) -> fblock fuel (cst n) ts = (x, r) -> root NImage x \/ root NImages x ->
  fimages (StopTerminator :: cst n) ts = Some (x, r) /\ RawTree.still coll x /\ wf x /\ ts = yield x ++ r.
Proof.
  intros n coll fuel s ts x r R Hn C E Rx.
  assert (X : exists ts', fcollapsible fuel (cst n) ts = CFail ts' /\ fimages (StopTerminator :: cst n) ts' = Some (x, r)).
  { pose proof (fblock_from _ _ _ _ _ E) as F. destruct F as [F|[F|(ts' & F1 & F2 & [F|[F|[F|[F|[F|[F|F]]]]]])]]; eauto; by_root; destruct Rx as [(? & ? & ? & Rx)|(? & ? & ? & Rx)]; discriminate Rx. }
  destruct X as (ts' & E1 & EP). destruct (cov_cons_inv _ _ _ _ C) as (t & ts1 & ->); [discriminate|]. rewrite (fcoll_none _ _ _ _ _ _ _ C) in E1 by reflexivity. injection E1 as <-.
  split; [exact EP|]. split; [|split; [apply fimages_wf in EP; [apply EP|left; reflexivity]|apply covers_images in EP; apply EP]]. apply (RawTree.still_images coll _ (stops_cst _ _ Hn) _ _ _ EP).
Qed.
Lemma image_back : forall coll n i, (n <> 0 <-> coll = true) -> back coll n (YImage i).
Proof.
  intros coll n i Hn s ts B fuel x r L C TB Hf NS NC E Bx. cbn [u_block map uimages] in *. rewrite app_nil_r in *.
  split; [|intros X; exfalso; destruct (uimages_end [u_image i] ltac:(discriminate)) as (A & Ea); cbn [uimages] in Ea; rewrite app_nil_r in Ea; rewrite Ea in X; exact (not_ends A c_rparen c_nl ltac:(discriminate) X)].
  assert (Rx : root NImage x).
  { pose proof (fblock_from _ _ _ _ _ E) as F. destruct F as [F|[F|(ts' & F1 & F2 & [F|[F|[F|[F|[F|[F|F]]]]]])]]; by_root; try discriminate Bx. eexists _, _, _. reflexivity. }
  destruct (images_from n coll fuel s ts x r _ (proj2 Hn) C E (or_introl Rx)) as (EP & St & W & ->). destruct Rx as (o & k & c & ->). cbn [yield] in C. change (flat_map yield) with yields in C. rewrite app_assoc in C. rewrite <- app_assoc in C.
  cbn [blocks map] in Bx. injection Bx as Bx. destruct (image_units s coll true o k c (c ++ r) i B W St) as [T _]; [cbn [image_of]; rewrite Bx; reflexivity|exact C|exact NC|exact T].
Qed.
Lemma images_back : forall coll n l, (n <> 0 <-> coll = true) -> back coll n (YImages l).
Proof.
  intros coll n l Hn s ts B fuel x r L C TB Hf NS NC E Bx. cbn [u_block] in *.
  assert (Rx : root NImages x).
  { pose proof (fblock_from _ _ _ _ _ E) as F. destruct F as [F|[F|(ts' & F1 & F2 & [F|[F|[F|[F|[F|[F|F]]]]]])]]; by_root; try discriminate Bx. eexists _, _, _. reflexivity. }
  destruct Rx as (o & k & c & ->). cbn [blocks] in Bx. injection Bx as <-. pose proof (fblock_wf _ _ _ _ _ E) as [W _]. inversion W as [| |? ? ? ? Wk Sh]; subst. destruct Sh as (-> & -> & Ln & Rk).
  assert (Ll : List.length (flat_map (image_of s) k) = List.length k).
  { clear - Rk. induction Rk as [|t k (o & kk & c & ->) R IH]; [reflexivity|]. cbn. f_equal. exact IH. }
  assert (NE : map u_image (flat_map (image_of s) k) <> []) by (destruct (flat_map (image_of s) k); [cbn in Ll; lia|discriminate]).
  split; [|intros X; exfalso; destruct (uimages_end _ NE) as (A & Ea); rewrite Ea in X; exact (not_ends A c_rparen c_nl ltac:(discriminate) X)].
  assert (C0 : exists R, uimages (map u_image (flat_map (image_of s) k)) ++ B = raw c_bang :: R) by (destruct (map u_image (flat_map (image_of s) k)); [congruence|cbn [uimages]; unfold uimage; cbn [app]; eauto]). destruct C0 as (R & C0).
  pose proof C as C'. rewrite C0 in C'. destruct (images_from n coll fuel s ts _ r _ (proj2 Hn) C' E ltac:(right; eexists _, _, _; reflexivity)) as (EP & St & _ & ->). cbn [yield app] in C. change (flat_map yield) with yields in C. rewrite app_nil_r in C.
  split; [lia|]. eapply images_units; [exact Wk|exact Rk| |exact C|exact NC].
  unfold fimages in EP. destruct (fimages_loop _ _ _) as [[[|y [|z k0]] r0]|] eqn:F; try discriminate EP.
  + exfalso. injection EP as -> ->. apply fimages_loop_wf in F; [|left; reflexivity]. destruct F as [_ F]. inversion F as [|? ? (? & ? & ? & X) _]; subst. discriminate X.
  + injection EP as <- <-. exact (RawTree.images_loop_still coll _ (stops_cst _ _ (proj2 Hn)) _ _ _ _ F).
Qed.

(** ** Embeds *)

Lemma plain3_has : forall us, plain3 us -> nosub cpat us -> ~ has [c_nl; c_percent; c_rcurly] (chars us).
Proof.
  intros us P N (p & q & E). destruct (cut_chars _ _ _ E) as (A & V & -> & _ & EV). destruct (cut_chars _ [c_nl; c_percent; c_rcurly] _ EV) as (W & Z & -> & EW & _).
  assert (X : W = cpat); [|subst W; exact (N A Z eq_refl)].
  assert (R : forall e c, In (e, c) W -> In c [c_nl; c_percent; c_rcurly] -> (e, c) = raw c) by (intros [] c H Hc; [exfalso; apply (P c Hc); apply in_or_app; right; apply in_or_app; left; exact H|reflexivity]).
  destruct W as [|[e1 c1] [|[e2 c2] [|[e3 c3] [|? ?]]]]; try discriminate EW. cbn [chars snd] in EW. injection EW as -> -> ->.
  rewrite (R e1 c_nl), (R e2 c_percent), (R e3 c_rcurly) by (cbn; tauto). reflexivity.
Qed.

Lemma embed_back : forall coll n kd args, (n <> 0 <-> coll = true) -> back coll n (YEmbed kd args).
Proof.
  intros coll n kd args Hn s ts B fuel x r L C TB Hf NS NC E Bx. assert (He : ~ ends c_nl (u_block (YEmbed kd args))).
  { cbn [u_block]. unfold u_embed. change rcurly2 with ([raw c_rcurly] ++ [raw c_rcurly]). rewrite !app_assoc. apply not_ends. discriminate. }
  split; [|intros X; contradiction]. clear He. cbn [u_block] in *. unfold u_embed in C, NC. rewrite !chars_app, u_kind_chars, u_args_chars in NC.
  split; [intros X; apply NC; apply in_or_app; right; apply in_or_app; left; exact X|]. split; [intros X; apply NC; do 3 (apply in_or_app; right); apply in_or_app; left; exact X|]. intros ->.
  assert (X : exists ts', fcollapsible fuel (cst n) ts = CFail ts' /\ fembed (cst n) ts' = Some (x, r)).
  { pose proof (fblock_from _ _ _ _ _ E) as F. destruct F as [F|[F|(ts' & F1 & F2 & [F|[F|[F|[F|[F|[F|F]]]]]])]]; eauto; by_root; discriminate Bx. }
  destruct X as (ts' & E1 & EP). destruct (cov_cons_inv _ _ _ _ C) as (t & ts1 & ->); [discriminate|]. rewrite (fcoll_none _ _ _ _ _ _ _ C) in E1 by reflexivity. injection E1 as <-.
  pose proof (covers_embed _ _ _ _ EP) as [Ets _]. pose proof (makes_embed _ _ _ _ EP) as [W (o & k & c & ->)]. 
  assert (St : RawTree.still true (Node NEmbed o k c)).
  { eapply RawTree.still_embed; [|exact EP]. intros c0 [<-|[]]. destruct n; [exfalso; apply (proj2 Hn); reflexivity|left; reflexivity]. }
  specialize (St []). apply RawTree.calm_eq in St. destruct St as [St _]. cbn [RawTree.calm_node RawTree.stops] in St.
  inversion W as [| |? ? ? ? Wk Sh]; subst. destruct Sh as (So & _ & a & v & b & -> & V). cbn [blocks leaf_texts flat_map app value_at] in Bx. injection Bx as Bk Ba.
  rewrite Ets in C. cbn [yield flat_map] in C. rewrite <- !app_assoc in C.
  pose proof (cov_gtok _ _ _ _ _ C) as Go. destruct So as (t0 & -> & Ht). inversion Go as [|? ? G0 _]; subst.
  assert (To : ttexts s [t0] = chars lcurly2).
  { rewrite ttexts_one. refine (gtok_run s t0 LeftCurlyBrace c_lcurly 1 G0 _ eq_refl eq_refl). unfold is_left_curly2 in Ht. apply andb_true_iff in Ht. destruct Ht as [Ht H2]. apply andb_true_iff in Ht. destruct Ht as [Ht _]. rewrite Ht, H2. reflexivity. }
  pose proof (span _ _ _ _ _ _ C To) as C1.
  assert (N : nosub cpat (u_kind (ttexts s a))).
  { eapply (span_cpat s [StopCollapsibleEnd] a); [exact C1|rewrite u_kind_chars; reflexivity|left; reflexivity|]. cbn [yields flat_map yield] in St. exact (RawTree.quiet_mid _ [] _ _ St). }
  revert N. rewrite <- (u_kind_chars (ttexts s a)) at 2. apply plain3_has. unfold u_kind. p3.
Qed.
