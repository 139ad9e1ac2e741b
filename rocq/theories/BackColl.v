(** Blocks that are read back from what [Display] writes for them are tame: collapsibles. *)
From Coq Require Import String Bool.
From Verif Require Import Base Lexer LexSpec LexProofs LexFacts Ops Parser FParser Refine Refine2 Refine3 Wf TokFacts StreamSpec Lines ToYamd TreeAst Ast Api AstSpec AstProofs Tame Settled Mild Runs Units ULex Stops Inline LinkUnits AstUnits Calm Blocks Docs Highlight Lists UBlocks UList UDocs Unsettled UnsettledHl Span Written UnsettledDoc BackInline BackPar BackFlat BackBody.
From Verif Require RawTree RawAst RawLinks.
Open Scope list_scope.

(** The units of some tokens in front. *)
Lemma cov_split : forall s d b r Z, cov s b (d ++ r) Z -> exists D R, Z = D ++ R /\ ttexts s d = chars D /\ cov s (aft b D) r R.
Proof.
  intros s. induction d as [|t d IH]; intros b r Z H; [exists [], Z; auto|]. assert (NE : Z <> []) by (intros ->; inversion H; discriminate).
  destruct (cov_inv _ _ _ _ H NE) as (t' & ts' & g & R & Et & U1 & Eg & Ng & G & C0 & T1 & _ & Cr). cbn [app] in Et. injection Et as <- <-. destruct (IH _ _ _ Cr) as (D & R' & -> & E1 & E2).
  exists (g ++ D), R'. split; [rewrite Eg, app_assoc; reflexivity|]. assert (E3 : ttexts s (t :: d) = chars (g ++ D)) by (change (ttexts s (t :: d)) with (ttext s t ++ ttexts s d); rewrite chars_app; congruence). split; [exact E3|].
  rewrite Eg, app_assoc in H. exact (span s (t :: d) b r (g ++ D) R' H E3).
Qed.
Lemma firstnl : forall (A B C V : list uchar), A ++ raw c_nl :: B = C ++ raw c_nl :: V -> ~ In (raw c_nl) A -> List.length A <= List.length C.
Proof.
  induction A as [|a A IH]; intros B C V E N; [cbn; lia|]. destruct C as [|c C]; [exfalso; injection E as -> _; apply N; left; reflexivity|]. injection E as _ E. cbn [List.length].
  apply le_n_S. apply (IH B C V E). intros X. apply N. right. exact X.
Qed.
Lemma until_free : forall st m ts b c rest, until st m ts = Some (b, c, rest) -> Forall (fun t => m t = false) b.
Proof.
  induction ts as [|t r IH]; cbn; intros b c rest H; [discriminate|]. destruct (existsb (fun c => fmatches c (t :: r)) st); [discriminate|]. destruct (m t) eqn:E; [injection H as <- _ _; constructor|].
  destruct (until st m r) as [[[b' c'] r']|] eqn:U; [|discriminate]. injection H as <- <- <-. constructor; [exact E|exact (IH _ _ _ eq_refl)].
Qed.
Lemma free_nl : forall s d b r D R, cov s b (d ++ r) (D ++ R) -> ttexts s d = chars D -> Forall (fun t => is_eol_or_terminator t = false) d -> ~ In (raw c_nl) D.
Proof.
  intros s d b r D R H E F I. destruct (in_nl _ _ _ _ _ _ H E I) as (t & Ht & Le). rewrite Forall_forall in F. specialize (F t Ht). unfold is_eol_or_terminator in F. destruct (kind t); discriminate.
Qed.

Lemma app_inj_len : forall (A C B D : list uchar), A ++ B = C ++ D -> List.length A = List.length C -> A = C /\ B = D.
Proof.
  induction A as [|a A IH]; intros [|c C] B D E H; cbn in H; try lia; [auto|]. injection E as -> E. injection H as H. destruct (IH C B D E H) as [-> ->]. auto.
Qed.
(** A line after its opening tokens: all of it is read, nothing more. *)
Lemma line_back : forall s t2 ut V b1 c1 r1, cov s false (t2 :: b1 ++ c1 :: r1) (raw c_space :: ut ++ raw c_nl :: V) -> kind t2 = Space -> is_eol_or_terminator c1 = true -> Forall (fun t => is_eol_or_terminator t = false) b1 -> ttexts s b1 = chars ut ->
  ~ In (raw c_nl) ut /\ raw_at c_space ut = false /\ ((kind c1 = Eol /\ raw_at c_nl V = false /\ cov s true r1 V) \/ kind c1 = Terminator /\ exists V', V = raw c_nl :: V' /\ cov s true r1 V').
Proof.
  intros s t2 ut V b1 c1 r1 H K Hc U E.
  destruct (cov_inv _ _ _ _ H) as (t' & ts' & g & Z & Et & _ & Eg & _ & G & _ & T1 & Tl & Cr); [discriminate|]. injection Et as <- <-. pose proof (run_test s false t2 _ _ c_space Space 1 H eq_refl (le_n 1) ltac:(left; discriminate)) as RT. rewrite K in RT. rewrite K in G, Cr. cbn [group_ok] in G. destruct G as (c & q & Kc & ->). injection Kc as <-. cbn [repeat app] in Eg. injection Eg as Eg.
  cbn [line_end] in Cr. destruct (cov_split _ _ _ _ _ Cr) as (D & R & -> & ED & CR). pose proof (free_nl _ _ _ _ _ _ Cr ED U) as ND.
  assert (NR : R <> []) by (intros ->; inversion CR; discriminate). destruct (cov_inv _ _ _ _ CR NR) as (t' & ts' & g & R' & Et & _ & Eg' & _ & G & _ & _ & _ & Cr'). injection Et as <- <-.
  assert (X : exists R0, R = raw c_nl :: R0) by (unfold is_eol_or_terminator in Hc; destruct (kind c1); try discriminate Hc; cbn [group_ok] in G; subst g; rewrite Eg'; eexists; reflexivity). destruct X as (R0 & ER).
  assert (Lq : q + List.length D <= List.length ut).
  { replace (q + List.length D) with (List.length (repeat (raw c_space) q ++ D)) by (rewrite app_length, repeat_length; reflexivity). apply (firstnl _ R0 ut V); [rewrite <- app_assoc, <- ER; symmetry; exact Eg|]. intros X. apply in_app_or in X. destruct X as [X|X]; [apply repeat_spec in X; discriminate X|contradiction]. }
  assert (LD : List.length D = List.length ut) by (rewrite <- (chars_len D), <- (chars_len ut); congruence). assert (Q : q = 0) by lia. subst q. cbn [repeat app] in Eg. apply app_inj_len in Eg; [|symmetry; exact LD]. destruct Eg as [<- EV].
  split; [exact ND|]. split.
  - change (byte_len (chars (repeat (raw c_space) 1))) with 1 in Tl. rewrite Tl in RT. cbn [kind_eqb andb Nat.eqb] in RT. destruct (raw_at c_space ut) eqn:RD; [|reflexivity]. apply raw_at_true in RD. destruct RD as (D' & ->). cbn in RT. discriminate RT.
  - unfold is_eol_or_terminator in Hc. pose proof (eol_test _ _ _ _ _ CR) as ET. destruct (kind c1) eqn:Kc; try discriminate Hc; cbn [group_ok] in G; subst g; rewrite <- EV in Eg'; cbn [app] in Eg'; injection Eg' as Eg'.
    + right. split; [reflexivity|]. exists R'. split; [exact Eg'|exact Cr'].
    + left. subst V. split; [reflexivity|]. split; [|exact Cr']. rewrite ER in ET, EV. injection EV as <-. change (raw2_at c_nl c_nl (raw c_nl :: R')) with (raw_at c_nl R') in ET. rewrite raw_at_raw in ET. destruct (raw_at c_nl R'); [discriminate ET|reflexivity].
Qed.

Lemma closed_no_ends : forall l, closed (map u_block l) -> ~ ends c_nl (u_block (last l YThematicBreak)) -> Forall (fun y => ~ block_ends_nl y) l.
Proof.
  induction l as [|y l IH]; intros C N; [constructor|]. destruct l as [|q l]; [constructor; [intros X; exact (N (block_ends _ X))|constructor]|].
  destruct C as [C1 C2]. constructor; [intros X; exact (C1 (block_ends _ X))|exact (IH C2 N)].
Qed.

Lemma char_raw : forall us c, In c (chars us) -> ~ In (escd c) us -> In (raw c) us.
Proof.
  induction us as [|[e d] us IH]; intros c H N; [contradiction|]. destruct H as [H|H]; [cbn in H; subst d; destruct e; [exfalso; apply N; left; reflexivity|left; reflexivity]|]. right. apply IH; [exact H|]. intros X. apply N. right. exact X.
Qed.
Lemma u_ctitle_escd : forall x c, c <> c_bslash -> c <> c_percent -> c <> c_rcurly -> ~ In (escd c) (u_ctitle x).
Proof.
  intros x c H1 H2 H3 H. unfold u_ctitle, pp in H. destruct (more_escd _ _ _ _ (umark0_more [escd c_percent; raw c_rcurly] (u0 x)) H) as [X|X].
  - apply u0_escd in X. congruence.
  - destruct X as [X|[X|[]]]; injection X as X; congruence.
Qed.
Lemma line_tame : forall us x, chars us = x -> ~ In (escd c_nl) us -> ~ In (escd c_space) us -> ~ In (raw c_nl) us -> raw_at c_space us = false -> ~ In c_cr x -> tame_line x.
Proof.
  intros us x E N1 N2 N3 N4 N5. split; [|split; [exact N5|]].
  - intros X. apply N3. apply char_raw; [rewrite E; exact X|exact N1].
  - intros (z & X). destruct us as [|[e d] w]; [rewrite <- E in X; discriminate X|]. rewrite <- E in X. injection X as -> _. destruct e; [apply N2; left; reflexivity|discriminate N4].
Qed.
Lemma par_eqdec : forall l, l = [PText [c_nl]] \/ l <> [PText [c_nl]].
Proof.
  intros [|p l]; [right; discriminate|]. destruct l as [|q l]; [|right; discriminate]. destruct p as [? ?|?|?|?|x|?|?]; try (right; discriminate). destruct x as [|c x]; [right; discriminate|].
  destruct x as [|d x]; [|right; discriminate]. destruct (N.eq_dec c c_nl) as [->|N]; [left; reflexivity|right; congruence].
Qed.
Lemma lead_par : forall y, match y with YParagraph l => normal_inlines l | _ => True end -> raw_at c_nl (u_block y) = true -> exists l, y = YParagraph l /\ 1 <= leading c_nl (first_text l).
Proof.
  intros y N E. destruct y as [l|k l|i|l|lang code|l|t i ps| |kind args|title b]; cbn [u_block] in E; try discriminate E.
  - exists l. split; [reflexivity|]. apply raw_at_true in E. destruct E as (w & E). apply (f_equal chars) in E. rewrite (more_chars _ _ _ (u_lead_more (u_pars l))) in E. destruct N as (N & _).
    destruct l as [|p l]; [discriminate E|]. inversion N as [|? ? Np Nl]; subst. rewrite u_pars_cons in E.
    destruct p as [? ?|?|?|?|x|?|?]; cbn [u_par uflat] in E; try discriminate E. rewrite chars_app, u_text_chars in E. cbn in Np. destruct x as [|c x]; [congruence|]. injection E as -> _. cbn [first_text leading]. rewrite char_eqb_refl. lia.
  - destruct k; discriminate E.
  - destruct l as [|i l]; [discriminate E|]. cbn [map uimages] in E. unfold uimage in E. discriminate E.
  - destruct l as [ty lv items]. rewrite u_list_eq in E. destruct items as [|[p nested] items]; [discriminate E|]. cbn [map ujoin1] in E. rewrite u_item_eq in E. destruct lv; [destruct ty|]; discriminate E.
Qed.
Lemma collapsible_back : forall coll n title b, Forall (back true (S n)) b -> back coll n (YCollapsible title b).
Proof.
  intros coll n title b Fb s ts B fuel x r L C TB Hf NS NC E Bx.
  assert (He : ends c_nl (u_block (YCollapsible title b)) -> B = []).
  { intros X. exfalso. cbn [u_block] in X. unfold cend in X. change ([raw c_nl] ++ [raw c_percent; raw c_rcurly]) with ([raw c_nl; raw c_percent] ++ [raw c_rcurly]) in X. rewrite !app_assoc in X. revert X. apply not_ends. discriminate. }
  split; [|exact He]. clear He.
  assert (EC : fcollapsible fuel (cst n) ts = CMatch x r).
  { pose proof (fblock_from _ _ _ _ _ E) as F. destruct F as [F|[F|(ts' & F1 & F2 & [F|[F|[F|[F|[F|[F|F]]]]]])]]; eauto; by_root; discriminate Bx. }
  cbn [u_block] in C, NC. rewrite <- !app_assoc in C. set (J := ujoin (map u_block b)) in *. set (ut := u_ctitle title) in *.
  destruct (cov_step _ _ _ _ _ _ _ C (utok_cstart _)) as (t & ts' & -> & E1 & E2 & E3 & E4 & E5). cbn [line_end] in E5.
  destruct (cov_cons_inv _ _ _ _ E5) as (t2 & ts2 & ->); [discriminate|]. cbn [app] in E5.
  cbn [List.length] in Hf. destruct fuel as [|m]; [lia|]. cbn [fcollapsible fseq] in EC.
  replace (is_collapsible_start t) with true in EC by (unfold is_collapsible_start; rewrite E1, E2; reflexivity).
  destruct (is_space_or_eol t2) eqn:K2; [|discriminate EC].
  assert (K : kind t2 = Space).
  { pose proof (eol_test _ _ _ _ _ E5) as ET. change (raw_at c_nl (raw c_space :: ut ++ raw c_nl :: J ++ raw c_nl :: cend ++ B)) with false in ET. cbn [andb] in ET. unfold is_space_or_eol in K2. rewrite ET, orb_false_r in K2. apply kind_eqb_eq in K2. exact K2. }
  assert (C2 : exists R2, cov s false ts2 R2) by (inversion E5; subst; rewrite K in *; eexists; eassumption). destruct C2 as (R2 & C2).
  destruct (fmodifier (cst n) ts2) as [[k1 r1]|] eqn:EM.
  2:{ exfalso. cbn [opt_tree] in EC. destruct ts2 as [|t3 ts3]; [discriminate EC|]. unfold nth_is in EC. cbn [nth_error is_some_and] in EC. rewrite (cov_col0 _ _ _ _ _ C2) in EC. discriminate EC. }
  unfold fmodifier in EM. destruct (nth_is 0 col0 ts2); [discriminate EM|]. destruct (until (cst n) is_eol_or_terminator ts2) as [[[b1 c1] r1']|] eqn:U; [|discriminate EM]. injection EM as <- <-.
  cbn [opt_tree] in EC. destruct (nth_is 0 col0 r1'); [|discriminate EC]. change (StopCollapsibleEnd :: cst n) with (cst (S n)) in EC. destruct (fdoc m (cst (S n)) r1') as [k2 r2] eqn:Fd.
  assert (Z : exists k3 r3, match r2 with e :: r3 => if is_eol e then ([Skip [e]], r3) else ([], r2) | [] => ([], r2) end = (k3, r3) /\ (k3 = [] \/ exists e, k3 = [Skip [e]])).
  { destruct r2 as [|e r3]; [eexists _, _; split; [reflexivity|left; reflexivity]|]. destruct (is_eol e); eexists _, _; (split; [reflexivity|]); eauto. }
  destruct Z as (k3 & r3 & Z1 & Z2). rewrite Z1 in EC. destruct (fcollapsible_end r3) as [[c rest]|]; [|discriminate EC]. injection EC as <- <-.
  assert (Bx2 : ttexts s b1 = title /\ flat_map (blocks s) k2 = b).
  { cbn [blocks app flat_map] in Bx. injection Bx as Bt Bx.
    replace (flat_map (fun d => match d with Node NDocument _ k4 _ => flat_map (blocks s) k4 | _ => [] end) k3) with (@nil ynode) in Bx by (destruct Z2 as [->|(e & ->)]; reflexivity).
    rewrite app_nil_r in Bx. split; [|exact Bx]. rewrite <- Bt. cbn. rewrite ?app_nil_r. reflexivity. }
  destruct Bx2 as [Bt Bb]. clear Bx Z1 Z2.
  destruct (until_app _ _ _ _ _ _ U) as [Ets2 Hc1]. rewrite Ets2 in E5.
  destruct (line_back s t2 ut (J ++ raw c_nl :: cend ++ B) b1 c1 r1' E5 K Hc1 (until_free _ _ _ _ _ _ U)) as (N1 & N2 & N3); [unfold ut; rewrite u_ctitle_chars; exact Bt|].
  assert (L1 : linked s r1' /\ List.length r1' < m).
  { subst ts2. split; [|rewrite app_length in Hf; cbn [List.length] in Hf; lia]. apply (linked_app s [t; t2]) in L. destruct L as [_ L]. apply (linked_app s b1) in L. destruct L as [_ L]. apply (linked_app s [c1]) in L. apply L. }
  destruct L1 as [L1 Lm]. pose proof (fdoc_read s m (cst (S n)) r1' L1) as RB. rewrite Fd in RB. cbn [fst] in RB. rewrite Bb in RB.
  assert (TL : tame_line title).
  { apply (line_tame ut title); [apply u_ctitle_chars|apply u_ctitle_escd; discriminate|apply u_ctitle_escd; discriminate|exact N1|exact N2|].
    intros X. apply NC. rewrite !chars_app. unfold ut. rewrite u_ctitle_chars. rewrite !in_app_iff. tauto. }
  assert (DT : dtail (S n) (raw c_nl :: cend ++ B)) by (right; split; [discriminate|]; exists B; reflexivity).
  destruct b as [|m0 b]; [split; [exact TL|]; split; [exact I|]; split; [constructor|exact I]|]. inversion RB as [|? ? R0 RB']; subst.
  destruct N3 as [(Kc & RJ & CJ)|(_ & V' & EV & CV)].
  - destruct (docs_back s (S n) true (m0 :: b) m r1' (raw c_nl :: cend ++ B)) as (I1 & I2 & I3); [split; [reflexivity|discriminate]|exact Fb|exact L1|exact CJ|exact DT|exact Lm| |rewrite Fd; exact Bb|].
    { intros X. apply NC. rewrite !chars_app. rewrite !in_app_iff. tauto. }
    split; [exact TL|]. split; [|split].
    + clear - I1. revert I1. generalize (m0 :: b). intros l FS. induction FS; [exact I|]. split; assumption.
    + apply closed_no_ends; [exact I2|]. intros X. discriminate (I3 X).
    + intros SN. destruct m0 as [l| | | | | | | | |]; try contradiction. cbn [block_starts_nl] in SN. inversion I1 as [|? ? T0 _]; subst.
      assert (X : exists w, u_block (YParagraph l) = raw c_nl :: w).
      { destruct (par_eqdec l) as [->|Nl]; [exists []; reflexivity|]. destruct (led_units true l (u_lead (u_pars l))) as (w & W & _ & _); [apply T0|apply T0|exact Nl|exact SN|apply u_lead_more|]. exists w. exact W. }
      destruct X as (w & W). unfold J in RJ. cbn [map ujoin] in RJ. rewrite W in RJ. discriminate RJ.
  - exfalso. unfold J in EV. cbn [map ujoin] in EV. rewrite <- app_assoc in EV. pose proof (block_nlhead m0 (proj1 R0)) as NH. set (R := match map u_block b with [] => [] | _ :: _ => raw c_nl :: raw c_nl :: ujoin (map u_block b) end ++ raw c_nl :: cend ++ B) in *.
    assert (SR : nlshape R).
    { unfold R. destruct (map u_block b) as [|q l] eqn:Eb; [exact (nlshape_tail _ _ DT)|]. cbn [app]. apply nlshape_nl, nlshape_nl. rewrite <- Eb. apply nlshape_join; [apply read_nlhead; exact RB'|exact (nlshape_tail _ _ DT)]. }
    assert (NR : forall j, R <> repeat (raw c_nl) j).
    { intros j X. assert (Y : In (raw c_percent) R) by (unfold R; apply in_or_app; right; right; left; reflexivity). rewrite X in Y. apply repeat_spec in Y. discriminate Y. }
    destruct (u_block m0) as [|u w] eqn:Em; [exact (proj2 R0 Em)|]. injection EV as -> EV. destruct NH as [NH|[[_ [->|(v & w' & -> & Hv)]]|[NH _]]]; [apply NH; reflexivity| | |discriminate NH].
    + pose proof (read_nl m0 R0 Em) as ->. cbn [app] in EV. subst V'. destruct (nl_lost s (S n) m r1' R b L1 CV SR) as [_ (j & X)]; [rewrite Fd; exact Bb|]. exact (NR j X).
    + assert (X : exists l, m0 = YParagraph l /\ 1 <= leading c_nl (first_text l)).
      { apply lead_par; [exact (proj1 R0)|]. rewrite Em. reflexivity. }
      destruct X as (l & -> & X). assert (Y : leading c_nl (first_text l) = 0); [|lia].
      refine (fdoc_first s true (S n) m r1' V' l b CV _ _ _); [rewrite <- EV; discriminate| |rewrite Fd; exact Bb]. rewrite <- EV. cbn [app chars leading]. destruct (char_eqb (snd v) c_nl) eqn:Q; [apply char_eqb_eq in Q; contradiction|reflexivity].
Qed.
