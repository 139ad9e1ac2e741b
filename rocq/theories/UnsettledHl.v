(** Highlights that [Display] does not keep. *)
From Coq Require Import String.
From Verif Require Import Base Lexer LexSpec LexProofs LexFacts Ops Parser FParser Refine Refine2 Refine3 Wf Lines TokFacts ToYamd TreeAst Ast Api StreamSpec AstSpec Tame Settled Mild Units ULex Stops Inline LinkUnits AstUnits Calm Blocks Docs Highlight Lists UBlocks UList UDocs Unsettled.
From Verif Require RawAst.
Open Scope list_scope.

(** ** Line feeds that stay unescaped *)

Lemma more_keeps : forall C A B c, more C A B -> In (raw c) A -> ~ C c -> In (raw c) B.
Proof.
  intros C A B c M H HC. induction M as [|u v A B U M IH]; [exact H|]. destruct H as [->|H]; [|right; exact (IH H)]. destruct v as [e d]. destruct U as (U1 & U2 & U3). cbn in U1, U2, U3. subst d.
  left. destruct e; [|reflexivity]. destruct (U3 eq_refl) as [X|X]; [discriminate|contradiction].
Qed.
Lemma nn_keeps : forall us, ~ In (escd c_nl) us -> In c_nl (chars us) -> In (raw c_nl) (nn us).
Proof.
  intros us. unfold nn. remember (List.length us) as n eqn:En. assert (L : List.length us <= n) by lia. clear En. revert us L.
  induction n as [|n IH]; intros us L N H; [destruct us; [contradiction|cbn in L; lia]|]. destruct us as [|u us]; [contradiction|]. cbn [List.length] in L.
  assert (Nu : ~ In (escd c_nl) us) by (intros X; apply N; right; exact X). cbn [umark]. destruct (umatch [escd c_nl; raw c_nl] (u :: us)) eqn:M.
  - cbn [umatch] in M. apply andb_true_iff in M. destruct M as [M1 M2]. destruct us as [|v us]; [discriminate|]. cbn [follows] in M2.
    rewrite andb_true_r in M2. apply andb_true_iff in M2. destruct M2 as [M2 M3]. apply char_eqb_eq in M3. destruct v as [ev cv]. cbn in M2, M3. subst cv. destruct ev; [discriminate|].
    cbn [umark]. right. left. reflexivity.
  - destruct H as [H|H]; [|right; apply IH; [lia|exact Nu|exact H]]. destruct u as [e c]. cbn in H. subst c. destruct e; [exfalso; apply N; left; reflexivity|]. left. reflexivity.
Qed.
Lemma nn2_keeps : forall us a b, ~ In (escd c_nl) us -> chars us = a ++ c_nl :: b -> ~ begins [c_nl] b -> Nat.Even (leading c_nl (rev a)) -> In (raw c_nl) (nn2 us).
Proof.
  intros us. unfold nn2. remember (List.length us) as n eqn:En. assert (L : List.length us <= n) by lia. clear En. revert us L.
  induction n as [|n IH]; intros us L a b N E Hb Ha; [destruct us; [destruct a; discriminate E|cbn in L; lia]|].
  destruct us as [|u us]; [destruct a; discriminate E|]. cbn [List.length] in L. cbn [chars] in E.
  assert (Nu : ~ In (escd c_nl) us) by (intros X; apply N; right; exact X).
  cbn [umark]. destruct (umatch [escd c_nl; escd c_nl] (u :: us)) eqn:M.
  - cbn [umatch] in M. apply andb_true_iff in M. destruct M as [M1 M2]. apply char_eqb_eq in M1. destruct us as [|v us]; [discriminate|]. cbn [follows] in M2.
    rewrite andb_true_r in M2. apply andb_true_iff in M2. destruct M2 as [_ M3]. apply char_eqb_eq in M3. destruct u as [eu cu], v as [ev cv]. cbn in M1, M3. subst cu cv. cbn [chars snd] in E.
    destruct a as [|x a]; [exfalso; apply Hb; injection E as <-; exists (chars us); reflexivity|]. injection E as <- E. destruct a as [|x a]; [exfalso; destruct Ha as (m & Ha); cbn in Ha; lia|]. injection E as <- E.
    cbn [umark]. right. right. apply (IH us ltac:(cbn in L; lia) a b); [intros X; apply Nu; right; exact X|exact E|exact Hb|]. cbn [rev] in Ha.
    rewrite (leading_snoc c_nl (rev a ++ [c_nl])), forallb_app, leading_snoc in Ha. cbn [forallb] in Ha. rewrite char_eqb_refl in Ha. destruct (forallb (fun e => char_eqb e c_nl) (rev a)) eqn:F; [|exact Ha].
    rewrite (leading_all _ _ F). cbn [andb leading] in Ha. rewrite char_eqb_refl, app_length in Ha. cbn [List.length] in Ha. destruct Ha as (m & Ha). exists (m - 1). lia.
  - destruct a as [|x a].
    + injection E as E _. destruct u as [e c]. cbn in E. subst c. destruct e; [exfalso; apply N; left; reflexivity|]. left. reflexivity.
    + injection E as E1 E. right. apply (IH us ltac:(lia) a b Nu E Hb). cbn [rev] in Ha. rewrite leading_snoc in Ha. destruct (forallb (fun e => char_eqb e c_nl) (rev a)) eqn:F; [|exact Ha].
      rewrite (leading_all _ _ F). cbn [leading] in Ha. destruct (char_eqb x c_nl) eqn:X; [|rewrite Nat.add_0_r in Ha; exact Ha]. exfalso. apply char_eqb_eq in X. subst x.
      assert (H : exists v us', us = v :: us' /\ snd v = c_nl).
      { destruct us as [|v us]; [destruct a; discriminate E|]. exists v, us. split; [reflexivity|]. cbn [chars] in E. destruct a as [|w a]; [injection E as E _; exact E|]. injection E as E _. cbn [rev] in F. rewrite forallb_app in F.
        apply andb_true_iff in F. destruct F as [_ F]. cbn in F. rewrite andb_true_r in F. change (char_eqb w c_nl = true) in F. apply char_eqb_eq in F. congruence. }
      destruct H as (v & us' & -> & Hv). destruct v as [e d]. cbn in Hv. subst d. destruct e; [apply Nu; left; reflexivity|]. cbn [umatch follows escd fst snd] in M. rewrite X, char_eqb_refl in M. discriminate M.
Qed.
Lemma u_text_keeps : forall x, broken true x -> In (raw c_nl) (u_text x).
Proof.
  intros x (a & b & E & H). destruct (H eq_refl) as [H1 H2]. unfold u_text, pp. eapply more_keeps; [apply umark0_more| |intros [X|[X|[]]]; discriminate X].
  apply (nn2_keeps _ a b); [noesc|rewrite !esc_chars, u0_chars; exact E|exact H1|exact H2].
Qed.
Lemma broken_in : forall t x, broken t x -> In c_nl x.
Proof. intros t x (a & b & -> & _). apply in_app_iff. right. left. reflexivity. Qed.
Lemma wrap_in : forall d us u, In u us -> In u (wrap d us).
Proof. intros d us u H. unfold wrap. rewrite !in_app_iff. auto. Qed.
Lemma par_keeps : forall q x, In x (strings q) -> broken (is_ptext q) x -> In (raw c_nl) (uflat (u_par q)).
Proof.
  assert (D : forall c x, In c [c_underscore; c_tilde; c_star; c_backtick] -> In c_nl x -> In (raw c_nl) (u_delim c x)).
  { intros c x Hc H. unfold u_delim. apply nn_keeps; [|rewrite esc_chars, u0_chars; exact H]. repeat (destruct Hc as [<-|Hc]; [noesc|]). destruct Hc. }
  assert (S : forall us, In (raw c_nl) us -> In (raw c_nl) (stars us)) by (intros us H; unfold stars; eapply more_keeps; [apply umark0_more|exact H|intros [X|[X|[]]]; discriminate X]).
  intros q x H Bx. pose proof (broken_in _ _ Bx) as N. destruct q as [t u|l|y|y|y|y|y]; cbn [strings is_ptext u_par uflat] in *.
  - unfold ulink. rewrite !in_app_iff. destruct H as [<-|[<-|[]]]; [right; left|do 4 right; left]; (apply nn_keeps; [noesc|rewrite !esc_chars, u0_chars; exact N]).
  - apply wrap_in. apply in_map_iff in H. destruct H as (b & <- & H). apply in_flat_map. exists (u_bold b). split; [apply in_map; exact H|]. destruct b as [z|z|z]; cbn [u_bold vflat bold_string] in *.
    + apply wrap_in, S, D; [cbn; tauto|exact N].
    + apply wrap_in, S, D; [cbn; tauto|exact N].
    + unfold u_btext. apply nn_keeps; [noesc|rewrite !esc_chars, u0_chars; exact N].
  - destruct H as [<-|[]]. apply wrap_in, D; [cbn; tauto|exact N].
  - destruct H as [<-|[]]. apply wrap_in, D; [cbn; tauto|exact N].
  - destruct H as [<-|[]]. exact (u_text_keeps _ Bx).
  - destruct H as [<-|[]]. apply wrap_in, D; [cbn; tauto|exact N].
  - destruct H as [<-|[]]. apply wrap_in, D; [cbn; tauto|exact N].
Qed.
Lemma pars_keep : forall p q x, In q p -> In x (strings q) -> broken (is_ptext q) x -> In (raw c_nl) (u_hpar p).
Proof.
  intros p q x Hq Hx Bx. eapply more_keeps; [apply u_hpar_more| |].
  - unfold u_pars, uflats. apply in_flat_map. exists (u_par q). split; [apply in_map; exact Hq|exact (par_keeps _ _ Hx Bx)].
  - unfold blockmark. intros X. cbn in X. repeat (destruct X as [X|X]; [discriminate X|]). exact X.
Qed.

(** ** How paragraphs of a highlight start *)

Lemma more_hd : forall C A B c, more C (raw c :: A) B -> ~ C c -> exists B', B = raw c :: B' /\ more C A B'.
Proof.
  intros C A B c M HC. inversion M as [|? v ? B' U M']; subst. exists B'. split; [|exact M']. destruct v as [e d]. destruct U as (U1 & _ & U3). cbn in U1, U3. subst d.
  destruct e; [|reflexivity]. destruct (U3 eq_refl) as [X|X]; [discriminate|contradiction].
Qed.
Lemma u_text_led : forall x, leading c_nl x = 1 -> exists w, u_text x = raw c_nl :: w.
Proof.
  intros x H. unfold u_text, pp. set (us := esc c_lcurly (esc c_lsquare (esc c_backtick (esc c_tilde (esc c_underscore (esc c_star (u0 x))))))).
  assert (N : ~ In (escd c_nl) us) by (unfold us; noesc). assert (E : chars us = x) by (unfold us; rewrite !esc_chars, u0_chars; reflexivity). clearbody us.
  assert (X : exists w, nn2 us = raw c_nl :: w).
  { destruct us as [|[e c] us]; [rewrite <- E in H; discriminate|]. rewrite <- E in H. cbn [chars snd leading] in H. destruct (char_eqb c c_nl) eqn:Ec; [|discriminate]. apply char_eqb_eq in Ec. subst c. destruct e; [exfalso; apply N; left; reflexivity|].
    unfold nn2. cbn [umark]. match goal with |- context [umatch ?a ?b] => assert (M : umatch a b = false) end; [|rewrite M; eexists; reflexivity]. cbn [umatch]. destruct us as [|[e d] us]; [apply andb_false_r|]. cbn [chars snd leading] in H.
    cbn [follows fst snd escd]. destruct (char_eqb c_nl d) eqn:Ed; [|rewrite andb_false_r; apply andb_false_r]. apply char_eqb_eq in Ed. subst d. cbn in H. discriminate. }
  destruct X as (w & X). rewrite X. destruct (more_hd _ _ _ _ (umark0_more [escd c_percent; raw c_rcurly] (raw c_nl :: w))) as (w' & E' & _); [intros [Y|[Y|[]]]; discriminate Y|]. exists w'. exact E'.
Qed.
Lemma delim_lead0 : forall us, hd_in delims us -> leading c_nl (chars us) = 0 /\ us <> [].
Proof.
  intros us (c & r & -> & Hc). split; [|discriminate]. cbn [chars snd raw leading]. destruct (char_eqb c c_nl) eqn:E; [|reflexivity]. apply char_eqb_eq in E. subst c. exfalso. revert Hc. nodel.
Qed.
Lemma leading0_app : forall a b, a <> [] -> leading c_nl a = 0 -> leading c_nl (a ++ b) = 0.
Proof. intros [|c a] b NE H; [congruence|]. cbn [app leading] in *. destruct (char_eqb c c_nl); [discriminate|reflexivity]. Qed.

Lemma led_units : forall coll p us, p <> [] -> tame_inlines coll p -> p <> [PText [c_nl]] -> leading c_nl (first_text p) = 1 -> more blockmark (u_pars p) us -> exists w, us = raw c_nl :: w /\ w <> [] /\ leading c_nl (chars w) = 0.
Proof.
  intros coll p us NE T He H M. destruct (u_pars_shape _ _ T) as [->|[Sh|(x & r & -> & E & Nx & Sh)]]; [congruence| |].
  - exfalso. destruct (u_pars_shape _ _ T) as [->|[_|(x & r & -> & E & Nx & _)]]; [congruence| |].
    + destruct p as [|[t u|l|x|x|x|x|x] p]; try discriminate H. cbn [first_text] in H. destruct (u_text_led x H) as (w & W). destruct Sh as (c & r & E & Hc). unfold u_pars in E. cbn [map] in E. unfold uflats in E. cbn [flat_map u_par uflat] in E.
      rewrite W in E. injection E as <- _. revert Hc. nodel.
    + cbn [first_text] in H. destruct (u_text_led x H) as (w & W). rewrite E, W in Sh. destruct Sh as (c & r' & E' & Hc). injection E' as <- _. revert Hc. nodel.
  - cbn [first_text] in H. destruct (u_text_led x H) as (w & W). rewrite E, W in M. cbn [app] in M.
    destruct (more_hd _ _ _ _ M) as (w' & E' & M'); [unfold blockmark; intros X; cbn in X; repeat (destruct X as [X|X]; [discriminate X|]); exact X|].
    exists w'. split; [exact E'|]. rewrite (more_chars _ _ _ M'). assert (Ex : x = c_nl :: chars w) by (rewrite <- (u_text_chars x), W; reflexivity).
    assert (L : leading c_nl (chars w) = 0) by (rewrite Ex in H; cbn [leading] in H; rewrite char_eqb_refl in H; congruence).
    destruct w as [|u w].
    + cbn [app] in *. destruct Sh as [->|Sh]; [exfalso; apply He; rewrite Ex; reflexivity|]. destruct (delim_lead0 _ Sh) as [D1 D2]. split; [exact (more_ne _ _ _ M' D2)|exact D1].
    + split; [exact (more_ne _ _ _ M' ltac:(discriminate))|]. rewrite chars_app. apply leading0_app; [discriminate|exact L].
Qed.
Lemma hpar_led : forall coll p, tame_hpar coll p -> leading c_nl (first_text p) = 1 -> exists w, u_hpar p = raw c_nl :: w /\ w <> [] /\ leading c_nl (chars w) = 0.
Proof. intros coll p (NE & T & He) H. apply (led_units coll p); [exact NE|exact T| |exact H|apply u_hpar_more]. intros ->. apply He. exists []. reflexivity. Qed.
Lemma hpar_unled : forall coll p, p <> [] -> tame_inlines coll p -> leading c_nl (first_text p) = 0 -> leading c_nl (chars (u_hpar p)) = 0.
Proof.
  intros coll p NE T H. rewrite (more_chars _ _ _ (u_hpar_more p)). destruct (u_pars_shape _ _ T) as [->|[Sh|(x & r & -> & E & Nx & Sh)]]; [congruence|apply delim_lead0; exact Sh|].
  rewrite E, chars_app, u_text_chars. apply leading0_app; assumption.
Qed.
Lemma leading0_raw : forall us, leading c_nl (chars us) = 0 -> raw_at c_nl us = false.
Proof. intros us H. destruct (raw_at c_nl us) eqn:E; [|reflexivity]. apply raw_at_true in E. destruct E as (r & ->). cbn [chars snd raw leading] in H. rewrite char_eqb_refl in H. discriminate. Qed.

(** ** Paragraphs that are read as empty *)

Lemma ttext_first : forall s b w ts us, cov s b (w :: ts) us -> exists u r x, us = u :: r /\ ttext s w = snd u :: x.
Proof.
  intros s b w ts us H. inversion H as [|? ? ? ? g r Hf U C T L K]; subst. destruct (utok_ok _ _ _ _ Hf U) as (-> & NE & _). destruct g as [|u g]; [congruence|]. exists u, (g ++ r), (chars g). split; [reflexivity|]. rewrite T. reflexivity.
Qed.
Lemma trim_nil : forall l, trim_trailing_newline_from_text l = [] -> l = [] \/ exists x, l = [PText x] /\ forall c, In c x -> c = c_nl.
Proof.
  intros l H. destruct l as [|p l _] using rev_ind; [left; reflexivity|right]. destruct (is_ptext p) eqn:E.
  - destruct p; try discriminate. rewrite trim_snoc in H. exists s. destruct (trim_end c_nl s) eqn:T; [|exfalso; destruct l; discriminate]. subst l. split; [reflexivity|]. unfold trim_end in T.
    apply (f_equal (@rev _)) in T. rewrite rev_involutive in T. cbn [rev] in T. intros c Hc. apply in_rev in Hc. revert T Hc. generalize (rev s). intros x. induction x as [|d x IH]; intros T Hc; [contradiction|]. cbn [trim_start] in T.
    match type of T with (if ?e then _ else _) = _ => destruct e eqn:D end; [|discriminate T]. apply char_eqb_eq in D. subst d. destruct Hc as [<-|Hc]; [reflexivity|exact (IH T Hc)].
  - rewrite trim_other in H by (intros x ->; discriminate). destruct l; discriminate.
Qed.
Lemma par_kids : forall st ts t r, fparagraph st ts = (t, r) -> exists k, t = Node NParagraph [] k [] /\ items inline k.
Proof.
  intros st ts t r H. unfold fparagraph in H. destruct (fitems finline (S (length ts)) st [] ts) as [k r'] eqn:F. injection H as <- <-. exists k. split; [reflexivity|].
  exact (proj2 (fitems_wf inline finline _ _ _ _ _ _ makes_inline F)).
Qed.
Lemma blank_par : forall s st ts t r, fparagraph st ts = (t, r) -> trimmed s t = [[]] -> exists l, ts = l ++ r /\ stopped st r = true /\ (forall c, In c (ttexts s l) -> c = c_nl).
Proof.
  intros s st ts t r H E. pose proof (fparagraph_app _ _ _ _ H) as A. pose proof (fparagraph_stopped _ _ _ _ H) as St. destruct (par_kids _ _ _ _ H) as (k & -> & It). exists (yield (Node NParagraph [] k [])). split; [exact A|]. split; [exact St|].
  cbn [trimmed paragraph_of map] in E. injection E as E. apply trim_nil in E. cbn [yield app]. rewrite app_nil_r.
  destruct k as [|x k]; [intros c []|]. destruct E as [E|(y & E & Hy)].
  - exfalso. destruct x as [l|l|n o k' c]; cbn in E; [discriminate|apply It|]. destruct It as [It _]. destruct n; try discriminate It; discriminate E.
  - destruct x as [l|l|n o k' c]; [|exfalso; apply It|exfalso; destruct It as [It _]; destruct n; try discriminate It; discriminate E]. injection E as E1 E2. destruct k as [|x2 k].
    + cbn [flat_map yield]. rewrite app_nil_r. rewrite E1. exact Hy.
    + exfalso. destruct It as (_ & It2 & It). destruct x2 as [l2|l2|n o k' c]; [contradiction|contradiction|]. destruct It as [It _]. destruct n; try discriminate It; discriminate E2.
Qed.
(** A paragraph that starts with a character other than a line feed is not empty. *)
Lemma full_par : forall s b st w ts us t r, cov s b (w :: ts) us -> leading c_nl (chars us) = 0 -> stopped st (w :: ts) = false -> fparagraph st (w :: ts) = (t, r) -> trimmed s t <> [[]].
Proof.
  intros s b st w ts us t r H L St P E. destruct (blank_par _ _ _ _ _ P E) as (l & E1 & E2 & E3). destruct l as [|w' l]; [cbn in E1; subst r; congruence|]. injection E1 as <- E1.
  destruct (ttext_first _ _ _ _ _ H) as (u & q & x & -> & T). cbn [chars leading] in L. specialize (E3 (snd u)). unfold ttexts in E3. cbn [flat_map] in E3. rewrite T in E3. rewrite E3 in L by (left; reflexivity). rewrite char_eqb_refl in L. discriminate.
Qed.

(** ** Paragraphs after one line feed too few *)

Lemma raw_raw2 : forall c d us, raw_at c us = false -> raw2_at c d us = false.
Proof. intros c d [|u us] H; [reflexivity|]. cbn [raw_at raw2_at] in *. rewrite H. reflexivity. Qed.
Lemma hpar_go : forall n l A1 A2 R, hpar n l -> uflats l = A1 ++ A2 -> A2 <> [] -> aft true A1 = true -> raw_at c_nl A2 = false -> ustop (hstop n) true (A2 ++ raw c_nl :: R) = false.
Proof.
  intros n l A1 A2 R (G & NE & He & [Ta Tb] & Hp & Hb & Ht) E N2 Ha H2.
  assert (X : ustop (cst n) true (A2 ++ raw c_nl :: R) = false).
  { destruct n as [|n]; [destruct A2; [congruence|reflexivity]|]. apply cst_stop_false; [destruct A2; discriminate|]. cbn [fires andb]. rewrite raw2_tail; [|exact N2| |reflexivity].
    - cbn [orb]. destruct A2 as [|u A2]; [congruence|]. cbn [app]. cbn [raw_at] in H2. unfold is_nl. rewrite H2. reflexivity.
    - apply aft_true in Ha. destruct Ha as [[-> _]|(q & ->)]; [cbn in E; rewrite <- E; exact Hp|]. destruct (raw2_at c_percent c_rcurly A2) eqn:Q; [|reflexivity]. exfalso. apply raw2_at_true in Q. destruct Q as (w & ->).
      destruct (Tb ltac:(discriminate)) as [_ T2]. apply (T2 q w). rewrite E, <- app_assoc. reflexivity. }
  change (ustop (hstop n) true (A2 ++ raw c_nl :: R)) with (match A2 ++ raw c_nl :: R with [] => true | _ => existsb (fires true (A2 ++ raw c_nl :: R)) (hstop n) end).
  destruct (A2 ++ raw c_nl :: R) as [|u w] eqn:EA; [destruct A2; discriminate|]. unfold ustop in X. cbn [hstop existsb]. rewrite X. cbn [fires andb]. rewrite <- EA.
  rewrite raw_raw2 by (destruct A2; [congruence|exact H2]). cbn [orb]. rewrite orb_false_r. apply Nat.eqb_neq. intros K. destruct (lead_split c_bang (A2 ++ raw c_nl :: R)) as [Es _]. rewrite K in Es.
  assert (Q : raw2_at c_bang c_bang (A2 ++ raw c_nl :: R) = true) by (rewrite Es; reflexivity). rewrite raw2_tail in Q; [discriminate|exact N2|exact (Hb _ _ E Ha)|reflexivity].
Qed.

Lemma hloop_step : forall s m st ts k c rest, fhighlight_loop m st ts = Some (k, c, rest) ->
  exists m' t r, m = S m' /\ ts = t :: r /\ stopped st ts = false
    /\ (is_two_bangs t = true /\ k = []
        \/ is_two_bangs t = false /\ exists par r2 k', fparagraph (StopTerminator :: StopHighlightEnd :: st) (if is_terminator t then r else ts) = (par, r2)
             /\ fhighlight_loop m' st r2 = Some (k', c, rest) /\ flat_map (trimmed s) k = trimmed s par ++ flat_map (trimmed s) k' /\ (quiet k' -> quiet k)).
Proof.
  intros s m st ts k c rest H. destruct m as [|m]; [discriminate|]. cbn [fhighlight_loop] in H. destruct ts as [|t r]; [discriminate|]. destruct (stopped st (t :: r)) eqn:St; [discriminate|]. exists m, t, r. split; [reflexivity|]. split; [reflexivity|]. split; [reflexivity|].
  destruct (is_two_bangs t); [left; split; [reflexivity|]; destruct (with_eol t r); congruence|right]. split; [reflexivity|].
  destruct (is_terminator t).
  - destruct (fparagraph _ r) as [par r2] eqn:P. destruct (fhighlight_loop m st r2) as [[[k' c'] rest']|] eqn:L; [|discriminate]. injection H as <- <- <-. exists par, r2, k'. split; [reflexivity|]. split; [exact L|]. split; [reflexivity|].
    destruct (par_kids _ _ _ _ P) as (q & -> & _). intros [Q1 Q2]. split; [exact Q1|exact Q2].
  - destruct (fparagraph _ (t :: r)) as [par r2] eqn:P. destruct (fhighlight_loop m st r2) as [[[k' c'] rest']|] eqn:L; [|discriminate]. injection H as <- <- <-. exists par, r2, k'. split; [reflexivity|]. split; [exact L|]. split; [reflexivity|].
    destruct (par_kids _ _ _ _ P) as (q & -> & _). intros [Q1 Q2]. split; [exact Q1|exact Q2].
Qed.
Lemma hloop_quiet : forall m st ts k c rest, fhighlight_loop m st ts = Some (k, c, rest) -> quiet k.
Proof.
  induction m as [|m IH]; intros st ts k c rest H; [discriminate|]. destruct (hloop_step [] _ _ _ _ _ _ H) as (m' & t & r & Em & -> & _ & [[_ ->]|(_ & par & r2 & k' & _ & L & _ & Q)]); [split; reflexivity|]. injection Em as <-. exact (Q (IH _ _ _ _ _ L)).
Qed.
Lemma par_one : forall s st ts t r, fparagraph st ts = (t, r) -> exists p, trimmed s t = [p].
Proof. intros s st ts t r H. destruct (par_kids _ _ _ _ H) as (k & -> & _). eexists. reflexivity. Qed.
Lemma par_stopped : forall s st ts t r, fparagraph st ts = (t, r) -> stopped st ts = true -> trimmed s t = [[]] /\ r = ts.
Proof. intros s st ts t r H St. unfold fparagraph in H. cbn [fitems] in H. rewrite St in H. injection H as <- <-. split; reflexivity. Qed.
Lemma not_bangs : forall s b t ts us, cov s b (t :: ts) us -> raw_at c_bang us = false -> is_two_bangs t = false.
Proof.
  intros s b t ts us H R. unfold is_two_bangs. rewrite swap3. rewrite (run_test _ _ _ _ _ c_bang Bang 2 H eq_refl ltac:(lia) ltac:(left; discriminate)). destruct us as [|u us]; [reflexivity|]. cbn [lead raw_at] in *. rewrite R. reflexivity.
Qed.

Definition led (n : nat) (l : list uitem) : Prop :=
  l = [] \/ hpar n l /\ (leading c_nl (chars (uflats l)) = 0 \/ exists w, uflats l = raw c_nl :: w /\ w <> [] /\ leading c_nl (chars w) = 0).

(** The paragraph at a line feed before a paragraph of a highlight is not empty. *)
Lemma shift_par : forall s n l R ts t r, hpar n l -> leading c_nl (chars (uflats l)) = 0 -> cov s true ts (raw c_nl :: uflats l ++ raw c_nl :: R) -> fparagraph (hstop n) ts = (t, r) -> trimmed s t <> [[]].
Proof.
  intros s n l R ts t r Hl L0 H P E. pose proof Hl as (G & NE & _ & _ & Hp & _). pose proof (ugoods_ne l G NE) as NU. pose proof (leading0_raw _ L0) as R0.
  assert (RA : raw_at c_nl (uflats l ++ raw c_nl :: R) = false) by (rewrite raw_at_app by exact NU; exact R0).
  destruct (cov_eol _ _ _ _ H RA) as (e & ts' & -> & E1 & E2 & E3 & E4). destruct (blank_par _ _ _ _ _ P E) as (lf & F1 & F2 & F3).
  destruct lf as [|e' lf].
  - cbn in F1. subst r. rewrite (stopped_units _ _ _ _ _ H) in F2. enough (ustop (hstop n) true (raw c_nl :: uflats l ++ raw c_nl :: R) = false) by congruence. unfold hstop.
    change (raw2_at c_nl c_nl (raw c_nl :: uflats l ++ raw c_nl :: R) || ((lead c_bang (raw c_nl :: uflats l ++ raw c_nl :: R) =? 2) || ustop (cst n) true (raw c_nl :: uflats l ++ raw c_nl :: R)) = false).
    rewrite line_stop; [|exact RA|apply raw2_tail; [exact NU|exact Hp|reflexivity]]. change (raw_at c_nl (uflats l ++ raw c_nl :: R) || (false || false) = false). rewrite RA. reflexivity.
  - injection F1 as <- F1. destruct lf as [|w lf].
    + cbn in F1. subst r. rewrite (stopped_units _ _ _ _ _ E4) in F2. rewrite (hpar_go n l [] (uflats l) R Hl eq_refl NU eq_refl R0) in F2. discriminate.
    + subst ts'. destruct (ttext_first _ _ _ _ _ E4) as (u & q & x & Eu & T). specialize (F3 (snd u)). unfold ttexts in F3. cbn [flat_map] in F3. rewrite T in F3. rewrite !in_app_iff in F3.
      destruct (uflats l) as [|u' us]; [congruence|]. injection Eu as -> _. cbn [chars leading] in L0. rewrite F3 in L0 by (right; left; left; reflexivity). rewrite char_eqb_refl in L0. discriminate.
Qed.
Lemma shift_loop : forall s n ls m ts B k c rest, ls <> [] -> Forall (led n) ls -> stail n B -> cov s true ts (raw c_nl :: hbody ls B) ->
  fhighlight_loop m (cst n) ts = Some (k, c, rest) -> flat_map (trimmed s) k <> [] :: map (map uerase) ls.
Proof.
  intros s n ls. induction ls as [|l ls IH]; intros m ts B k c rest NE F T H HL E; [congruence|]. inversion F as [|? ? Fl Fls]; subst.
  destruct (hloop_step s _ _ _ _ _ _ HL) as (m' & t & r & -> & -> & St & [[K ->]|(K & par & r2 & k' & P & L & Ek & _)]); [discriminate E|].
  fold (hstop n) in P. rewrite Ek in E. destruct (par_one s _ _ _ _ P) as (p & Ep). rewrite Ep in E. cbn [app map] in E. injection E as Ep0 E. subst p.
  destruct Fl as [->|[Hl Fl]].
  - destruct ls as [|l2 ls].
    + change (hbody [[]] B) with (raw c_nl :: bang2 ++ B) in H. destruct (cov_term _ _ _ _ H) as (t' & r' & E0 & E1 & _ & _ & E4). injection E0 as <- <-. unfold is_terminator in P. rewrite E1 in P. cbn [kind_eqb] in P.
      assert (HB : raw_at c_bang B = false) by (apply (stail_not n); [exact T|discriminate]).
      assert (S2 : stopped (hstop n) r = true).
      { rewrite (stopped_units _ _ _ _ _ E4). change (ustop (hstop n) true (bang2 ++ B)) with ((lead c_bang (bang2 ++ B) =? 2) || existsb (fires true (bang2 ++ B)) (cst n)). pose proof (lead_repeat c_bang 2 B HB) as Lb. change (repeat (raw c_bang) 2) with bang2 in Lb. rewrite Lb. reflexivity. }
      destruct (par_stopped s _ _ _ _ P S2) as [_ ->]. destruct (two_bangs_units _ _ _ E4 HB) as (w & r3 & -> & W & _).
      destruct (hloop_step s _ _ _ _ _ _ L) as (m2 & t2 & r4 & _ & Et & _ & [[_ ->]|(K2 & _)]); [discriminate E|]. injection Et as <- <-. congruence.
    + assert (EH : hbody ([] :: l2 :: ls) B = raw c_nl :: raw c_nl :: hbody (l2 :: ls) B) by reflexivity. rewrite EH in H.
      destruct (cov_term _ _ _ _ H) as (t' & r' & E0 & E1 & _ & _ & E4). injection E0 as <- <-. unfold is_terminator in P. rewrite E1 in P. cbn [kind_eqb] in P.
      assert (C : stopped (hstop n) r = true \/ exists R, hbody (l2 :: ls) B = uflats l2 ++ raw c_nl :: R /\ hpar n l2 /\ leading c_nl (chars (uflats l2)) = 0).
      { assert (D : raw_at c_nl (hbody (l2 :: ls) B) = true -> stopped (hstop n) r = true).
        { intros Q. rewrite (stopped_units _ _ _ _ _ E4). apply raw_at_true in Q. destruct Q as (q & ->). reflexivity. }
        destruct (hbody_cons l2 ls B) as (R & EB & _). inversion Fls as [|? ? F2 _]; subst. destruct F2 as [->|[H2 [Z|(w & Ew & _)]]].
        - left. apply D. rewrite EB. reflexivity.
        - right. exists R. auto.
        - left. apply D. rewrite EB, Ew. reflexivity. }
      destruct C as [C|(R & EB & H2 & Z)].
      * destruct (par_stopped s _ _ _ _ P C) as [_ ->]. exact (IH m' r B k' c rest ltac:(discriminate) Fls T E4 L E).
      * rewrite EB in E4. exact (shift_par s n l2 R r par r2 H2 Z E4 P Ep).
  - destruct (hbody_cons l ls B) as (R & EB & _). rewrite EB in H. destruct Fl as [Z|(w & Ew & Nw & Z)].
    + destruct (cov_eol _ _ _ _ H) as (t' & r' & E0 & E1 & _).
      { pose proof Hl as (G & NEl & _). rewrite raw_at_app by (apply ugoods_ne; assumption). exact (leading0_raw _ Z). }
      injection E0 as <- <-. unfold is_terminator in P. rewrite E1 in P. cbn [kind_eqb] in P. exact (shift_par s n l R _ par r2 Hl Z H P Ep).
    + rewrite Ew in H. cbn [app] in H. destruct (cov_term _ _ _ _ H) as (t' & r' & E0 & E1 & _ & _ & E4). injection E0 as <- <-. unfold is_terminator in P. rewrite E1 in P. cbn [kind_eqb] in P.
      destruct (cov_cons_inv _ _ _ _ E4) as (w0 & r0 & ->); [destruct w; discriminate|].
      refine (full_par s true (hstop n) w0 r0 _ par r2 E4 _ _ P Ep); [rewrite chars_app; apply leading0_app; [destruct w; [congruence|discriminate]|exact Z]|].
      rewrite (stopped_units _ _ _ _ _ E4). exact (hpar_go n l [raw c_nl] w R Hl Ew Nw eq_refl (leading0_raw _ Z)).
Qed.

(** ** A first paragraph that is read as the icon *)

Lemma icon_start : forall coll p, tame_inlines coll p -> begins [c_bang; c_space] (first_text p) -> ~ begins [c_bang; c_space; c_space] (first_text p) ->
  exists i, u_hpar p = raw c_bang :: raw c_space :: i /\ raw_at c_space i = false.
Proof.
  intros coll p T (y & Hy) Hn. destruct p as [|[t u|l|x|x|x|x|x] p]; try discriminate Hy. cbn [first_text] in *. destruct (text_first _ _ _ T) as [E Sh]. subst x.
  assert (N : forall d, In d [c_bang; c_space] -> ~ In (escd d) (u_pars (PText ([c_bang; c_space] ++ y) :: p))).
  { intros d Hd X. apply u_pars_escd in X. cbn in X. destruct Hd as [<-|[<-|[]]]; repeat (destruct X as [X|X]; [discriminate X|]); exact X. }
  assert (C : chars (u_pars (PText ([c_bang; c_space] ++ y) :: p)) = c_bang :: c_space :: y ++ chars (u_pars p)) by (rewrite E, chars_app, u_text_chars; reflexivity).
  unfold u_hpar. clear E. destruct (u_pars (PText ([c_bang; c_space] ++ y) :: p)) as [|[e1 d1] [|[e2 d2] q]]; try discriminate C. cbn [chars snd] in C. injection C as -> -> C.
  destruct e1; [exfalso; apply (N c_bang); [left; reflexivity|left; reflexivity]|]. destruct e2; [exfalso; apply (N c_space); [right; left; reflexivity|right; left; reflexivity]|].
  exists (bangs q). split; [reflexivity|]. destruct (raw_at c_space (bangs q)) eqn:R; [|reflexivity]. exfalso. apply raw_at_true in R. destruct R as (w & R).
  assert (C' : chars (bangs q) = c_space :: chars w) by (rewrite R; reflexivity). rewrite (more_chars _ _ _ (bangs_more q)), C in C'. destruct y as [|d y]; [|injection C' as -> _; apply Hn; exists y; reflexivity].
  destruct Sh as [->|(d & r & Er & Hd)]; [discriminate C'|]. rewrite Er in C'. cbn in C'. injection C' as -> _. revert Hd. nodel.
Qed.
Lemma icon_some : forall s n ts i R, cov s true ts ([raw c_bang; raw c_space] ++ i ++ raw c_nl :: R) -> absent c_nl i -> raw_at c_space i = false -> raw_at c_nl R = false -> ustop (cst n) false (raw c_nl :: R) = false ->
  exists o k c r, ficon (StopTerminator :: cst n) ts = Some (Node NIcon o k c, r).
Proof.
  intros s n ts i R H Ab Hs H1 H2. change ([raw c_bang; raw c_space] ++ i ++ raw c_nl :: R) with (repeat (raw c_bang) 1 ++ raw c_space :: i ++ raw c_nl :: R) in H.
  destruct (cov_runs _ _ _ c_bang Bang 0 _ H eq_refl ltac:(left; discriminate) eq_refl) as (t & r & -> & E1 & E2 & E3 & E4 & E5). change (aft true (repeat (raw c_bang) 1)) with false in E5.
  assert (Ns : raw_at c_space (i ++ raw c_nl :: R) = false) by (destruct i; [reflexivity|exact Hs]).
  change (raw c_space :: i ++ raw c_nl :: R) with (repeat (raw c_space) 1 ++ i ++ raw c_nl :: R) in E5.
  destruct (cov_runs _ _ _ c_space Space 0 _ E5 eq_refl ltac:(left; discriminate) Ns) as (t2 & r2 & -> & F1 & F2 & F3 & F4 & F5). change (aft false (repeat (raw c_space) 1)) with false in F5.
  unfold ficon. cbn [fseq]. replace (is_one_bang t) with true by (unfold is_one_bang; rewrite E1, E2, E3; reflexivity). replace (is_space_1 t2) with true by (unfold is_space_1; rewrite F1, F3; reflexivity).
  assert (Hf := cov_fine _ _ _ _ F5). apply fine_app in Hf. destruct Hf as [_ Hf]. apply fine_cons in Hf.
  assert (Ea : aft false i = false) by (destruct (aft false i) eqn:X; [|reflexivity]; apply aft_true in X; destruct X as [[_ X]|X]; [discriminate|exfalso; exact (absent_ends _ _ Ab X)]).
  destruct (until_close s (StopTerminator :: cst n) is_eol i false r2 [raw c_nl] R Eol F5) as (b & c & r3 & G1 & G2 & G3 & G4 & G5 & G6).
  - apply seam_nl. apply absent_ends. exact Ab.
  - apply calm_cons; [|apply line_calm0; exact Ab]. apply calm_term; [apply (nosub_absent _ (raw c_nl)); [left; reflexivity|exact Ab]|]. intros X. exfalso. exact (absent_ends _ _ Ab X).
  - intros A1 A2 w ts' -> NA X. apply absent_suffix in Ab. destruct (no_line_end _ _ _ _ _ _ X NA Ab) as [K1 K2]. unfold is_eol. destruct (kind w); try reflexivity; congruence.
  - apply utok_eol; [apply Hf|exact H1].
  - intros w K _ _. unfold is_eol. rewrite K. reflexivity.
  - change (ustop (StopTerminator :: cst n) (aft false i) ([raw c_nl] ++ R)) with (raw2_at c_nl c_nl (raw c_nl :: R) || ustop (cst n) (aft false i) (raw c_nl :: R)).
    replace (raw2_at c_nl c_nl (raw c_nl :: R)) with false by (destruct R; [reflexivity|]; symmetry; exact H1). rewrite Ea, H2. reflexivity.
  - rewrite G1. eauto 8.
Qed.
(** The first unescaped line feed. *)
Lemma first_line_feed : forall us, In (raw c_nl) us -> exists a b, us = a ++ raw c_nl :: b /\ absent c_nl a.
Proof.
  induction us as [|u us IH]; intros H; [contradiction|]. destruct (is_nl u) eqn:E.
  - apply is_nl_raw in E. subst u. exists [], us. split; [reflexivity|intros []].
  - destruct H as [->|H]; [discriminate E|]. destruct (IH H) as (a & b & -> & Ab). exists (u :: a), b. split; [reflexivity|]. intros [X|X]; [subst u; discriminate E|exact (Ab X)].
Qed.
Lemma like_icon_read : forall s n coll p r ts B, tame_hpar coll p -> (n <> 0 -> coll = true) -> like_icon p r -> stail n B -> cov s true ts (ujoin (map u_hpar (p :: r)) ++ raw c_nl :: bang2 ++ B) ->
  exists o k c r1, ficon (StopTerminator :: cst n) ts = Some (Node NIcon o k c, r1).
Proof.
  intros s n coll p r ts B (NE & T & He) Hn (L1 & L2 & L3) TB H. destruct (icon_start _ _ T L1 L2) as (i & Ei & Hs). destruct (u_hpar_hpar coll n p NE T He Hn) as (l & F1 & F2 & F3).
  pose proof F3 as (G & Nl & Hel & [Ta Tb] & Hp & Hb & Ht). rewrite F1 in *.
  assert (X : In (raw c_nl) i \/ absent c_nl i /\ r = []).
  { destruct (in_dec (fun u v : uchar => ltac:(decide equality; [apply N.eq_dec|apply Bool.bool_dec]) : {u = v} + {u <> v}) (raw c_nl) i) as [I|I]; [left; exact I|right]. split; [exact I|].
    destruct L3 as [->|(q & x & Hq & Hx & Bx)]; [reflexivity|]. exfalso. pose proof (pars_keep p q x Hq Hx Bx) as K. rewrite Ei in K. destruct K as [K|[K|K]]; [discriminate K|discriminate K|contradiction]. }
  assert (E : exists R, ujoin (map u_hpar (p :: r)) ++ raw c_nl :: bang2 ++ B = u_hpar p ++ raw c_nl :: R /\ (r = [] -> R = bang2 ++ B)).
  { cbn [map ujoin]. destruct r as [|q r]; cbn [map]; [rewrite app_nil_r; eauto|]. rewrite <- app_assoc. eexists. split; [reflexivity|discriminate]. }
  destruct E as (R & E & ER). rewrite E in H. destruct X as [X|[Ab ->]].
  - destruct (first_line_feed _ X) as (a & b & -> & Ab). assert (Nb : b <> []) by (intros ->; apply Hel; rewrite Ei; exists (raw c_bang :: raw c_space :: a); reflexivity).
    assert (Rb : raw_at c_nl b = false).
    { destruct (raw_at c_nl b) eqn:Q; [|reflexivity]. apply raw_at_true in Q. destruct Q as (q & ->). exfalso. apply (Ta (raw c_bang :: raw c_space :: a) q). rewrite Ei. reflexivity. }
    rewrite Ei in H. cbn [app] in H. rewrite <- app_assoc in H. cbn [app] in H. apply (icon_some s n ts a (b ++ raw c_nl :: R) H Ab).
    + destruct a; [reflexivity|exact Hs].
    + rewrite raw_at_app by exact Nb. exact Rb.
    + destruct n as [|n]; [reflexivity|]. apply line_stop; [rewrite raw_at_app by exact Nb; exact Rb|]. apply raw2_tail; [exact Nb| |reflexivity]. destruct (raw2_at c_percent c_rcurly b) eqn:Q; [|reflexivity]. exfalso.
      apply raw2_at_true in Q. destruct Q as (w & ->). destruct (Tb ltac:(discriminate)) as [_ T2]. apply (T2 (raw c_bang :: raw c_space :: a) w). rewrite Ei. reflexivity.
  - rewrite (ER eq_refl), Ei in H. apply (icon_some s n ts i (bang2 ++ B) H Ab Hs); [reflexivity|]. apply line_stop; reflexivity.
Qed.

(** ** Highlights *)

Lemma first_line : forall s n ts ot E R x r, oline ot -> cov s true ts (bang2 ++ utitle ot ++ E ++ R) -> eol_pat E R -> (ot = None -> E = [raw c_nl]) -> (forall b, ustop (cst n) b (E ++ R) = false) ->
  fhighlight (cst n) ts = Some (x, r) ->
  exists o k1 r1 k2 r2 k3 c, cov s true r1 R /\ opt_tree (ficon (StopTerminator :: cst n) r1) r1 = (k2, r2) /\ fhighlight_loop (S (List.length r2)) (cst n) r2 = Some (k3, c, r)
    /\ x = Node NHighlight o (k1 ++ k2 ++ k3) c /\ flat_map (child NIcon) k1 = [] /\ flat_map (trimmed s) k1 = [].
Proof.
  intros s n ts ot E R x r Ht H HE Ho Hst EH.
  assert (N1 : raw_at c_bang (utitle ot ++ E ++ R) = false) by (destruct ot; [reflexivity|]; destruct HE as [[-> _]| ->]; reflexivity).
  destruct (two_bangs_units _ _ _ H N1) as (t & r0 & -> & E1 & E2). unfold fhighlight in EH. cbn [fseq] in EH. rewrite E1 in EH.
  assert (Fin : forall o k1 r1, (let (k2, r2) := opt_tree (ficon (StopTerminator :: cst n) r1) r1 in if nth_is 0 col0 r2 then match fhighlight_loop (S (List.length r2)) (cst n) r2 with
      | Some (k3, c, rest) => Some (Node NHighlight o (k1 ++ k2 ++ k3) c, rest) | None => None end else None) = Some (x, r) ->
      exists k2 r2 k3 c, opt_tree (ficon (StopTerminator :: cst n) r1) r1 = (k2, r2) /\ fhighlight_loop (S (List.length r2)) (cst n) r2 = Some (k3, c, r) /\ x = Node NHighlight o (k1 ++ k2 ++ k3) c).
  { intros o k1 r1 Q. destruct (opt_tree (ficon (StopTerminator :: cst n) r1) r1) as [k2 r2]. destruct (nth_is 0 col0 r2); [|discriminate]. destruct (fhighlight_loop (S (List.length r2)) (cst n) r2) as [[[k3 c] rest]|] eqn:L; [|discriminate].
    injection Q as <- <-. exists k2, r2, k3, c. auto. }
  destruct ot as [ut|].
  - destruct Ht as [Ht1 Ht2]. cbn [utitle uoption app] in E2. assert (Ns : raw_at c_space (ut ++ E ++ R) = false) by (destruct ut; [destruct HE as [[-> _]| ->]; reflexivity|exact Ht2]).
    change (raw c_space :: ut ++ E ++ R) with (repeat (raw c_space) 1 ++ ut ++ E ++ R) in E2.
    destruct (cov_runs _ _ _ c_space Space 0 _ E2 eq_refl ltac:(left; discriminate) Ns) as (t2 & r2 & -> & F1 & F2 & F3 & F4 & F5). change (aft false (repeat (raw c_space) 1)) with false in F5.
    destruct (modifier_units s (cst n) r2 ut E R F5 Ht1 HE) as (b1 & c1 & r3 & G1 & G2 & G3 & G4); [apply line_calm0; exact Ht1|apply Hst|].
    cbn [fseq] in EH. replace (is_space_1 t2) with true in EH by (unfold is_space_1; rewrite F1, F3; reflexivity). cbn [orb last] in EH. replace (is_eol t2) with false in EH by (unfold is_eol; rewrite F1; reflexivity).
    cbn [negb] in EH. rewrite G1 in EH. cbn [opt_tree] in EH. destruct (Fin _ _ _ EH) as (k2 & r4 & k3 & c & Q1 & Q2 & Q3).
    exists [t; t2], [Node NModifier [] [Leaf b1] [c1]], r3, k2, r4, k3, c. repeat split; auto.
  - rewrite (Ho eq_refl) in *. cbn [utitle uoption app] in E2. assert (HR : raw_at c_nl R = false) by (destruct HE as [[_ Q]|Q]; [exact Q|discriminate Q]).
    destruct (cov_eol _ _ _ _ E2 HR) as (t2 & r2 & -> & F1 & F2 & F3 & F4).
    cbn [fseq] in EH. replace (is_eol t2) with true in EH by (unfold is_eol; rewrite F1; reflexivity). rewrite orb_true_r in EH. cbn [last] in EH. replace (is_eol t2) with true in EH by (unfold is_eol; rewrite F1; reflexivity).
    cbn [negb] in EH. destruct (Fin _ _ _ EH) as (k2 & r4 & k3 & c & Q1 & Q2 & Q3). exists [t; t2], [], r2, k2, r4, k3, c. repeat split; auto.
Qed.
Lemma trim_first : forall l, leading c_nl (first_text l) = 0 -> leading c_nl (first_text (trim_trailing_newline_from_text l)) = 0.
Proof.
  intros l H. destruct l as [|p l _] using rev_ind; [reflexivity|]. destruct (is_ptext p) eqn:E; [|rewrite trim_other by (intros x ->; discriminate); exact H].
  destruct p as [? ?|?|?|?|x|?|?]; try discriminate. rewrite trim_snoc. destruct (trim_end c_nl x) as [|d y] eqn:Ex.
  - destruct l as [|q l]; [reflexivity|exact H].
  - destruct l as [|q l]; [|exact H]. cbn [app first_text] in *. destruct (RawAst.trim_end_prefix c_nl x) as (z & Z). rewrite Ex in Z. rewrite Z in H. cbn [app leading] in H |- *. destruct (char_eqb d c_nl); [discriminate|reflexivity].
Qed.
Lemma led_par : forall s b st w ts us t r p, cov s b (w :: ts) us -> leading c_nl (chars us) = 0 -> fparagraph st (w :: ts) = (t, r) -> trimmed s t = [p] -> leading c_nl (first_text p) = 0.
Proof.
  intros s b st w ts us t r p H L P E. pose proof (fparagraph_app _ _ _ _ P) as A. destruct (par_kids _ _ _ _ P) as (k & -> & It). cbn [trimmed paragraph_of map] in E. injection E as <-. apply trim_first.
  destruct k as [|x k]; [reflexivity|]. destruct x as [l|l|n o k' c]; [|destruct It|destruct It as [It _]; destruct n; try discriminate It; reflexivity].
  cbn [pars_of flat_map par_of app first_text]. destruct It as [Nl _]. destruct l as [|w' l]; [congruence|]. cbn [yield app flat_map] in A. injection A as <- _.
  destruct (ttext_first _ _ _ _ _ H) as (u & q & z & -> & Tw). unfold ttexts. cbn [flat_map]. rewrite Tw. cbn [chars leading app] in *. destruct (char_eqb (snd u) c_nl); [discriminate|reflexivity].
Qed.
Lemma ficon_root : forall st ts y r, ficon st ts = Some (y, r) -> exists o k c, y = Node NIcon o k c.
Proof.
  intros st ts y r H. unfold ficon in H. destruct (fseq [is_one_bang; is_space_1] ts) as [[o r0]|]; [|discriminate]. destruct (until st is_eol r0) as [[[b c] rest]|]; [|discriminate]. injection H as <- _. eauto.
Qed.
Lemma icon_child : forall s k1 k2 k3, flat_map (child NIcon) k1 = [] -> flat_map (child NIcon) k3 = [] ->
  child_text s NIcon (k1 ++ k2 ++ k3) = match flat_map (child NIcon) k2 with c :: _ => Some (inner s c) | [] => None end.
Proof. intros s k1 k2 k3 H1 H3. unfold child_text. rewrite !flat_map_app, H1, H3, app_nil_r. reflexivity. Qed.

Lemma highlight_conv : forall coll n t i ps, mild_block coll (YHighlight t i ps) -> single_block (YHighlight t i ps) -> (n <> 0 -> coll = true) -> conv n (YHighlight t i ps).
Proof.
  intros coll n t i ps (T1 & T2 & T3) Si Hn s ts B fuel x r H TB He Hf E Bx. cbn [single_block] in Si. cbn [u_block] in H. unfold u_highlight in H. rewrite <- !app_assoc in H.
  apply oline_u0 in T1 as O1. apply oline_u0 in T2 as O2.
  assert (X : exists ls, map uflats ls = map u_hpar ps /\ map (map uerase) ls = ps /\ Forall (led n) ls).
  { clear - T3 Si Hn. induction ps as [|p ps IH]; [exists []; repeat split; constructor|]. inversion T3 as [|? ? P T4]; subst. inversion Si as [|? ? S1 S2]; subst. destruct (IH T4 S2) as (ls & E1 & E2 & E3).
    destruct P as [->|P]; [exists ([] :: ls); cbn [map]; rewrite E1, E2; repeat split; constructor; [left; reflexivity|exact E3]|]. pose proof P as (P1 & P2 & P3). destruct (u_hpar_hpar coll n p P1 P2 P3 Hn) as (l & F1 & F2 & F3).
    exists (l :: ls). cbn [map]. rewrite E1, E2, F1, F2. repeat split. constructor; [|exact E3]. right. split; [exact F3|]. rewrite F1. destruct (leading c_nl (first_text p)) as [|[|m]] eqn:L; [left|right|lia].
    - exact (hpar_unled _ _ P1 P2 L).
    - exact (hpar_led _ _ P L). }
  destruct X as (ls & E1 & E2 & E3). change ([raw c_nl] ++ bang2 ++ B) with (raw c_nl :: bang2 ++ B) in H. set (HB := ujoin (map u_hpar ps) ++ raw c_nl :: bang2 ++ B) in H. assert (EHB : HB = hbody ls B) by (unfold HB, hbody; rewrite E1; reflexivity).
  (* it was read as a highlight *)
  assert (EH : fhighlight (cst n) ts = Some (x, r)).
  { unfold fblock in E. destruct ts as [|w0 ts]; [apply cov_nil_r in H; discriminate|]. rewrite (fcode_none _ _ _ _ _ _ H) in E by reflexivity. rewrite (fcoll_none _ _ _ _ _ _ _ H) in E by reflexivity. unfold forelse in E. rewrite (fembed_none _ _ _ _ _ _ H) in E by reflexivity.
    destruct (fhighlight (cst n) (w0 :: ts)) as [[y r0]|]; [congruence|]. exfalso. apply fsimple_root in E. destruct x as [l|l|m o k c]; try contradiction. destruct m; try contradiction; discriminate Bx. }
  assert (Last : forall o k1 r1 k2 r2 k3 c, opt_tree (ficon (StopTerminator :: cst n) r1) r1 = (k2, r2) -> fhighlight_loop (S (List.length r2)) (cst n) r2 = Some (k3, c, r) ->
    x = Node NHighlight o (k1 ++ k2 ++ k3) c -> flat_map (child NIcon) k1 = [] -> flat_map (trimmed s) k1 = [] ->
    match i with Some _ => exists y, ficon (StopTerminator :: cst n) r1 = Some (y, r2) | None => ficon (StopTerminator :: cst n) r1 = None /\ r2 = r1 /\ flat_map (trimmed s) k3 = ps end).
  { intros o k1 r1 k2 r2 k3 c Q1 Q2 -> Q4 Q5. pose proof (hloop_quiet _ _ _ _ _ _ Q2) as [_ Q6]. cbn [blocks] in Bx. injection Bx as B1 B2 B3. rewrite icon_child in B2 by assumption. rewrite !flat_map_app, Q5 in B3. cbn [app] in B3.
    destruct (ficon (StopTerminator :: cst n) r1) as [[y r1']|] eqn:F; cbn [opt_tree] in Q1; injection Q1 as <- <-.
    - destruct (ficon_root _ _ _ _ F) as (o' & k' & c' & ->). cbn in B2. destruct i; [|discriminate]. eauto.
    - cbn in B2. subst i. auto. }
  destruct (raw_at c_nl HB) eqn:RB.
  - destruct i as [i|].
    + exfalso. destruct (first_line s n ts (option_map u0 t) [raw c_nl] (uicon (option_map u0 (Some i)) ++ HB) x r O1 H) as (o & k1 & r1 & k2 & r2 & k3 & c & Q1 & Q2 & Q3 & Q4 & Q5 & Q6); [left; split; reflexivity|reflexivity| |exact EH|].
      { intros b. apply line_stop; reflexivity. }
      destruct (Last _ _ _ _ _ _ _ Q2 Q3 Q4 Q5 Q6) as (y & Y). cbn [option_map uicon uoption] in Q1. rewrite <- app_assoc in Q1. change ([raw c_bang; raw c_space] ++ (u0 i ++ [raw c_nl]) ++ HB) with (([raw c_bang; raw c_space] ++ (u0 i ++ [raw c_nl]) ++ HB)) in Q1.
      assert (Q1' : cov s true r1 (([raw c_bang; raw c_space] ++ u0 i) ++ raw c_nl :: HB)) by (rewrite <- !app_assoc in Q1 |- *; exact Q1).
      rewrite (ficon_blank _ _ _ _ _ Q1') in Y; [discriminate| |exact RB]. intros [Z|[Z|Z]]; [discriminate Z|discriminate Z|]. exact (proj1 O2 Z).
    + destruct t as [t|].
      * apply raw_at_true in RB. destruct RB as (X & RB). rewrite RB in H. cbn [option_map uicon uoption] in H.
        destruct (first_line s n ts (Some (u0 t)) [raw c_nl; raw c_nl] X x r O1 H) as (o & k1 & r1 & k2 & r2 & k3 & c & Q1 & Q2 & Q3 & Q4 & Q5 & Q6); [right; reflexivity|discriminate| |exact EH|].
        { intros b. apply cst_stop_false; [discriminate|]. cbn. rewrite andb_false_r. reflexivity. }
        destruct (Last _ _ _ _ _ _ _ Q2 Q3 Q4 Q5 Q6) as (Y1 & -> & Y3). rewrite RB in EHB. destruct ps as [|p ps]; [split; [discriminate|reflexivity]|]. exfalso.
        destruct ls as [|l ls]; [discriminate E1|]. inversion E3 as [|? ? Fl Fls]; subst. destruct Fl as [->|[Hl [Z|(w & Ew & Nw & Z)]]].
        -- destruct ls as [|l2 ls].
           ++ change (hbody [[]] B) with (raw c_nl :: bang2 ++ B) in EHB. injection EHB as ->. assert (HBB : raw_at c_bang B = false) by (apply (stail_not n); [exact TB|discriminate]).
              destruct (two_bangs_units _ _ _ Q1 HBB) as (w & r3 & -> & W & _). destruct (hloop_step s _ _ _ _ _ _ Q3) as (m2 & t2 & r4 & _ & Et & _ & [[_ ->]|(K2 & _)]); [discriminate Y3|]. injection Et as <- <-. congruence.
           ++ assert (EX : X = raw c_nl :: hbody (l2 :: ls) B) by (injection EHB as ->; reflexivity). rewrite EX in Q1. refine (shift_loop s n (l2 :: ls) _ _ B _ _ _ ltac:(discriminate) Fls TB Q1 Q3 _). rewrite Y3. exact (eq_sym E2).
        -- destruct (hbody_cons l ls B) as (R & EB & _). rewrite EB in EHB. pose proof Hl as (G & NEl & _). destruct (uflats l) as [|u us] eqn:EU; [exact (ugoods_ne l G NEl EU)|]. injection EHB as <- _. cbn [chars snd raw leading] in Z. rewrite char_eqb_refl in Z. discriminate.
        -- destruct (hbody_cons l ls B) as (R & EB & _). rewrite EB, Ew in EHB. injection EHB as ->. destruct (cov_cons_inv _ _ _ _ Q1) as (w0 & r0 & ->); [destruct w; discriminate|].
           assert (ZR : leading c_nl (chars (w ++ raw c_nl :: R)) = 0) by (rewrite chars_app; apply leading0_app; [destruct w; [congruence|discriminate]|exact Z]).
           destruct (hloop_step s _ _ _ _ _ _ Q3) as (m2 & t2 & r4 & _ & Et & _ & [[_ ->]|(_ & par & r2 & k' & P & _ & Ek & _)]); [discriminate Y3|]. injection Et as <- <-.
           replace (is_terminator w0) with false in P by (symmetry; unfold is_terminator; rewrite (term_test _ _ _ _ _ Q1); apply raw_raw2; exact (leading0_raw _ ZR)).
           destruct (par_one s _ _ _ _ P) as (q & Eq). pose proof (led_par _ _ _ _ _ _ _ _ _ Q1 ZR P Eq) as Lq. rewrite Ek, Eq in Y3. injection Y3 as Eqp _. subst q.
           cbn [map] in E1. injection E1 as E1 _. inversion T3 as [|? ? Tp _]; subst. destruct Tp as [->|(P1 & P2 & _)]; [discriminate (eq_trans (eq_sym Ew) E1)|]. pose proof (hpar_unled _ _ P1 P2 Lq) as LL. rewrite <- E1, Ew in LL. cbn [chars snd raw leading] in LL. rewrite char_eqb_refl in LL. discriminate.
      * exfalso. cbn [option_map utitle uicon uoption app] in H. apply raw_at_true in RB. destruct RB as (X & RB). rewrite RB in H.
        destruct (two_bangs_units _ _ _ H eq_refl) as (w & r0 & -> & W & C). destruct (cov_term _ _ _ _ C) as (t' & r' & -> & K1 & _). unfold fhighlight in EH. cbn [fseq] in EH. rewrite W in EH. unfold is_space_1, is_eol in EH. rewrite K1 in EH. discriminate EH.
  - destruct ps as [|p ps]; [discriminate RB|]. inversion T3 as [|? ? Tp _]; subst. inversion Si as [|? ? S1 _]; subst.
    assert (P0 : p <> []) by (intros ->; destruct ps; discriminate RB). destruct Tp as [Tp|Tp]; [contradiction|]. cbn [settled_block]. split; [exact P0|].
    assert (EB : exists R, HB = u_hpar p ++ raw c_nl :: R) by (unfold HB; cbn [map ujoin]; destruct ps; cbn [map]; [rewrite app_nil_r; eauto|rewrite <- app_assoc; eexists; reflexivity]). destruct EB as (R & EB).
    split.
    + intros (y & Y). assert (L1 : leading c_nl (first_text p) = 1) by (rewrite Y in S1 |- *; cbn [leading] in *; rewrite char_eqb_refl in *; lia). destruct (hpar_led _ _ Tp L1) as (w & W & _). rewrite EB, W in RB. discriminate RB.
    + intros -> LI. pose proof Tp as (P1 & P2 & P3). pose proof (more_ne _ _ _ (u_hpar_more p) (u_pars_ne _ _ P2 P1)) as NU. cbn [option_map uicon uoption app] in H.
      destruct (first_line s n ts (option_map u0 t) [raw c_nl] HB x r O1 H) as (o & k1 & r1 & k2 & r2 & k3 & c & Q1 & Q2 & Q3 & Q4 & Q5 & Q6); [left; split; [reflexivity|exact RB]|reflexivity| |exact EH|].
      { intros b. apply line_stop; [exact RB|]. rewrite EB. apply raw2_tail; [exact NU|exact (more_raw2 _ _ _ _ _ (u_hpar_more p) (u_pars_pct _ _ P2))|reflexivity]. }
      destruct (Last _ _ _ _ _ _ _ Q2 Q3 Q4 Q5 Q6) as (Y1 & _). destruct (like_icon_read s n coll p ps r1 B Tp Hn LI TB Q1) as (? & ? & ? & ? & Y2). congruence.
Qed.
