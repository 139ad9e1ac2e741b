(** Blocks that are read back from what [Display] writes for them are tame: paragraphs and
    headings. *)
From Coq Require Import String Bool.
From Verif Require Import Base Lexer LexSpec LexProofs LexFacts Ops Parser FParser Refine Refine2 Refine3 Wf TokFacts StreamSpec Lines ToYamd TreeAst Ast Api AstSpec AstProofs Tame Settled Mild Runs Units ULex Stops Inline LinkUnits AstUnits Calm Blocks Docs Highlight Lists UBlocks UList UDocs Unsettled UnsettledHl Span Written.
From Verif Require RawTree RawAst RawLinks.
Open Scope list_scope.

(** ** Tokens in units *)

Lemma cut_chars : forall (U : list uchar) x y, chars U = x ++ y -> exists A B, U = A ++ B /\ chars A = x /\ chars B = y.
Proof.
  induction U as [|u U IH]; intros x y E.
  - destruct x; [|discriminate]. exists [], []. cbn in E. subst y. auto.
  - destruct x as [|c x]; [exists [], (u :: U); auto|]. injection E as E1 E. destruct (IH x y E) as (A & B & -> & <- & <-). exists (u :: A), B. cbn. rewrite E1. auto.
Qed.
(** The group of a token. *)
Lemma token_in : forall s d t e b r U R, cov s b ((d ++ t :: e) ++ r) (U ++ R) -> ttexts s (d ++ t :: e) = chars U ->
  exists A g C, U = A ++ g ++ C /\ group_ok (kind t) g /\ ttext s t = chars g /\ tlen t = byte_len (chars g) /\ utok (g ++ C ++ R) = Some (kind t, g, C ++ R) /\ ttexts s d = chars A /\ ttexts s e = chars C.
Proof.
  intros s d t e b r U R H E. rewrite ttexts_app, ttexts_cons in E. symmetry in E. destruct (cut_chars _ _ _ E) as (A & V & -> & EA & EV). destruct (cut_chars _ _ _ EV) as (G & C & -> & EG & EC).
  rewrite <- !app_assoc in H. pose proof (span _ _ _ _ _ _ H (eq_sym EA)) as H2. cbn [app] in H2. rewrite app_comm_cons in H2 || idtac.
  assert (NE : G ++ C ++ R <> []) by (intros X; rewrite X in H2; inversion H2; subst; discriminate).
  destruct (cov_inv _ _ _ _ H2 NE) as (t' & ts' & g & r' & Et & Ut & Eg & Ng & Gg & C0 & T1 & T2 & Cr). injection Et as <- <-.
  assert (X : G = g /\ C ++ R = r').
  { rewrite T1 in EG. clear - Eg EG. revert g Eg EG. induction G as [|u G IH]; intros [|v g] Eg EG; try discriminate; [auto|]. injection Eg as -> Eg. injection EG as EG. destruct (IH g Eg EG) as [-> ->]. auto. }
  destruct X as [-> <-]. exists A, g, C. rewrite <- EA, <- EC. repeat split; try assumption; try reflexivity.
Qed.

(** ** Line feeds at the end *)

Lemma last_nl : forall s n d b r U B, cov s b (d ++ r) (U ++ B) -> ttexts s d = chars U -> no2 c_nl c_nl U -> stail n B -> ends c_nl U -> B = [].
Proof.
  intros s n d b r U B H E N T (U' & EU). assert (X : B = [] \/ exists R, B = raw c_nl :: R) by (destruct T as [->|[(R & ->)|(_ & R & ->)]]; eauto). destruct X as [->|(R & ->)]; [reflexivity|exfalso].
  destruct d as [|t d _] using rev_ind; [subst U; rewrite chars_app in E; destruct (chars U'); discriminate E|].
  destruct (token_in s d t [] b r U _ H E) as (A & g & C & EU2 & G & T1 & T2 & Ut & E1 & E2). destruct C; [|discriminate E2]. rewrite app_nil_r in EU2. cbn [app] in Ut.
  destruct g as [|u g _] using rev_ind; [destruct (kind t); cbn in G; try (destruct G as (c & m & _ & X); discriminate X); try discriminate G; destruct G as (u & g' & X & _); discriminate X|].
  subst U. rewrite app_assoc in EU2. apply app_inj_tail in EU2. destruct EU2 as [-> <-].
  destruct (group_nl _ _ g [] G eq_refl) as [(K & -> & _)|(K & _ & X)].
  - cbn [app] in Ut. rewrite utok_term in Ut. injection Ut as Ut _ _. congruence.
  - rewrite app_nil_r in X. subst g. apply (N A []). rewrite <- app_assoc. reflexivity.
Qed.

Lemma leading_end : forall c x y, (exists z, x = z /\ leading c z < List.length z) -> leading c (x ++ y) = leading c x.
Proof.
  intros c x y (z & <- & H). induction x as [|d x IH]; [cbn in H; lia|]. cbn [app leading List.length] in *. destruct (char_eqb d c); [|reflexivity]. f_equal. apply IH. lia.
Qed.
Lemma nn2_last : forall us a, ~ In (escd c_nl) us -> nn2 us = a ++ [escd c_nl] -> Nat.Even (leading c_nl (rev (chars us))).
Proof.
  intros us. unfold nn2. remember (List.length us) as n eqn:En. assert (L : List.length us <= n) by lia. clear En. revert us L.
  induction n as [|n IH]; intros us L a N E; [destruct us; [destruct a; discriminate E|cbn in L; lia]|].
  destruct us as [|u us]; [destruct a; discriminate E|]. cbn [List.length] in L.
  assert (Nu : ~ In (escd c_nl) us) by (intros X; apply N; right; exact X).
  cbn [umark] in E. destruct (umatch [escd c_nl; escd c_nl] (u :: us)) eqn:M.
  - cbn [umatch] in M. apply andb_true_iff in M. destruct M as [M1 M2]. apply char_eqb_eq in M1. destruct us as [|v us]; [discriminate|]. cbn [follows] in M2.
    rewrite andb_true_r in M2. apply andb_true_iff in M2. destruct M2 as [_ M3]. apply char_eqb_eq in M3. destruct u as [eu cu], v as [ev cv]. cbn in M1, M3. subst cu cv.
    cbn [umark fst snd orb escd] in E. rewrite !orb_true_r in E. cbn [chars snd rev]. apply leading_pair.
    destruct a as [|p a]; [discriminate E|]. injection E as <- E. destruct a as [|p a]; [injection E as E; apply (f_equal chars) in E; rewrite umark_chars in E; rewrite E; exists 0; reflexivity|]. injection E as <- E.
    cbn [List.length] in L. apply (IH us ltac:(lia) a); [|exact E]. intros X. apply Nu. right. exact X.
  - destruct a as [|p a]; [injection E as -> _; exfalso; apply N; left; reflexivity|]. injection E as <- E. pose proof (IH us ltac:(lia) a Nu E) as Ev. cbn [chars rev].
    rewrite leading_snoc. destruct (forallb (fun e => char_eqb e c_nl) (rev (chars us))) eqn:F; [|exact Ev]. cbn [leading]. destruct (char_eqb (snd u) c_nl) eqn:Eu; [|rewrite Nat.add_0_r, <- (leading_all _ _ F); exact Ev].
    exfalso. apply char_eqb_eq in Eu. destruct us as [|[e d] us]; [destruct a; discriminate E|]. cbn [chars snd rev] in F. rewrite forallb_app in F. apply andb_true_iff in F. destruct F as [_ F]. cbn in F. rewrite andb_true_r in F.
    change (char_eqb d c_nl = true) in F. apply char_eqb_eq in F. subst d. destruct e; [apply Nu; left; reflexivity|]. cbn [umatch follows escd fst snd] in M. rewrite Eu, char_eqb_refl in M. discriminate M.
Qed.
Lemma u_text_odd : forall x, Nat.Odd (leading c_nl (rev x)) -> ends c_nl (u_text x).
Proof.
  intros x H. pose proof (u_text_chars x) as Ex. destruct (u_text x) as [|[e c] us _] eqn:EU using rev_ind; [cbn in Ex; subst x; destruct H as (m & H); cbn in H; lia|].
  rewrite chars_app in Ex. cbn [chars snd] in Ex. assert (c = c_nl). { rewrite <- Ex, rev_app_distr in H. cbn [rev app leading] in H. destruct (char_eqb c c_nl) eqn:X; [apply char_eqb_eq; exact X|destruct H as (m & H); lia]. } subst c.
  destruct e; [|exists us; reflexivity]. exfalso. clear Ex. unfold u_text, pp in EU.
  set (w := esc c_lcurly (esc c_lsquare (esc c_backtick (esc c_tilde (esc c_underscore (esc c_star (u0 x))))))) in EU.
  pose proof (umark0_more [escd c_percent; raw c_rcurly] (nn2 w)) as M. rewrite EU in M. apply Forall2_app_inv_r in M. destruct M as (a' & z & _ & M2 & E). inversion M2 as [|u v r' ? U R]; subst. inversion R; subst.
  destruct u as [e d]. destruct U as (U1 & U2 & U3). cbn in U1, U3. subst d. destruct (U3 eq_refl) as [->|[X|[X|[]]]]; try discriminate X.
  pose proof (nn2_last w a' ltac:(unfold w; noesc) E) as Ev. replace (chars w) with x in Ev by (unfold w; symmetry; charss). revert Ev H. rewrite <- Nat.even_spec, <- Nat.odd_spec. unfold Nat.odd. intros ->. discriminate.
Qed.
Lemma more_ends_inv : forall C a b c, more C a b -> ~ C c -> ends c a -> ends c b.
Proof.
  intros C a b c M HC (r & ->). apply Forall2_app_inv_l in M. destruct M as (b' & x & _ & M & ->). inversion M as [|u v ? ? (H1 & H2 & H3) M']; subst. inversion M'; subst.
  exists b'. destruct v as [e d]. cbn in *. subst d. destruct e; [|reflexivity]. destruct (H3 eq_refl) as [X|X]; [discriminate|contradiction].
Qed.
Lemma ends_more : forall c A B, ends c B -> ends c (A ++ B).
Proof. intros c A B (r & ->). exists (A ++ r). rewrite app_assoc. reflexivity. Qed.
Lemma blockmark_nl : ~ blockmark c_nl.
Proof. intros X. cbn in X. repeat (destruct X as [X|X]; [discriminate X|]). exact X. Qed.
Lemma par_ends : forall l, block_ends_nl (YParagraph l) -> ends c_nl (u_block (YParagraph l)).
Proof.
  intros l H. cbn [block_ends_nl u_block] in *. eapply more_ends_inv; [apply u_lead_more|exact blockmark_nl|].
  destruct l as [|p l _] using rev_ind; [destruct H as (m & H); cbn in H; lia|]. unfold u_pars. rewrite map_app, uflats_app. apply ends_more. unfold last_text in H. rewrite rev_app_distr in H. cbn [rev app] in H.
  destruct p as [? ?|?|?|?|x|?|?]; try (destruct H as (m & H); cbn in H; lia). unfold uflats. cbn [map flat_map u_par uflat]. rewrite app_nil_r. apply u_text_odd. exact H.
Qed.
Lemma nn_last : forall us a, ~ In (escd c_nl) us -> nn us <> a ++ [escd c_nl].
Proof.
  intros us. unfold nn. remember (List.length us) as n eqn:En. assert (L : List.length us <= n) by lia. clear En. revert us L.
  induction n as [|n IH]; intros us L a N E; [destruct us; [destruct a; discriminate E|cbn in L; lia]|].
  destruct us as [|u us]; [destruct a; discriminate E|]. cbn [List.length] in L.
  assert (Nu : ~ In (escd c_nl) us) by (intros X; apply N; right; exact X).
  cbn [umark] in E. destruct (umatch [escd c_nl; raw c_nl] (u :: us)) eqn:M.
  - cbn [umatch] in M. apply andb_true_iff in M. destruct M as [M1 M2]. apply char_eqb_eq in M1. destruct us as [|v us]; [discriminate|]. cbn [follows] in M2.
    rewrite andb_true_r in M2. apply andb_true_iff in M2. destruct M2 as [_ M3]. apply char_eqb_eq in M3. destruct u as [eu cu], v as [ev cv]. cbn in M1, M3. subst cu cv.
    assert (ev = false) by (destruct ev; [exfalso; apply Nu; left; reflexivity|reflexivity]). subst ev.
    cbn [umark fst snd orb escd raw] in E. destruct a as [|p a]; [discriminate E|]. injection E as <- E. destruct a as [|p a]; [injection E as E _; discriminate E|]. injection E as <- E.
    cbn [List.length] in L. apply (IH us ltac:(lia) a); [|exact E]. intros X. apply Nu. right. exact X.
  - destruct a as [|p a]; [injection E as -> _; exfalso; apply N; left; reflexivity|]. injection E as <- E. exact (IH us ltac:(lia) a Nu E).
Qed.
Lemma u_htext_end : forall x, ends_with_nl x -> ends c_nl (u_htext x).
Proof.
  intros x (y & ->). pose proof (u_htext_chars (y ++ [c_nl])) as Ex. destruct (cut_chars _ _ _ Ex) as (A & B & EU & _ & EB). destruct B as [|[e c] B]; [discriminate|]. cbn [chars snd] in EB. injection EB as -> EB. destruct B; [|discriminate].
  destruct e; [|exists A; exact EU]. exfalso. unfold u_htext in EU.
  pose proof (esc_more c_hash (nn (u0 (y ++ [c_nl])))) as M. rewrite EU in M. apply Forall2_app_inv_r in M. destruct M as (a' & z & _ & M2 & E). inversion M2 as [|u v r' ? U R]; subst. inversion R; subst.
  destruct u as [e d]. destruct U as (U1 & U2 & U3). cbn in U1, U3. subst d. destruct (U3 eq_refl) as [->|X]; [|discriminate X].
  apply (nn_last _ _ ltac:(noesc) E).
Qed.
Lemma head_ends : forall k l, block_ends_nl (YHeading k l) -> ends c_nl (u_block (YHeading k l)).
Proof.
  intros k l H. cbn [block_ends_nl u_block] in *. apply ends_more, ends_more. destruct l as [|h l _] using rev_ind; [destruct H as (y & H); destruct y; discriminate|]. unfold u_heads. rewrite map_app, uflats_app. apply ends_more.
  unfold last_head in H. rewrite rev_app_distr in H. cbn [rev app] in H. destruct h as [x|t u]; [|destruct H as (y & H); destruct y; discriminate]. unfold uflats. cbn [map flat_map u_head uflat]. rewrite app_nil_r. apply u_htext_end. exact H.
Qed.
Lemma block_ends : forall y, block_ends_nl y -> ends c_nl (u_block y).
Proof. intros [l|k l|i|l|lang code|l|t i ps| |kind args|title b] H; try (destruct H; fail); [apply par_ends; exact H|apply head_ends; exact H]. Qed.

(** ** Where a block comes from *)

Lemma simple_app : forall st ts x r, fsimple st ts = (x, r) -> ts = yield x ++ r.
Proof.
  intros st ts x r H. unfold fsimple in H. destruct (forelse flist0 (forelse fimages (forelse fbreak fheading)) (StopTerminator :: st) ts) as [[y q]|] eqn:E.
  - injection H as <- <-. apply (covers_orelse _ _ covers_list (covers_orelse _ _ covers_images (covers_orelse _ _ covers_break covers_heading))) in E. apply E.
  - apply fparagraph_app in H. exact H.
Qed.
Lemma docs_flips : forall n, (forall st ts, let (k, rest) := fdoc n st ts in flips ts (yields k ++ rest))
  /\ (forall st ts, match fcollapsible n st ts with CMatch t rest => flips ts (yield t ++ rest) | CFail ts' => flips ts ts' end).
Proof.
  induction n as [|n [ID IC]]; [split; intros; cbn; apply flips_refl|]. split.
  - intros st [|t r]; [cbn; apply flips_refl|]. rewrite fdoc_step. destruct (stopped st (t :: r)); [cbn; apply flips_refl|].
    assert (K : forall x r1, flips (t :: r) (yield x ++ r1) -> flips (t :: r) (yields (x :: fst (fdoc n st r1)) ++ snd (fdoc n st r1))).
    { intros x r1 X. pose proof (ID st r1) as D. destruct (fdoc n st r1) as [k r2]. cbn [fst snd]. change (yields (x :: k)) with (yield x ++ yields k). rewrite <- app_assoc. eapply flips_trans; [exact X|]. apply flips_app; [apply flips_refl|exact D]. }
    destruct (is_terminator t); [specialize (K (Leaf [t]) r (flips_refl _)); destruct (fdoc n st r); exact K|].
    destruct (fblock n st (t :: r)) as [x r1] eqn:H. assert (X : flips (t :: r) (yield x ++ r1)); [|specialize (K x r1 X); destruct (fdoc n st r1); exact K]. unfold fblock in H.
    destruct (fcode st (t :: r)) as [[z r2]|] eqn:E1; [injection H as -> ->; apply covers_code in E1; destruct E1 as [<- _]; apply flips_refl|].
    pose proof (IC st (t :: r)) as C. destruct (fcollapsible n st (t :: r)) as [z r2|ts']; [injection H as -> ->; exact C|].
    destruct (forelse fembed fhighlight st ts') as [[z r2]|] eqn:E2; [injection H as -> ->; apply (covers_orelse _ _ covers_embed covers_highlight) in E2; destruct E2 as [<- _]; exact C|].
    apply simple_app in H. rewrite <- H. exact C.
  - intros st ts. cbn [fcollapsible]. destruct (fseq [is_collapsible_start; is_space_or_eol] ts) as [[o r]|] eqn:Q; [|apply flips_refl].
    apply fseq_app in Q. destruct Q as (-> & Lo & Fo). destruct (opt_tree (fmodifier st r) r) as [k1 r1] eqn:K1. apply opt_tree_app in K1; [|apply covers_modifier]. subst r.
    destruct o as [|o1 o]; [discriminate Lo|]. assert (Ho : is_collapsible_start o1 = true) by (inversion Fo; assumption).
    assert (FH : forall a b, flips a ((o1 :: o) ++ b) -> flips a (flip_head ((o1 :: o) ++ b))).
    { intros a b H. eapply flips_trans; [exact H|]. constructor; [right; auto|apply flips_refl]. }
    destruct (nth_is 0 col0 r1); [|apply FH, flips_refl].
    pose proof (ID (StopCollapsibleEnd :: st) r1) as D. destruct (fdoc n (StopCollapsibleEnd :: st) r1) as [k2 r2].
    assert (Z : forall k3 r3, match r2 with e :: r3 => if is_eol e then ([Skip [e]], r3) else ([], r2) | [] => ([], r2) end = (k3, r3) -> r2 = yields k3 ++ r3).
    { intros k3 r3 E. destruct r2 as [|e r4]; [injection E as <- <-; reflexivity|]. destruct (is_eol e); injection E as <- <-; reflexivity. }
    destruct (match r2 with e :: r3 => if is_eol e then ([Skip [e]], r3) else ([], r2) | [] => ([], r2) end) as [k3 r3]. rewrite (Z k3 r3 eq_refl) in D.
    assert (F : flips ((o1 :: o) ++ yields k1 ++ r1) ((o1 :: o) ++ yields k1 ++ yields k2 ++ yields k3 ++ r3)) by (apply flips_app; [apply flips_refl|]; apply flips_app; [apply flips_refl|exact D]).
    destruct (fcollapsible_end r3) as [[c rest]|] eqn:Ec; [|apply FH; exact F]. apply fcollapsible_end_app in Ec. destruct Ec as [-> _].
    cbn [yield]. fold yields. change (flat_map yield) with yields. rewrite yields_app. cbn [yields flat_map yield app] in *. rewrite ?app_nil_r, <- !app_assoc. exact F.
Qed.

Lemma fblock_from : forall n st ts x r, fblock n st ts = (x, r) ->
  fcode st ts = Some (x, r) \/ fcollapsible n st ts = CMatch x r
  \/ exists ts', fcollapsible n st ts = CFail ts' /\ flips ts ts'
    /\ (fembed st ts' = Some (x, r) \/ fhighlight st ts' = Some (x, r) \/ flist0 (StopTerminator :: st) ts' = Some (x, r) \/ fimages (StopTerminator :: st) ts' = Some (x, r)
        \/ fbreak (StopTerminator :: st) ts' = Some (x, r) \/ fheading (StopTerminator :: st) ts' = Some (x, r) \/ fparagraph (StopTerminator :: st) ts' = (x, r)).
Proof.
  intros n st ts x r H. unfold fblock in H. destruct (fcode st ts) as [[z r1]|] eqn:E1; [left; congruence|]. right. pose proof (proj2 (docs_flips n) st ts) as F. destruct (fcollapsible n st ts) as [z r1|ts'] eqn:E2; [left; congruence|].
  right. exists ts'. split; [reflexivity|]. split; [exact F|]. destruct (forelse fembed fhighlight st ts') as [[z r1]|] eqn:E3; [injection H as -> ->; apply forelse_some in E3; tauto|].
  unfold fsimple in H. destruct (forelse flist0 (forelse fimages (forelse fbreak fheading)) (StopTerminator :: st) ts') as [[z r1]|] eqn:E4; [|auto 8]. injection H as -> ->.
  apply forelse_some in E4. destruct E4 as [E4|E4]; [auto 8|]. apply forelse_some in E4. destruct E4 as [E4|E4]; [auto 8|]. apply forelse_some in E4. destruct E4 as [E4|E4]; auto 8.
Qed.
