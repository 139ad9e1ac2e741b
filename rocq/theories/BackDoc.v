(** Documents that are read back from what [Display] writes for them are tame. *)
From Coq Require Import String Bool.
From Verif Require Import Base Lexer LexSpec LexProofs LexFacts Ops Parser FParser Refine Refine2 Refine3 Wf TokFacts StreamSpec Lines ToYamd TreeAst Ast Api AstSpec AstProofs Tame Settled Mild Runs Units ULex Stops Inline LinkUnits AstUnits Calm Blocks Docs Highlight Lists UBlocks UList UDocs Unsettled UnsettledHl Span Written UnsettledDoc BackInline BackPar BackHead BackFlat BackBody BackColl BackHl BackList BackShown.
From Verif Require RawTree RawAst RawLinks.
Open Scope list_scope.

Lemma block_back : forall y coll n, (n <> 0 <-> coll = true) -> back coll n y.
Proof.
  fix IH 1. intros y coll n Hn. destruct y as [l|k l|i|l|lang code|l|t i ps| |kind args|title b].
  - apply paragraph_back. exact Hn.
  - apply heading_back. exact Hn.
  - apply image_back. exact Hn.
  - apply images_back. exact Hn.
  - apply code_back.
  - apply list_back. exact Hn.
  - apply highlight_back. exact Hn.
  - apply break_back.
  - apply embed_back. exact Hn.
  - apply collapsible_back. induction b as [|y b IHb]; constructor; [|exact IHb]. apply IH. split; [reflexivity|discriminate].
Qed.
Lemma closed_units : forall b, closed (map u_block b) -> closed_body b.
Proof.
  induction b as [|y b IH]; intros C; [exact I|]. destruct b as [|q b]; [exact I|]. destruct C as [C1 C2]. split; [intros X; exact (C1 (block_ends _ X))|exact (IH C2)].
Qed.
Lemma body_back : forall s m ts b, linked s ts -> cov s true ts (u_body b) -> List.length ts < m -> ~ In c_cr (chars (u_body b)) -> flat_map (blocks s) (fst (fdoc m [] ts)) = b -> Forall (tame_block false) b /\ closed_body b.
Proof.
  intros s m ts b L H Hm NC E. assert (Hn : 0 <> 0 <-> false = true) by (split; [intros X; congruence|discriminate]).
  destruct (docs_back s 0 false b m ts [] Hn) as (T & C & _); [apply Forall_forall; intros y _; apply block_back; exact Hn|exact L|rewrite app_nil_r; exact H|left; reflexivity|exact Hm|exact NC|exact E|].
  split; [exact T|exact (closed_units b C)].
Qed.

(** ** Without metadata *)

Lemma plain_back : forall b, ~ In c_cr (render (u_body b)) -> document_of (render (u_body b)) = mk_yamd None b -> Forall (tame_block false) b /\ closed_body b.
Proof.
  intros b NC E. assert (NC' : ~ In c_cr (chars (u_body b))) by (intros X; apply NC, chars_render; exact X).
  assert (Hf : fine (u_body b)) by (split; [apply u_body_valid|apply absent_chars; exact NC']).
  pose proof (cov_tokens _ Hf) as H. unfold document_of in E. set (s := render (u_body b)) in *. pose proof (spec_linked s) as L. set (ts := spec_tokens s) in *.
  unfold fparse in E. destruct (fmetadata [] ts) as [[x r]|] eqn:Mn.
  - exfalso. unfold fmetadata, fdelim in Mn. destruct ts as [|t r0]; [discriminate|]. destruct (is_three_dashes t); [|discriminate]. destruct (until [] is_three_dashes r0) as [[[b1 c] r1]|]; [|discriminate]. injection Mn as <- <-.
    cbn [opt_tree] in E. destruct (fdoc _ [] r1) as [k r2]. apply (f_equal metadata) in E. discriminate E.
  - cbn [opt_tree app] in E. destruct (fdoc (3 * List.length ts + 5) [] ts) as [k r] eqn:Fd.
    apply (body_back s (3 * List.length ts + 5) ts b L H); [lia|exact NC'|]. rewrite Fd. cbn [fst]. apply (f_equal body) in E. unfold doc_of in E. cbn [body] in E.
    unfold body_of in E. cbn [flat_map] in E. rewrite app_nil_r in E. exact E.
Qed.

(** ** With metadata *)

(** A text is the text of some units, up to a backslash at the end. *)
Lemma units_of : forall n x, List.length x <= n -> exists W, valid W /\ (x = render W \/ x = render W ++ [c_bslash]).
Proof.
  induction n as [|n IH]; intros x Hn; [exists []; split; [constructor|]; left; destruct x; [reflexivity|cbn in Hn; lia]|]. destruct x as [|c x]; [exists []; split; [constructor|left; reflexivity]|]. cbn in Hn.
  destruct (N.eq_dec c c_bslash) as [->|Hc].
  - destruct x as [|d x]; [exists []; split; [constructor|right; reflexivity]|]. cbn in Hn. destruct (IH x ltac:(lia)) as (W & V & E). exists (escd d :: W). split; [constructor; [discriminate|exact V]|]. destruct E as [->| ->]; [left|right]; reflexivity.
  - destruct (IH x ltac:(lia)) as (W & V & E). exists (raw c :: W). split; [apply raw_valid; assumption|]. destruct E as [->| ->]; [left|right]; reflexivity.
Qed.
Definition times (c : char) (x : str) : nat := List.length (filter (char_eqb c) x).
Lemma times_app : forall c a b, times c (a ++ b) = times c a + times c b.
Proof. intros c a b. unfold times. rewrite filter_app, app_length. reflexivity. Qed.
Lemma times_rev : forall c a, times c (rev a) = times c a.
Proof. intros c a. induction a as [|d a IH]; [reflexivity|]. cbn [rev]. rewrite times_app, IH. unfold times. cbn [filter]. destruct (char_eqb c d); cbn; lia. Qed.
Lemma times_start : forall c d x, c <> d -> times c (trim_start d x) = times c x.
Proof.
  intros c d x H. induction x as [|a x IH]; [reflexivity|]. cbn [trim_start]. destruct (char_eqb d a) eqn:E; [|reflexivity]. apply char_eqb_eq in E. subst a. rewrite IH. unfold times. cbn [filter].
  replace (char_eqb c d) with false; [reflexivity|]. symmetry. apply N.eqb_neq. exact H.
Qed.
Lemma times_trim : forall c d x, c <> d -> times c (trim_both d x) = times c x.
Proof. intros c d x H. unfold trim_both, trim_end. rewrite times_rev, times_start, times_rev, times_start by exact H. reflexivity. Qed.
Lemma times_render : forall c us, c <> c_bslash -> times c (render us) = times c (chars us).
Proof.
  intros c us H. induction us as [|[e d] us IH]; [reflexivity|]. assert (X : char_eqb c c_bslash = false) by (apply N.eqb_neq; exact H). unfold times in *. destruct e; cbn [render render1 fst snd app filter chars]; rewrite ?X; destruct (char_eqb c d); cbn [List.length]; congruence.
Qed.
Lemma start_len : forall c x, List.length (trim_start c x) <= List.length x.
Proof. intros c x. induction x as [|d x IH]; [apply le_n|]. cbn [trim_start]. destruct (char_eqb c d); cbn [List.length] in *; lia. Qed.
Lemma both_len : forall x, List.length (trim_both c_nl (c_nl :: x ++ [c_nl])) <= List.length x.
Proof.
  intros x. unfold trim_both, trim_end. rewrite rev_length. change (trim_start c_nl (c_nl :: x ++ [c_nl])) with (trim_start c_nl (x ++ [c_nl])).
  assert (X : trim_start c_nl (x ++ [c_nl]) = [] \/ exists y, trim_start c_nl (x ++ [c_nl]) = y ++ [c_nl] /\ List.length y <= List.length x).
  { induction x as [|d x IH]; [left; reflexivity|]. cbn [app trim_start]. destruct (char_eqb c_nl d); [|right; exists (d :: x); split; [reflexivity|apply le_n]]. destruct IH as [IH|(y & E & L)]; [left; exact IH|right; exists y; split; [exact E|cbn; lia]]. }
  destruct X as [->|(y & -> & L)]; [cbn; lia|]. rewrite rev_app_distr. cbn [rev app]. change (trim_start c_nl (c_nl :: rev y)) with (trim_start c_nl (rev y)). pose proof (start_len c_nl (rev y)) as S. rewrite rev_length in S. lia.
Qed.
Lemma render_len : forall us, List.length us <= List.length (render us) /\ (List.length us = List.length (render us) -> forall u, In u us -> fst u = false).
Proof.
  induction us as [|[e d] us [IH1 IH2]]; [split; [apply le_n|intros _ u []]|]. destruct e; cbn [render render1 fst snd app List.length]; (split; [lia|]); intros H; [lia|]. intros u [<-|Hu]; [reflexivity|]. apply IH2; [lia|exact Hu].
Qed.
(** A line starts with a token. *)
Lemma span_cut : forall s d b r U R A V, cov s b (d ++ r) (U ++ R) -> ttexts s d = chars U -> U = A ++ raw c_nl :: V -> V <> [] -> raw_at c_nl V = false -> exists w d3, In w d /\ cov s true (w :: d3) (V ++ R).
Proof.
  intros s d b r U R A V H E -> NV RV. rewrite <- app_assoc in H. cbn [app] in H. destruct (cut_nl s _ A b _ (V ++ R) (le_n _) H) as (d1 & d2 & t & Ed & K & Tx & Cv); [rewrite raw_app by exact NV; exact RV|].
  set (e := d1 ++ [t]) in *. assert (Y : exists d3, d = e ++ d3 /\ d2 = d3 ++ r).
  { clearbody e. assert (L : ttexts s d = ttexts s e ++ chars V) by (rewrite E, Tx, !chars_app, <- app_assoc; reflexivity). assert (NL : chars V <> []) by (destruct V; [congruence|discriminate]). clear - Ed L NL.
    revert e Ed L. induction d as [|w d IHd]; intros e Ed L.
    - exfalso. cbn in L. destruct (ttexts s e); [cbn in L; congruence|discriminate].
    - destruct e as [|v e]; [cbn [app] in Ed; exists (w :: d); auto|]. cbn in Ed. injection Ed as <- Ed. rewrite !ttexts_cons, <- app_assoc in L. apply app_inv_head in L. destruct (IHd e Ed L) as (d3 & -> & ->). exists d3. auto. }
  destruct Y as (d3 & -> & ->). destruct d3 as [|w d3]; [exfalso|exists w, (d3 ++ r); split; [apply in_or_app; right; left; reflexivity|exact Cv]].
  rewrite app_nil_r, Tx in E. apply (f_equal (@List.length _)) in E. rewrite !chars_len, !app_length in E. destruct V; [congruence|]. cbn in E. lia.
Qed.

(** The text of metadata that is read back as it was. *)
Lemma meta_text : forall s m W D R X, valid W -> render W = m ++ [c_nl] -> D ++ R = (raw c_nl :: W) ++ dash3 ++ X -> ends c_nl D -> lead c_minus R = 3 -> trim_both c_nl (chars D) = m ->
  (forall b d c r, cov s b (d ++ c :: r) (D ++ R) -> ttexts s d = chars D -> Forall (fun t => is_three_dashes t = false) d -> forall a y, c_nl :: m = a ++ c_nl :: y -> leading c_minus y <> 3) /\ ~ In c_bslash m /\ R = dash3 ++ X.
Proof.
  intros s m W D R X V EW ED (D0 & EE) LR Tm.
  assert (Hmin : exists R', R = raw c_minus :: R') by (destruct (lead_ge1 c_minus R) as (R' & -> & _); [lia|eauto]).
  assert (Q : D = raw c_nl :: W /\ R = dash3 ++ X).
  { apply app_eq_app in ED. destruct ED as (l & [[E1 E2]|[E1 E2]]).
    - destruct l as [|u l]; [rewrite app_nil_r in E1; auto|exfalso]. unfold dash3 in E2. cbn [app] in E2. injection E2 as <- _. assert (T : times c_minus (chars D) = times c_minus m) by (rewrite <- Tm, times_trim by discriminate; reflexivity).
      rewrite E1 in T. change ((raw c_nl :: W) ++ raw c_minus :: l) with ([raw c_nl] ++ W ++ [raw c_minus] ++ l) in T. rewrite !chars_app, !times_app in T. rewrite <- (times_render c_minus W) in T by discriminate. rewrite EW, times_app in T.
      change (times c_minus (chars [raw c_nl])) with 0 in T. change (times c_minus [c_nl]) with 0 in T. change (times c_minus (chars [raw c_minus])) with 1 in T. lia.
    - destruct l as [|u l]; [rewrite app_nil_r in E1; auto|exfalso]. destruct Hmin as (R' & ->). injection E2 as <- _. destruct D0 as [|d D0].
      + rewrite EE in *. cbn in Tm. subst m. cbn in EW. injection E1 as ->. cbn in EW. discriminate EW.
      + rewrite EE in *. injection E1 as <- E1. assert (L1 : List.length m <= List.length D0) by (rewrite <- Tm, chars_app; change (chars (raw c_nl :: D0) ++ chars [raw c_nl]) with (c_nl :: chars D0 ++ [c_nl]); rewrite <- (chars_len D0); apply both_len).
        pose proof (proj1 (render_len W)) as L2. rewrite EW, E1, !app_length in L2. cbn in L2. lia. }
  destruct Q as [-> ->]. destruct D0 as [|d D0].
  { injection EE as ->. cbn in EW. destruct m; discriminate EW. }
  injection EE as <- ->. rewrite render_app in EW. apply app_inj_tail in EW. destruct EW as [EW _].
  assert (L1 : List.length m <= List.length D0) by (rewrite <- Tm; change (chars (raw c_nl :: D0 ++ [raw c_nl])) with (c_nl :: chars (D0 ++ [raw c_nl])); rewrite chars_app, <- (chars_len D0); apply both_len).
  destruct (render_len D0) as [L2 L3]. rewrite EW in L2, L3. specialize (L3 ltac:(lia)). pose proof (bare_eq D0 L3) as B. assert (Ec : chars D0 = m) by (rewrite B, render_bare in EW; exact EW). rewrite Ec in B.
  split; [|split; [|reflexivity]].
  - intros b d c r H E F a y Ea Ey. assert (E3 : raw c_nl :: D0 ++ [raw c_nl] = bare a ++ raw c_nl :: bare y ++ [raw c_nl]).
    { rewrite B. change (raw c_nl :: bare m ++ [raw c_nl]) with (bare (c_nl :: m) ++ [raw c_nl]). rewrite Ea. clear. rewrite bare_app, <- app_assoc. reflexivity. }
    destruct (span_cut s d b (c :: r) _ _ (bare a) (bare y ++ [raw c_nl]) H E E3) as (w & d3 & Hw & Cw); [destruct y; discriminate|destruct y as [|q y]; [discriminate Ey|]; cbn [leading] in Ey; destruct (char_eqb q c_minus) eqn:Eq; [apply char_eqb_eq in Eq; subst q; reflexivity|discriminate Ey]|].
    rewrite Forall_forall in F. specialize (F w Hw). unfold is_three_dashes in F. rewrite swap3 in F. pose proof (run_test s true w d3 _ c_minus Minus 3 Cw eq_refl ltac:(lia) ltac:(left; discriminate)) as RT. rewrite RT in F.
    rewrite (cov_col0 _ _ _ _ _ Cw), <- app_assoc, lead_bare, Ey in F by reflexivity. discriminate F.
  - intros Hb. apply valid_app in V. destruct V as [V _]. unfold valid in V. rewrite Forall_forall in V. assert (I : In (raw c_bslash) D0) by (rewrite B; clear - Hb; induction m as [|c m IH]; [contradiction|]; destruct Hb as [->|Hb]; [left; reflexivity|right; auto]).
    exact (V _ I eq_refl eq_refl).
Qed.
Lemma meta_back : forall m b W, let us := dash3 ++ (raw c_nl :: W) ++ dash3 ++ raw c_nl :: raw c_nl :: u_body b in valid W -> render W = m ++ [c_nl] -> ~ In c_cr (render us) -> document_of (render us) = mk_yamd (Some m) b ->
  (~ In c_bslash m /\ forall a y, c_nl :: m = a ++ c_nl :: y -> leading c_minus y <> 3) /\ Forall (tame_block false) b /\ closed_body b.
Proof.
  intros m b W us V EW NC E. assert (NC' : ~ In c_cr (chars us)) by (intros X; apply NC, chars_render; exact X).
  assert (Hf : fine us).
  { split; [|apply absent_chars; exact NC']. unfold us. pose proof (u_body_valid b) as Vb. change (raw c_nl :: W) with ([raw c_nl] ++ W). change (raw c_nl :: raw c_nl :: u_body b) with ([raw c_nl; raw c_nl] ++ u_body b). validparts. }
  pose proof (cov_tokens us Hf) as H. unfold document_of in E. set (s := render us) in *. pose proof (spec_linked s) as L. set (ts := spec_tokens s) in *. unfold us in H.
  destruct (cov_runs _ _ _ c_minus Minus 2 _ H eq_refl ltac:(left; discriminate) eq_refl) as (t & ts' & Ets & E1 & E2 & E3 & E4 & E5). change (aft true (repeat (raw c_minus) 3)) with false in E5.
  unfold fparse in E. rewrite Ets in E, L. apply (linked_app s [t] ts') in L. destruct L as [_ L]. unfold fmetadata, fdelim in E. replace (is_three_dashes t) with true in E by (unfold is_three_dashes; rewrite E1, E2, E3; reflexivity).
  destruct (until [] is_three_dashes ts') as [[[b1 c] r2]|] eqn:U.
  2:{ exfalso. cbn [opt_tree] in E. destruct (fdoc _ [] (t :: ts')) as [k r3]. apply (f_equal metadata) in E. discriminate E. }
  pose proof (until_free _ _ _ _ _ _ U) as Fr. apply until_app in U. destruct U as [-> Ec]. cbn [opt_tree app] in E. apply linked_app in L. destruct L as [_ L]. apply (linked_app s [c] r2) in L. destruct L as [_ L].
  destruct (cov_split _ _ _ _ _ E5) as (D & R & ED & TD & CR). unfold is_three_dashes in Ec. rewrite swap3 in Ec. apply andb_true_iff in Ec. destruct Ec as [Ec C0]. rewrite (cov_col0 _ _ _ _ _ CR) in C0.
  pose proof (run_test s _ c r2 _ c_minus Minus 3 CR eq_refl ltac:(lia) ltac:(left; discriminate)) as RT. rewrite Ec in RT. symmetry in RT. apply Nat.eqb_eq in RT.
  destruct (fdoc (3 * List.length r2 + 5) [] r2) as [k r4] eqn:Fd. pose proof (f_equal metadata E) as Em. unfold doc_of, child_text in Em. cbn [metadata flat_map child inner app option_map] in Em. destruct (node_eq_dec NMetadata NMetadata) as [_|X]; [|congruence]. cbn [app inner flat_map] in Em. rewrite app_nil_r, TD in Em. cbn [option_map] in Em.
  assert (Em' : trim_both c_nl (chars D) = m) by congruence. clear Em. rename Em' into Em.
  assert (Ends : ends c_nl D) by (apply aft_true in C0; destruct C0 as [[_ C0]|C0]; [discriminate C0|exact C0]).
  rewrite ED in E5. destruct (meta_text s m W D R _ V EW (eq_sym ED) Ends RT Em) as (M1 & M2 & ->). split; [split; [exact M2|exact (M1 _ _ _ _ E5 TD Fr)]|].
  destruct (cov_runs _ _ _ c_minus Minus 2 _ CR eq_refl ltac:(left; discriminate) eq_refl) as (t' & ts2 & Et & _ & _ & _ & _ & F6). injection Et as <- <-. change (aft (aft false D) (repeat (raw c_minus) 3)) with false in F6.
  destruct (cov_term _ _ _ _ F6) as (e & r3 & -> & G1 & G2 & G3 & G4).
  replace (3 * List.length (e :: r3) + 5) with (S (3 * List.length r3 + 7)) in Fd by (cbn [List.length]; lia). rewrite fdoc_step in Fd. cbn [stopped existsb] in Fd. unfold is_terminator in Fd. rewrite G1 in Fd. change (kind_eqb Terminator Terminator) with true in Fd. cbn match in Fd.
  apply (linked_app s [e] r3) in L. destruct L as [_ L]. destruct (fdoc (3 * List.length r3 + 7) [] r3) as [k' r5] eqn:Fd'. injection Fd as <- <-.
  apply (body_back s (3 * List.length r3 + 7) r3 b L G4); [lia| |].
  - intros X. apply NC'. unfold us. rewrite !chars_app. apply in_or_app. right. apply in_or_app. right. apply in_or_app. right. right. right. exact X.
  - rewrite Fd'. cbn [fst]. apply (f_equal body) in E. unfold doc_of in E. cbn [body] in E. unfold body_of in E. cbn [flat_map blocks app] in E. rewrite app_nil_r in E. exact E.
Qed.

Theorem tame_back : forall y, ~ In c_cr (display_yamd y) -> document_of (display_yamd y) = y -> tame_doc y.
Proof.
  intros [m b] NC E. pose proof (document_drawn (display_yamd (mk_yamd m b))) as Dr. rewrite E in Dr. cbn [body] in Dr. pose proof (drawn_body b Dr) as Eb. unfold tame_doc. cbn [metadata body]. destruct m as [m|].
  - destruct (doc_metadata _ m ltac:(rewrite E; reflexivity)) as [M1 M2]. unfold display_yamd in NC, E. cbn [metadata body] in NC, E. rewrite (ends_char_false m M2), Eb in NC, E.
    destruct (units_of _ (m ++ [c_nl]) (le_n _)) as (W & V & EW). assert (EW' : render W = m ++ [c_nl]) by (destruct EW as [EW|EW]; [symmetry; exact EW|apply app_inj_tail in EW; destruct EW as [_ EW]; discriminate EW]). clear EW.
    assert (R : (s_ "---" ++ nl ++ m ++ nl ++ s_ "---" ++ nlnl ++ render (u_body b))%list = render (dash3 ++ (raw c_nl :: W) ++ dash3 ++ raw c_nl :: raw c_nl :: u_body b)).
    { change (raw c_nl :: W) with ([raw c_nl] ++ W). change (raw c_nl :: raw c_nl :: u_body b) with ([raw c_nl; raw c_nl] ++ u_body b). rewrite !render_app, EW'. rewrite <- !app_assoc. reflexivity. }
    assert (NCm : ~ In c_cr m) by (intros X; apply NC; do 2 (apply in_or_app; right); apply in_or_app; left; exact X).
    rewrite R in NC. assert (E' : document_of (render (dash3 ++ (raw c_nl :: W) ++ dash3 ++ raw c_nl :: raw c_nl :: u_body b)) = mk_yamd (Some m) b) by (rewrite <- R; exact E).
    destruct (meta_back m b W V EW' NC E') as ((T1 & T2) & T3). split; [|exact T3]. unfold tame_meta. auto.
  - split; [exact I|]. unfold display_yamd in NC, E. cbn [metadata body] in NC, E. rewrite Eb in NC, E. exact (plain_back b NC E).
Qed.
