(** Blocks that are read back from what [Display] writes for them are tame: highlights. *)
From Coq Require Import String Bool.
From Verif Require Import Base Lexer LexSpec LexProofs LexFacts Ops Parser FParser Refine Refine2 Refine3 Wf TokFacts StreamSpec Lines ToYamd TreeAst Ast Api AstSpec AstProofs Tame Settled Mild Runs Units ULex Stops Inline LinkUnits AstUnits Calm Blocks Docs Highlight Lists UBlocks UList UDocs Unsettled UnsettledHl Span Written UnsettledDoc BackInline BackPar BackFlat BackBody BackColl.
From Verif Require RawTree RawAst RawLinks.
Open Scope list_scope.

(** ** Paragraphs without their last line feeds *)

Lemma trim_end_split : forall x, exists j, x = trim_end c_nl x ++ repeat c_nl j.
Proof.
  intros x. assert (H : forall y, exists j, y = repeat c_nl j ++ trim_start c_nl y).
  { induction y as [|c y IH]; [exists 0; reflexivity|]. cbn [trim_start]. destruct (char_eqb c_nl c) eqn:E; [|exists 0; reflexivity]. apply char_eqb_eq in E. subst c. destruct IH as (j & E). exists (S j). cbn [repeat app]. congruence. }
  destruct (H (rev x)) as (j & E). exists j. apply (f_equal (@rev _)) in E. rewrite rev_involutive, rev_app_distr in E. unfold trim_end. rewrite E at 1. f_equal.
  clear. induction j as [|j IH]; [reflexivity|]. cbn [repeat rev]. rewrite IH. clear. induction j as [|j IH]; [reflexivity|]. cbn [repeat app]. congruence.
Qed.
Lemma trim_text : forall l, exists j, chars (u_pars l) = chars (u_pars (trim_trailing_newline_from_text l)) ++ repeat c_nl j.
Proof.
  intros l. destruct l as [|p l _] using rev_ind; [exists 0; reflexivity|]. destruct (is_ptext p) eqn:E.
  - destruct p; try discriminate. rewrite trim_snoc. destruct (trim_end_split s) as (j & Es). exists j. assert (X : forall y, chars (u_pars (l ++ [PText y])) = chars (u_pars l) ++ y).
    { intros y. unfold u_pars. rewrite map_app. unfold uflats. rewrite flat_map_app, chars_app. f_equal. cbn [map flat_map u_par uflat]. rewrite app_nil_r. apply u_text_chars. }
    rewrite X. destruct (trim_end c_nl s) as [|c y] eqn:T; [rewrite Es at 1; reflexivity|]. rewrite X, <- app_assoc. f_equal. exact Es.
  - exists 0. cbn [repeat]. rewrite app_nil_r. rewrite trim_other; [reflexivity|]. intros x ->. discriminate.
Qed.

Lemma after_nl : forall s d b r U B, cov s b (d ++ r) (U ++ B) -> ttexts s d = chars U -> no2 c_nl c_nl U -> ends c_nl U -> raw_at c_nl B = false.
Proof.
  intros s d b r U B H E N (U' & EU). destruct (raw_at c_nl B) eqn:Q; [exfalso|reflexivity]. apply raw_at_true in Q. destruct Q as (R & ->).
  destruct d as [|t d _] using rev_ind; [subst U; rewrite chars_app in E; destruct (chars U'); discriminate E|].
  destruct (token_in s d t [] b r U _ H E) as (A & g & C & EU2 & G & T1 & T2 & Ut & E1 & E2). destruct C; [|discriminate E2]. rewrite app_nil_r in EU2. cbn [app] in Ut.
  destruct g as [|u g _] using rev_ind; [destruct (kind t); cbn in G; try (destruct G as (c & m & _ & X); discriminate X); try discriminate G; destruct G as (u & g' & X & _); discriminate X|].
  subst U. rewrite app_assoc in EU2. apply app_inj_tail in EU2. destruct EU2 as [-> <-].
  destruct (group_nl _ _ g [] G eq_refl) as [(K & -> & _)|(K & _ & X)].
  - cbn [app] in Ut. rewrite utok_term in Ut. injection Ut as Ut _ _. congruence.
  - rewrite app_nil_r in X. subst g. apply (N A []). rewrite <- app_assoc. reflexivity.
Qed.

Definition sane (p : list par_node) : Prop := normal_inlines p /\ ~ ends_with_nl (last_text p).
Lemma trim_sane : forall l, normal_inlines l -> sane (trim_trailing_newline_from_text l).
Proof. intros l N. split; [apply trim_normal; exact N|]. apply RawAst.trim_last_text. apply N. Qed.

(** A paragraph as it was read: its units, and some line feeds that were dropped. *)
(** A paragraph is awake at the start of every line in it. *)
Lemma span_awake : forall s st d b r U R A V, cov s b (d ++ r) (U ++ R) -> ttexts s d = chars U -> awake st d r -> U = A ++ raw c_nl :: V -> V <> [] -> raw_at c_nl V = false -> ustop st true (V ++ R) = false.
Proof.
  intros s st d b r U R A V H E Aw -> NV RV. rewrite <- app_assoc in H. cbn [app] in H. destruct (cut_nl s _ A b _ (V ++ R) (le_n _) H) as (d1 & d2 & t & Ed & K & Tx & Cv); [rewrite raw_app by exact NV; exact RV|].
  set (e := d1 ++ [t]) in *. assert (Y : exists d3, d = e ++ d3 /\ d2 = d3 ++ r).
  { clearbody e. assert (L : ttexts s d = ttexts s e ++ chars V) by (rewrite E, Tx, !chars_app, <- app_assoc; reflexivity). assert (NL : chars V <> []) by (destruct V; [congruence|discriminate]). clear - Ed L NL.
    revert e Ed L. induction d as [|w d IHd]; intros e Ed L.
    - exfalso. cbn in L. destruct (ttexts s e); [cbn in L; congruence|discriminate].
    - destruct e as [|v e]; [cbn [app] in Ed; exists (w :: d); auto|]. cbn in Ed. injection Ed as <- Ed. rewrite !ttexts_cons, <- app_assoc in L. apply app_inv_head in L. destruct (IHd e Ed L) as (d3 & -> & ->). exists d3. auto. }
  destruct Y as (d3 & -> & ->). rewrite <- (stopped_units _ _ _ _ st Cv). apply awake_app in Aw. destruct Aw as [_ Aw]. destruct d3 as [|w d3]; [|exact (proj1 Aw)]. exfalso.
  rewrite app_nil_r, Tx in E. apply (f_equal (@List.length _)) in E. rewrite !chars_len, !app_length in E. destruct V; [congruence|]. cbn in E. lia.
Qed.

Lemma par_back0 : forall s coll st C U p Y b ts par r, incl (StopTerminator :: RawTree.stops coll) st -> linked s ts -> cov s b ts (U ++ Y) -> more C (u_pars p) U -> keep3 C -> ~ In c_cr (chars U) ->
  fparagraph st ts = (par, r) -> trimmed s par = [p] ->
  tame_inlines coll p /\ sane p /\ (stopped st r = true /\ forall A V, U = A ++ raw c_nl :: V -> V <> [] -> raw_at c_nl V = false -> ustop st true (V ++ Y) = false) /\ linked s r
  /\ exists D R, Y = D ++ R /\ (forall u, In u D -> snd u = c_nl) /\ no2 c_nl c_nl (U ++ D) /\ cov s (aft b (U ++ D)) r R /\ (ends c_nl (U ++ D) -> raw_at c_nl R = false).
Proof.
  intros s coll st C U p Y b ts par r I L H M K NC P Ep.
  destruct (RawTree.par_awake _ _ _ _ P) as (k & Ex & Aw & St). pose proof (fparagraph_app _ _ _ _ P) as Ets. pose proof P as W. apply fparagraph_wf in W; [|apply I; left; reflexivity]. destruct W as [W _].
  subst par. cbn [yield] in Ets. change (flat_map yield) with yields in Ets. rewrite app_nil_r in Ets. cbn [app] in Ets. inversion W as [| |? ? ? ? Wk Sh]; subst. cbn [trimmed paragraph_of map] in Ep. injection Ep as Ep.
  apply linked_app in L. destruct L as [Lk Lr]. destruct Sh as (_ & _ & It & _). pose proof (par_items s k Wk Lk It) as No. set (l := pars_of s k) in *.
  pose proof (trim_sane l No) as Sa. rewrite Ep in Sa. destruct (trim_text l) as (j & Ej). rewrite Ep in Ej.
  assert (Tx : ttexts s (yields k) = chars U ++ repeat c_nl j) by (rewrite (more_chars _ _ _ M), <- Ej; apply pars_text; [exact Wk|exact It|exact (cov_gtok _ _ _ _ _ H)]).
  destruct (cov_split _ _ _ _ _ H) as (D & R & EY & Ed & Cr). assert (X : exists D2, D = U ++ D2 /\ Y = D2 ++ R /\ chars D2 = repeat c_nl j).
  { destruct (cut_chars D (chars U) (repeat c_nl j)) as (A & A2 & -> & E1 & E2); [congruence|]. rewrite <- app_assoc in EY. apply app_inj_len in EY; [|apply (f_equal (@List.length _)) in E1; rewrite !chars_len in E1; congruence]. destruct EY as [-> ->]. eauto. }
  destruct X as (D2 & -> & -> & E2). rewrite app_assoc in H.
  assert (A2 : forall u, In u D2 -> snd u = c_nl) by (intros u Hu; apply (repeat_spec j c_nl); rewrite <- E2; unfold chars; apply in_map; exact Hu).
  assert (Q : tidy coll (U ++ D2)).
  { eapply span_tidy; [exact H|exact Ed|eapply RawTree.awake_quiet; [exact I|exact Aw]|]. rewrite chars_app, E2. intros X. apply in_app_iff in X. destruct X as [X|X]; [exact (NC X)|]. apply repeat_spec in X. discriminate X. }
  split; [|split; [exact Sa|split; [split; [exact St|]|split; [exact Lr|]]]].
  - apply tidy_pars; [apply Sa|]. eapply tidy_less; [exact M|exact K|]. eapply tidy_infix; [|exact Q]. exists [], D2. reflexivity.
  - intros A V -> NV RV. rewrite app_assoc. apply (span_awake s st (yields k) b r ((A ++ raw c_nl :: V) ++ D2) R A (V ++ D2) H Ed Aw); [rewrite <- app_assoc; reflexivity|destruct V; [congruence|discriminate]|rewrite raw_app by exact NV; exact RV].
  - exists D2, R. split; [reflexivity|]. split; [exact A2|]. split; [apply Q|]. split; [exact Cr|]. intros He. exact (after_nl _ _ _ _ _ _ H Ed (proj1 Q) He).
Qed.

(** The paragraph of a highlight. *)
Lemma hstop_incl : forall n coll, (coll = true -> n <> 0) -> incl (StopTerminator :: RawTree.stops coll) (hstop n).
Proof. intros n coll Hc c H. apply (stops_cst n coll Hc) in H. destruct H as [<-|H]; [left; reflexivity|right; right; exact H]. Qed.
Lemma hpar_back : forall s coll n p X b ts par r, (coll = true -> n <> 0) -> linked s ts -> cov s b ts (u_hpar p ++ raw c_nl :: X) -> ~ In c_cr (chars (u_hpar p)) ->
  fparagraph (hstop n) ts = (par, r) -> trimmed s par = [p] -> (p = [] \/ tame_hpar coll p) /\ linked s r /\ (raw_at c_nl X = true -> exists b', cov s b' r (raw c_nl :: X)).
Proof.
  intros s coll n p X b ts par r Hn L H NC P Ep. destruct (par_back0 s coll (hstop n) blockmark _ p _ b ts par r (hstop_incl n coll Hn) L H (u_hpar_more p) keep3_blockmark NC P Ep) as (T & Sa & _ & Lr & D & R & EY & AD & N2 & Cr & He).
  split; [|split; [exact Lr|]].
  - destruct p as [|q p]; [left; reflexivity|right]. split; [discriminate|]. split; [exact T|apply Sa].
  - intros HX. apply raw_at_true in HX. destruct HX as (X' & ->). destruct D as [|d D]; [exists (aft b (u_hpar p ++ [])); rewrite EY; exact Cr|exfalso]. injection EY as <- EY. destruct D as [|d2 D].
    + cbn [app] in EY. rewrite <- EY in He. discriminate (He (ex_intro _ _ eq_refl)).
    + injection EY as <- _. exact (N2 (u_hpar p) D eq_refl).
Qed.

(** ** How the units of a paragraph of a highlight start *)

Lemma cut_leading : forall c x, exists y, x = repeat c (leading c x) ++ y /\ leading c y = 0.
Proof.
  intros c. induction x as [|d x (y & E & Ey)]; [exists []; auto|]. cbn [leading]. destruct (char_eqb d c) eqn:Q; [|exists (d :: x); split; [reflexivity|cbn [leading]; rewrite Q; reflexivity]].
  apply char_eqb_eq in Q. subst d. exists y. split; [cbn [repeat app]; congruence|exact Ey].
Qed.
Definition opens (N V : list uchar) : Prop :=
  (forall u, In u N -> snd u = c_nl) /\ no2 c_nl c_nl N /\ V <> [] /\ leading c_nl (chars V) = 0 /\ raw2_at c_percent c_rcurly V = false /\ raw2_at c_bang c_bang V = false.
Lemma more_app_inv : forall C a A B, more C a (A ++ B) -> exists a1 a2, a = a1 ++ a2 /\ more C a1 A /\ more C a2 B.
Proof. intros C a A B M. apply Forall2_app_inv_r in M. destruct M as (a1 & a2 & M1 & M2 & ->). eauto. Qed.
Lemma hpar_bangs : forall p N V, u_hpar p = N ++ V -> (forall u, In u N -> snd u = c_nl) -> raw2_at c_bang c_bang V = false.
Proof.
  intros p N V E AN. destruct (raw2_at c_bang c_bang V) eqn:Q; [exfalso|reflexivity]. pose proof (u_lead_more (bangs (u_pars p))) as M. fold (u_hpar p) in M. rewrite E in M. apply more_app_inv in M. destruct M as (a1 & a2 & Ea & M1 & M2).
  destruct (raw2_at c_bang c_bang a2) eqn:Q2; [|rewrite (more_raw2 _ _ _ _ _ M2 Q2) in Q; discriminate]. apply raw2_at_true in Q2. destruct Q2 as (w & ->). apply bangs_left in Ea. destruct Ea as (a' & u & -> & Hu).
  apply more_chars in M1. rewrite chars_app in M1. destruct N as [|v N _] using rev_ind; [destruct (chars a'); discriminate M1|]. rewrite chars_app in M1. apply app_inj_tail in M1. destruct M1 as [_ M1].
  rewrite (AN v) in M1 by (apply in_or_app; right; left; reflexivity). rewrite <- M1 in Hu. discriminate Hu.
Qed.
Lemma delims_nl : forall c, In c delims -> c <> c_nl /\ c <> c_percent /\ c <> c_rcurly.
Proof. intros c H. repeat split; intros ->; revert H; nodel. Qed.
Lemma first_char : forall C a A, hd_in delims a -> more C a A -> leading c_nl (chars A) = 0 /\ raw2_at c_percent c_rcurly A = false /\ A <> [] /\ raw_at c_rcurly A = false.
Proof.
  intros C a A (c & r & -> & Hc) M. apply more_cons in M. destruct M as (v & A' & -> & (E & _) & _). cbn [snd raw] in E. destruct (delims_nl c Hc) as (N1 & N2 & N3). destruct v as [e d]. cbn [snd] in E. subst d.
  assert (Q : forall d, c <> d -> char_eqb c d = false) by (intros d Hd; destruct (char_eqb c d) eqn:X; [apply char_eqb_eq in X; contradiction|reflexivity]).
  cbn [chars snd leading raw2_at raw_at fst]. rewrite !Q by assumption. rewrite !andb_false_r. repeat split. discriminate.
Qed.
Lemma hpar_split : forall p, sane p -> p <> [] -> exists N V, u_hpar p = N ++ V /\ opens N V /\ nlhead (u_hpar p).
Proof.
  intros p [No He] NE. assert (NH : nlhead (u_hpar p)) by (eapply nlhead_more; [apply u_hpar_more|exact blockmark_nl|apply pars_nlhead; exact No]).
  assert (X : exists N V, u_hpar p = N ++ V /\ (forall u, In u N -> snd u = c_nl) /\ no2 c_nl c_nl N /\ V <> [] /\ leading c_nl (chars V) = 0 /\ raw2_at c_percent c_rcurly V = false).
  { destruct p as [|q p]; [congruence|]. pose proof (u_hpar_more (q :: p)) as M. destruct (is_ptext q) eqn:Eq.
    - destruct q as [? ?|?|?|?|s|?|?]; try discriminate. rewrite u_pars_cons in M. cbn [u_par uflat] in M. apply more_split in M. destruct M as (X & Y & EU & MX & MY). rewrite EU. destruct No as (No & Nt & _).
      assert (HY : p = [] \/ hd_in delims (u_pars p)) by (destruct p as [|q p]; [left; reflexivity|right; destruct Nt as [Nt _]; cbn in Nt; apply u_pars_hd; exact Nt]).
      pose proof (more_chars _ _ _ MX) as EX. rewrite u_text_chars in EX. destruct (cut_leading c_nl s) as (y & Es & Ly).
      assert (N2 : no2 c_nl c_nl X) by (eapply more_no2; [exact MX|apply no2_nosub, u_text_no2]).
      destruct y as [|c y].
      + assert (HA : forall u, In u X -> snd u = c_nl). { intros u Hu. rewrite app_nil_r in Es. apply (repeat_spec (leading c_nl s)). rewrite <- Es, <- EX. unfold chars. apply in_map. exact Hu. }
        destruct HY as [->|HY].
        * exfalso. apply He. cbn [last_text rev app]. pose proof (Forall_inv No) as Ns. rewrite app_nil_r in Es. revert Es. generalize (leading c_nl s). intros [|j] Es; [cbn in Ns, Es; contradiction|]. exists (repeat c_nl j). rewrite Es.
          clear. induction j as [|j IH]; [reflexivity|]. cbn [repeat app] in *. congruence.
        * destruct (first_char _ _ _ HY MY) as (F1 & F2 & F3 & _). exists X, Y. auto 8.
      + destruct (cut_chars X (repeat c_nl (leading c_nl s)) (c :: y)) as (N & X2 & -> & E1 & E2); [congruence|]. exists N, (X2 ++ Y). split; [rewrite app_assoc; reflexivity|].
        split; [intros u Hu; apply (repeat_spec (leading c_nl s)); rewrite <- E1; unfold chars; apply in_map; exact Hu|]. split; [intros a b E; apply (N2 a (b ++ X2)); rewrite E, <- app_assoc; reflexivity|].
        destruct X2 as [|u X2]; [discriminate E2|]. split; [discriminate|]. split; [cbn [chars app snd leading] in *; injection E2 as -> _; destruct (char_eqb c c_nl); [discriminate Ly|reflexivity]|].
        destruct (raw2_at c_percent c_rcurly ((u :: X2) ++ Y)) eqn:Q; [exfalso|reflexivity]. apply raw2_at_true in Q. destruct Q as (w & Q). destruct X2 as [|v X2].
        * injection Q as -> Q. destruct HY as [->|HY]; [apply more_nil in MY; subst Y; discriminate Q|]. destruct (first_char _ _ _ HY MY) as (_ & _ & _ & F4). rewrite Q in F4. discriminate F4.
        * injection Q as -> -> _. assert (N3 : no2 c_percent c_rcurly (N ++ raw c_percent :: raw c_rcurly :: X2)) by (eapply more_no2; [exact MX|apply u_text_pp]). exact (N3 N X2 eq_refl).
    - exists [], (u_hpar (q :: p)). destruct (first_char _ _ _ (u_pars_hd q p Eq) M) as (F1 & F2 & F3 & _). split; [reflexivity|]. split; [intros u []|]. split; [intros a b E; destruct a; discriminate E|auto]. }
  destruct X as (N & V & E & X1 & X2 & X3 & X4 & X5). exists N, V. split; [exact E|]. split; [|exact NH]. repeat split; try assumption. exact (hpar_bangs p N V E X1).
Qed.

Lemma opens_app : forall N V R, opens N V -> opens N (V ++ raw c_nl :: R).
Proof.
  intros N V R (H1 & H2 & H3 & H4 & H5 & H6). split; [exact H1|]. split; [exact H2|]. split; [destruct V; discriminate|]. split; [rewrite chars_app; apply leading0_app; [destruct V; [congruence|discriminate]|exact H4]|].
  split; apply raw2_tail; auto.
Qed.
(** A paragraph that starts like this is not empty. *)
Lemma blank_never : forall s n b ts A V t r, cov s b ts (A ++ V) -> opens A V -> fparagraph (hstop n) ts = (t, r) -> trimmed s t <> [[]].
Proof.
  intros s n b ts A V t r H (H1 & H2 & H3 & H4 & H5 & H6) P E. destruct (blank_par _ _ _ _ _ P E) as (l & -> & St & Al). destruct (cov_split _ _ _ _ _ H) as (D & R & EZ & Ed & Cr). rewrite Ed in Al.
  assert (X : exists A2, A = D ++ A2 /\ R = A2 ++ V).
  { clear - EZ Al H3 H4. revert A EZ. induction D as [|d D IH]; intros A EZ; [exists A; auto|]. destruct A as [|a A].
    - exfalso. destruct V as [|v V]; [congruence|]. injection EZ as -> _. cbn [chars leading] in H4. rewrite (Al (snd d)) in H4 by (left; reflexivity). rewrite char_eqb_refl in H4. discriminate.
    - injection EZ as <- EZ. destruct (IH (fun c Hc => Al c (or_intror Hc)) A EZ) as (A2 & -> & ->). exists A2. auto. }
  destruct X as (A2 & -> & ->). rewrite (stopped_units _ _ _ _ _ Cr) in St. assert (A3 : forall u, In u A2 -> snd u = c_nl) by (intros u Hu; apply H1; apply in_or_app; right; exact Hu).
  assert (V1 : raw_at c_nl V = false) by (apply leading0_raw; exact H4). assert (Vn : match V with u :: _ => is_nl u | [] => false end = false).
  { destruct V as [|[e d] V]; [reflexivity|]. unfold is_nl. cbn [fst snd chars leading] in *. destruct (char_eqb d c_nl); [discriminate H4|apply andb_false_r]. }
  assert (Pct : forall W : list uchar, (forall u : uchar, In u W -> snd u = c_nl) -> raw2_at c_percent c_rcurly (W ++ V) = false).
  { intros [|w W] HW; [exact H5|]. destruct w as [e d]. rewrite (HW (e, d) (or_introl eq_refl) : d = c_nl). cbn. rewrite andb_false_r. reflexivity. }
  assert (Z : forall st, Forall (fun c => fires (aft b D) (A2 ++ V) c = false) st -> existsb (fires (aft b D) (A2 ++ V)) st = false).
  { induction st as [|c st IH]; intros F; [reflexivity|]. inversion F as [|? ? F1 F2]; subst. cbn [existsb]. rewrite F1. exact (IH F2). }
  assert (NE : A2 ++ V <> []) by (destruct A2; [exact H3|discriminate]). unfold ustop in St. destruct (A2 ++ V) as [|z Z0] eqn:EZ2; [congruence|]. rewrite Z in St; [discriminate St|]. clear Z St. rewrite <- EZ2.
  constructor; [|constructor].
  - cbn [fires]. destruct (raw2_at c_nl c_nl (A2 ++ V)) eqn:Q; [exfalso|reflexivity]. apply raw2_at_true in Q. destruct Q as (w & Q). destruct A2 as [|a A2]; [cbn [app] in Q; rewrite Q in V1; discriminate V1|]. injection Q as -> Q.
    destruct A2 as [|a2 A2]; [cbn [app] in Q; rewrite Q in V1; discriminate V1|]. injection Q as -> Q. exact (H2 D A2 eq_refl).
  - cbn [fires]. apply andb_false_iff. right. destruct A2 as [|[e d] A2].
    + cbn [app]. destruct (lead c_bang V =? 2) eqn:Q; [exfalso|reflexivity]. apply Nat.eqb_eq in Q. destruct (lead_ge1 c_bang V) as (w & -> & Ew); [lia|]. destruct (lead_ge1 c_bang w) as (w2 & -> & _); [rewrite Ew; lia|]. discriminate H6.
    + pose proof (A3 (e, d) (or_introl eq_refl)) as Y. cbn [snd] in Y. subst d. apply Nat.eqb_neq. intros Q. assert (Q2 : raw_at c_bang (((e, c_nl) :: A2) ++ V) = false) by (cbn; apply andb_false_r). apply lead_0 in Q2. pose proof (eq_trans (eq_sym Q2) Q) as Y. discriminate Y.
  - unfold cst. clear NE EZ2 P. induction n as [|n IH]; [constructor|]. cbn [repeat]. constructor; [|exact IH]. cbn [fires]. rewrite (Pct A2 A3), andb_false_r. cbn [orb].
    destruct A2 as [|a A2]; cbn [app]; [destruct V; [reflexivity|rewrite Vn; reflexivity]|]. rewrite (Pct A2) by (intros u Hu; apply A3; right; exact Hu). apply andb_false_r.
Qed.

(** ** The body of a highlight *)

Lemma list_eq_dec_nil : forall l : list par_node, l = [] \/ l <> [].
Proof. intros [|p l]; [left; reflexivity|right; discriminate]. Qed.

Definition hb (ps : list (list par_node)) (B : list uchar) : list uchar := ujoin (map u_hpar ps) ++ raw c_nl :: bang2 ++ B.
Lemma hb_cons : forall p ps B, hb (p :: ps) B = u_hpar p ++ raw c_nl :: match ps with [] => bang2 ++ B | _ => raw c_nl :: hb ps B end.
Proof.
  intros p ps B. unfold hb. cbn [map ujoin]. destruct ps as [|q ps]; cbn [map].
  - rewrite app_nil_r. reflexivity.
  - rewrite <- app_assoc. reflexivity.
Qed.
Lemma hloop_sane : forall s m st ts k c rest, linked s ts -> fhighlight_loop m st ts = Some (k, c, rest) -> Forall sane (flat_map (trimmed s) k).
Proof.
  intros s m. induction m as [|m IH]; intros st ts k c rest L H; [discriminate H|]. destruct (hloop_step s _ _ _ _ _ _ H) as (m' & t & r & Em & -> & _ & [[_ ->]|(_ & par & r2 & k' & P & HL & Ek & _)]); [constructor|]. injection Em as <-.
  rewrite Ek. apply Forall_app. assert (L' : linked s (if is_terminator t then r else t :: r)) by (destruct (is_terminator t); [exact (proj2 (linked_app s [t] r L))|exact L]).
  pose proof (fparagraph_app _ _ _ _ P) as Ets. pose proof P as W. apply fparagraph_wf in W; [|left; reflexivity]. destruct W as [W (o & kk & cc & ->)]. rewrite Ets in L'. apply linked_app in L'. destruct L' as [Lk Lr].
  split; [|exact (IH _ _ _ _ _ Lr HL)]. inversion W as [| |? ? ? ? Wk Sh]; subst. cbn [trimmed paragraph_of map]. constructor; [|constructor]. destruct Sh as (-> & -> & It & _). apply trim_sane. apply par_items; [exact Wk| |exact It].
  cbn [yield app] in Lk. rewrite app_nil_r in Lk. exact Lk.
Qed.

Lemma hloop_back : forall s coll n ps p m b ts B par r k c rest, (coll = true -> n <> 0) -> linked s ts -> cov s b ts (hb (p :: ps) B) -> Forall (fun q => ~ In c_cr (chars (u_hpar q))) (p :: ps) ->
  fparagraph (hstop n) ts = (par, r) -> trimmed s par = [p] -> fhighlight_loop m (cst n) r = Some (k, c, rest) -> flat_map (trimmed s) k = ps -> Forall (fun q => q = [] \/ tame_hpar coll q) (p :: ps).
Proof.
  intros s coll n. induction ps as [|p2 ps IH]; intros p m b ts B par r k c rest Hn L H NC P Ep HL Ek; rewrite hb_cons in H; inversion NC as [|? ? NC1 NC2]; subst; destruct (hpar_back s coll n p _ b ts par r Hn L H NC1 P Ep) as (T & Lr & Cr); constructor; auto.
  destruct (Cr eq_refl) as (b' & C). destruct (hloop_step s _ _ _ _ _ _ HL) as (m' & t & r' & -> & -> & _ & [[_ ->]|(_ & par2 & r2 & k' & P2 & HL2 & Ek2 & _)]); [discriminate Ek|].
  destruct (cov_term _ _ _ _ C) as (t' & r3 & E0 & K & _ & _ & C2). injection E0 as <- <-. unfold is_terminator in P2. rewrite K in P2. cbn [kind_eqb] in P2. fold (hstop n) in P2. rewrite Ek in Ek2. destruct (par_one s _ _ _ _ P2) as (q & Eq). rewrite Eq in Ek2. injection Ek2 as <- Ek2.
  apply (IH p2 m' true r' B par2 r2 k' c rest Hn (proj2 (linked_app s [t] r' Lr)) C2 NC2 P2 Eq HL2 (eq_sym Ek2)).
Qed.

Lemma nlhead_cons : forall w, nlhead (raw c_nl :: w) -> w = [] \/ leading c_nl (chars w) = 0.
Proof.
  intros w [X|[(_ & [->|(v & r & -> & Hv)])|(X & _)]]; [exfalso; apply X; reflexivity|left; reflexivity|right|discriminate X]. cbn [chars leading]. destruct (char_eqb (snd v) c_nl) eqn:E; [apply char_eqb_eq in E; contradiction|reflexivity].
Qed.
(** A paragraph read one line feed late is not empty. *)
Lemma late_par : forall s n b ts p X t r, sane p -> p <> [] -> raw_at c_nl (u_hpar p) = false -> cov s b ts (raw c_nl :: u_hpar p ++ raw c_nl :: X) -> fparagraph (hstop n) ts = (t, r) -> trimmed s t <> [[]].
Proof.
  intros s n b ts p X t r Sa NE R H P. destruct (hpar_split p Sa NE) as (N & V & E & O & _). rewrite E in H, R. destruct O as (O1 & O2 & O3). refine (blank_never s n b ts (raw c_nl :: N) (V ++ raw c_nl :: X) t r _ _ P); [rewrite <- app_assoc in H; exact H|].
  apply opens_app. split; [intros u [<-|Hu]; [reflexivity|auto]|]. split; [|exact O3]. intros a q Eq. destruct a as [|a0 a]; [injection Eq as Eq; rewrite Eq in R; discriminate R|]. injection Eq as _ Eq. exact (O2 a q Eq).
Qed.
Lemma cut_par : forall s n b ts p w X t r, sane p -> p <> [] -> u_hpar p = raw c_nl :: w -> cov s b ts (w ++ raw c_nl :: X) -> fparagraph (hstop n) ts = (t, r) -> trimmed s t <> [[]].
Proof.
  intros s n b ts p w X t r Sa NE Ew H P. destruct (hpar_split p Sa NE) as (N & V & E & O & _). rewrite Ew in E. destruct O as (O1 & O2 & O3 & O4 & O5). destruct N as [|u N]; [exfalso; cbn [app] in E; rewrite <- E in O4; cbn [chars leading raw snd] in O4; rewrite char_eqb_refl in O4; discriminate|].
  injection E as <- ->. refine (blank_never s n b ts N (V ++ raw c_nl :: X) t r _ _ P); [rewrite <- app_assoc in H; exact H|]. apply opens_app. split; [intros u Hu; apply O1; right; exact Hu|]. split; [|tauto].
  intros a q Eq. apply (O2 (raw c_nl :: a) q). rewrite Eq. reflexivity.
Qed.
Lemma shift_back : forall s n ls m ts B k c rest, ls <> [] -> Forall sane ls -> raw_at c_bang B = false -> cov s true ts (raw c_nl :: hb ls B) ->
  fhighlight_loop m (cst n) ts = Some (k, c, rest) -> flat_map (trimmed s) k <> [] :: ls.
Proof.
  intros s n ls. induction ls as [|l ls IH]; intros m ts B k c rest NE F T H HL E; [congruence|]. inversion F as [|? ? Fl Fls]; subst.
  destruct (hloop_step s _ _ _ _ _ _ HL) as (m' & t & r & -> & -> & St & [[K ->]|(K & par & r2 & k' & P & L & Ek & _)]); [discriminate E|].
  fold (hstop n) in P. rewrite Ek in E. destruct (par_one s _ _ _ _ P) as (p & Ep). rewrite Ep in E. cbn [app] in E. injection E as Ep0 E. subst p. rewrite hb_cons in H.
  destruct (list_eq_dec_nil l) as [->|Nl].
  - change (u_hpar []) with (@nil uchar) in H. cbn [app] in H. destruct (cov_term _ _ _ _ H) as (t' & r' & E0 & E1 & _ & _ & E4). injection E0 as <- <-. unfold is_terminator in P. rewrite E1 in P. cbn [kind_eqb] in P. destruct ls as [|l2 ls].
    + assert (S2 : stopped (hstop n) r = true).
      { rewrite (stopped_units _ _ _ _ _ E4). change (ustop (hstop n) true (bang2 ++ B)) with ((lead c_bang (bang2 ++ B) =? 2) || existsb (fires true (bang2 ++ B)) (cst n)). pose proof (lead_repeat c_bang 2 B T) as Lb. change (repeat (raw c_bang) 2) with bang2 in Lb. rewrite Lb. reflexivity. }
      destruct (par_stopped s _ _ _ _ P S2) as [_ ->]. destruct (two_bangs_units _ _ _ E4 T) as (w & r3 & -> & W & _).
      destruct (hloop_step s _ _ _ _ _ _ L) as (m2 & t2 & r4 & _ & Et & _ & [[_ ->]|(K2 & _)]); [discriminate E|]. injection Et as <- <-. congruence.
    + destruct (raw_at c_nl (hb (l2 :: ls) B)) eqn:Q.
      * assert (S2 : stopped (hstop n) r = true) by (rewrite (stopped_units _ _ _ _ _ E4); apply raw_at_true in Q; destruct Q as (q & ->); reflexivity).
        destruct (par_stopped s _ _ _ _ P S2) as [_ ->]. exact (IH m' r B k' c rest ltac:(discriminate) Fls T E4 L E).
      * rewrite hb_cons in E4, Q. inversion Fls as [|? ? F2 _]; subst. destruct (list_eq_dec_nil l2) as [->|N2]; [discriminate Q|]. refine (late_par s n _ _ l2 _ _ _ F2 N2 _ E4 P Ep).
        destruct (u_hpar l2); [reflexivity|exact Q].
  - destruct (raw_at c_nl (u_hpar l)) eqn:Q.
    + apply raw_at_true in Q. destruct Q as (w & Q). rewrite Q in H. destruct (cov_term _ _ _ _ H) as (t' & r' & E0 & E1 & _ & _ & E4). injection E0 as <- <-. unfold is_terminator in P. rewrite E1 in P. cbn [kind_eqb] in P.
      exact (cut_par s n _ _ l w _ _ _ Fl Nl Q E4 P Ep).
    + assert (Kt : is_terminator t = false). { unfold is_terminator. rewrite (term_test _ _ _ _ _ H). destruct (u_hpar l) as [|u U] eqn:EU; [exfalso; destruct (hpar_split l Fl Nl) as (N & V & EV & (_ & _ & O3 & _) & _); rewrite EU in EV; destruct N; [destruct V; [congruence|discriminate]|discriminate]|].
        cbn [app raw2_at raw fst snd negb andb]. rewrite char_eqb_refl. exact Q. }
      rewrite Kt in P. exact (late_par s n _ _ l _ _ _ Fl Nl Q H P Ep).
Qed.

(** ** The first lines *)

Lemma icon_free : forall st ts b c rest, until (StopTerminator :: st) is_eol ts = Some (b, c, rest) -> Forall (fun t => is_eol_or_terminator t = false) b.
Proof.
  intros st. induction ts as [|t r IH]; intros b c rest H; cbn [until] in H; [discriminate|]. destruct (stopped (StopTerminator :: st) (t :: r)) eqn:S; [discriminate|]. destruct (is_eol t) eqn:E; [injection H as <- <- <-; constructor|].
  destruct (until (StopTerminator :: st) is_eol r) as [[[b' c'] rest']|] eqn:U; [|discriminate]. injection H as <- <- <-. constructor; [|exact (IH _ _ _ eq_refl)].
  unfold stopped in S. cbn [existsb] in S. apply orb_false_iff in S. destruct S as [S _]. cbn [fmatches] in S. unfold nth_is in S. cbn [nth_error is_some_and] in S. unfold is_eol_or_terminator. change (is_eol t || is_terminator t = false). rewrite E. exact S.
Qed.
Lemma u0_line : forall x, ~ In (escd c_nl) (u0 x) /\ ~ In (escd c_space) (u0 x).
Proof. intros x. split; intros H; apply u0_escd in H; discriminate H. Qed.

Lemma title_back : forall s n t V ts x r, linked s ts -> cov s true ts (bang2 ++ utitle (option_map u0 t) ++ raw c_nl :: V) -> fhighlight (cst n) ts = Some (x, r) ->
  (forall o k1 k2 k3 c, x = Node NHighlight o (k1 ++ k2 ++ k3) c -> flat_map (child NModifier) k2 = [] -> flat_map (child NModifier) k3 = [] -> child_text s NModifier k1 = t) ->
  (forall z, t = Some z -> ~ In c_cr z) ->
  tame_line_opt t /\ exists o k1 r1 k2 r2 k3 c, linked s r1 /\ opt_tree (ficon (StopTerminator :: cst n) r1) r1 = (k2, r2) /\ fhighlight_loop (S (List.length r2)) (cst n) r2 = Some (k3, c, r)
    /\ x = Node NHighlight o (k1 ++ k2 ++ k3) c /\ flat_map (child NIcon) k1 = [] /\ flat_map (trimmed s) k1 = []
    /\ (raw_at c_nl V = false /\ cov s true r1 V \/ t <> None /\ exists V', V = raw c_nl :: V' /\ cov s true r1 V').
Proof.
  intros s n t V ts x r L H EH Hx NC.
  assert (N1 : raw_at c_bang (utitle (option_map u0 t) ++ raw c_nl :: V) = false) by (destruct t; reflexivity).
  destruct (two_bangs_units _ _ _ H N1) as (t1 & r0 & -> & E1 & E2). unfold fhighlight in EH. cbn [fseq] in EH. rewrite E1 in EH.
  assert (Fin : forall o k1 r1, (let (k2, r2) := opt_tree (ficon (StopTerminator :: cst n) r1) r1 in if nth_is 0 col0 r2 then match fhighlight_loop (S (List.length r2)) (cst n) r2 with
      | Some (k3, c, rest) => Some (Node NHighlight o (k1 ++ k2 ++ k3) c, rest) | None => None end else None) = Some (x, r) ->
      exists k2 r2 k3 c, opt_tree (ficon (StopTerminator :: cst n) r1) r1 = (k2, r2) /\ fhighlight_loop (S (List.length r2)) (cst n) r2 = Some (k3, c, r) /\ x = Node NHighlight o (k1 ++ k2 ++ k3) c /\ child_text s NModifier k1 = t).
  { intros o k1 r1 Q. destruct (opt_tree (ficon (StopTerminator :: cst n) r1) r1) as [k2 r2] eqn:Ic. destruct (nth_is 0 col0 r2); [|discriminate]. destruct (fhighlight_loop (S (List.length r2)) (cst n) r2) as [[[k3 c] rest]|] eqn:HL; [|discriminate].
    injection Q as <- <-. exists k2, r2, k3, c. split; [reflexivity|]. split; [exact HL|]. split; [reflexivity|]. apply (Hx o k1 k2 k3 c eq_refl); [|apply (hloop_quiet _ _ _ _ _ _ HL)].
    destruct (ficon (StopTerminator :: cst n) r1) as [[y r1']|] eqn:F; cbn [opt_tree] in Ic; injection Ic as <- <-; [|reflexivity]. destruct (ficon_root _ _ _ _ F) as (o' & k' & c' & ->). reflexivity. }
  assert (Ht2 : exists t2 r2, r0 = t2 :: r2) by (apply (cov_cons_inv _ _ _ _ E2); destruct t; discriminate). destruct Ht2 as (t2 & r2 & ->). cbn [fseq] in EH.
  destruct (is_space_1 t2 || is_eol t2) eqn:K2; [|discriminate EH]. cbn [last] in EH.
  apply (linked_app s [t1; t2] r2) in L. destruct L as [_ Lr2].
  destruct t as [z|]; cbn [option_map utitle uoption app] in E2.
  - assert (K3 : is_eol t2 = false) by (unfold is_eol; rewrite (eol_test _ _ _ _ _ E2); reflexivity). rewrite K3 in *. rewrite orb_false_r in K2. cbn [negb] in EH.
    destruct (fmodifier (cst n) r2) as [[y r1]|] eqn:Fm.
    + cbn [opt_tree] in EH. destruct (Fin _ _ _ EH) as (k2 & r3 & k3 & c & Q1 & Q2 & Q3 & Q4). unfold fmodifier in Fm. destruct (nth_is 0 col0 r2); [discriminate|]. destruct (until (cst n) is_eol_or_terminator r2) as [[[b1 c1] r1']|] eqn:U; [|discriminate]. injection Fm as <- <-.
      destruct (until_app _ _ _ _ _ _ U) as [Er2 Hc1]. subst r2. cbn in Q4. rewrite app_nil_r in Q4. injection Q4 as Q4.
      assert (Ks : kind t2 = Space) by (unfold is_space_1 in K2; apply andb_true_iff in K2; destruct K2 as [K2 _]; destruct (kind t2); try discriminate K2; reflexivity).
      destruct (line_back s t2 (u0 z) V b1 c1 r1' E2 Ks Hc1 (until_free _ _ _ _ _ _ U)) as (M1 & M2 & M3); [rewrite u0_chars; exact Q4|]. destruct (u0_line z) as [U1 U2].
      split; [exact (line_tame (u0 z) z (u0_chars z) U1 U2 M1 M2 (NC z eq_refl))|].
      exists [t1; t2], [Node NModifier [] [Leaf b1] [c1]], r1', k2, r3, k3, c.
      split; [apply (linked_app s (b1 ++ [c1]) r1'); rewrite <- app_assoc; exact Lr2|]. repeat split; auto. destruct M3 as [(_ & M3 & M4)|(_ & V' & M3 & M4)]; [left; auto|right; split; [discriminate|eauto]].
    + exfalso. cbn [opt_tree] in EH. destruct (Fin _ _ _ EH) as (k2 & r3 & k3 & c & Q1 & Q2 & Q3 & Q4). discriminate Q4.
  - assert (K3 : is_space_1 t2 = false) by (rewrite (space1_test _ _ _ _ _ E2); reflexivity). rewrite K3 in K2. cbn [orb] in K2. rewrite K2 in EH. cbn [negb] in EH. split; [exact I|].
    destruct (Fin _ _ _ EH) as (k2 & r3 & k3 & c & Q1 & Q2 & Q3 & Q4). exists [t1; t2], [], r2, k2, r3, k3, c. split; [exact Lr2|]. repeat split; auto. left.
    assert (RV : raw_at c_nl V = false). { unfold is_eol in K2. rewrite (eol_test _ _ _ _ _ E2) in K2. cbn in K2. destruct (raw_at c_nl V); [discriminate|reflexivity]. }
    split; [exact RV|]. destruct (cov_eol _ _ _ _ E2 RV) as (t' & r' & E0 & _ & _ & _ & E4). injection E0 as _ <-. exact E4.
Qed.

Lemma icon_back : forall s n z HB r1 y r2, linked s r1 -> cov s true r1 (uicon (Some (u0 z)) ++ HB) -> ficon (StopTerminator :: cst n) r1 = Some (y, r2) -> child_text s NIcon [y] = Some z -> ~ In c_cr z ->
  tame_line z /\ raw_at c_nl HB = false /\ cov s true r2 HB /\ linked s r2.
Proof.
  intros s n z HB r1 y r2 L H F Ey NC. cbn [uicon uoption] in H. rewrite <- !app_assoc in H. cbn [app] in H.
  change (raw c_bang :: raw c_space :: u0 z ++ raw c_nl :: HB) with (repeat (raw c_bang) 1 ++ raw c_space :: u0 z ++ raw c_nl :: HB) in H.
  destruct (cov_runs _ _ _ c_bang Bang 0 _ H eq_refl ltac:(left; discriminate) eq_refl) as (t3 & ts3 & -> & F1 & F2 & F3 & F4 & F5). change (aft true (repeat (raw c_bang) 1)) with false in F5.
  unfold ficon in F. cbn [fseq] in F. destruct (is_one_bang t3); [|discriminate]. destruct ts3 as [|t4 ts4]; [discriminate|]. destruct (is_space_1 t4) eqn:K; [|discriminate].
  destruct (until (StopTerminator :: cst n) is_eol ts4) as [[[b c] rest]|] eqn:U; [|discriminate]. injection F as <- <-. cbn in Ey. rewrite app_nil_r in Ey. injection Ey as Ey. destruct (until_app _ _ _ _ _ _ U) as [-> Hc].
  assert (Ks : kind t4 = Space) by (unfold is_space_1 in K; apply andb_true_iff in K; destruct K as [K _]; destruct (kind t4); try discriminate K; reflexivity).
  assert (Hc2 : is_eol_or_terminator c = true) by (change (is_eol c || is_terminator c = true); rewrite Hc; reflexivity).
  destruct (line_back s t4 (u0 z) HB b c rest F5 Ks Hc2 (icon_free _ _ _ _ _ U)) as (M1 & M2 & M3); [rewrite u0_chars; exact Ey|]. destruct (u0_line z) as [U1 U2].
  split; [exact (line_tame (u0 z) z (u0_chars z) U1 U2 M1 M2 NC)|]. destruct M3 as [(_ & M3 & M4)|(Kc & _)]; [|unfold is_eol in Hc; rewrite Kc in Hc; discriminate Hc]. split; [exact M3|]. split; [exact M4|].
  apply (linked_app s ([t3; t4] ++ b ++ [c]) rest). rewrite <- !app_assoc. exact L.
Qed.

Lemma highlight_back : forall coll n t i ps, (n <> 0 <-> coll = true) -> back coll n (YHighlight t i ps).
Proof.
  intros coll n t i ps Hn s ts B fuel x r L C TB Hf NS NC E Bx. assert (He : ~ ends c_nl (u_block (YHighlight t i ps))).
  { cbn [u_block]. unfold u_highlight. change bang2 with ([raw c_bang] ++ [raw c_bang]). rewrite !app_assoc. apply not_ends. discriminate. }
  split; [|intros X; contradiction]. clear He. cbn [u_block] in *. unfold u_highlight in C, NC. rewrite <- !app_assoc in C. change ([raw c_nl] ++ bang2 ++ B) with (raw c_nl :: bang2 ++ B) in C. change ([raw c_nl] ++ uicon (option_map u0 i) ++ ujoin (map u_hpar ps) ++ raw c_nl :: bang2 ++ B) with (raw c_nl :: uicon (option_map u0 i) ++ hb ps B) in C.
  assert (EH : fhighlight (cst n) ts = Some (x, r)).
  { unfold fblock in E. destruct ts as [|w0 ts]; [apply cov_nil_r in C; discriminate|]. rewrite (fcode_none _ _ _ _ _ _ C) in E by reflexivity. rewrite (fcoll_none _ _ _ _ _ _ _ C) in E by reflexivity. unfold forelse in E. rewrite (fembed_none _ _ _ _ _ _ C) in E by reflexivity.
    destruct (fhighlight (cst n) (w0 :: ts)) as [[y r0]|]; [congruence|]. exfalso. apply fsimple_root in E. destruct x as [l|l|m o k c]; try contradiction. destruct m; try contradiction; discriminate Bx. }
  assert (HB : raw_at c_bang B = false) by (apply (stail_not n); [exact TB|discriminate]).
  assert (NCt : forall z, t = Some z -> ~ In c_cr z).
  { intros z -> X. apply NC. rewrite !chars_app. apply in_or_app. right. apply in_or_app. left. cbn [option_map utitle uoption chars]. right. rewrite u0_chars. exact X. }
  assert (NCi : forall z, i = Some z -> ~ In c_cr z).
  { intros z -> X. apply NC. rewrite !chars_app. do 3 (apply in_or_app; right). apply in_or_app. left. cbn [option_map uicon uoption]. rewrite !chars_app, u0_chars. apply in_or_app. right. apply in_or_app. left. exact X. }
  assert (NCp : Forall (fun q => ~ In c_cr (chars (u_hpar q))) ps).
  { assert (X : ~ In c_cr (chars (ujoin (map u_hpar ps)))) by (intros X; apply NC; rewrite !chars_app; do 4 (apply in_or_app; right); apply in_or_app; left; exact X). clear - X. induction ps as [|p ps IH]; constructor.
    - intros Y. apply X. cbn [map ujoin]. destruct (map u_hpar ps); rewrite !chars_app; apply in_or_app; left; exact Y.
    - apply IH. intros Y. apply X. cbn [map ujoin]. destruct (map u_hpar ps) eqn:Q; [destruct Y|]. rewrite !chars_app. apply in_or_app. right. right. right. exact Y. }
  destruct (title_back s n t _ ts x r L C EH) as (Tt & o & k1 & r1 & k2 & r2 & k3 & c & L1 & Q1 & Q2 & Q3 & Q4 & Q5 & Q6).
  { intros o k1 k2 k3 c Ex Z2 Z3. subst x. cbn [blocks] in Bx. injection Bx as B1 _ _. rewrite <- B1. unfold child_text. rewrite !flat_map_app, Z2, Z3, !app_nil_r. reflexivity. }
  { exact NCt. }
  subst x. pose proof (hloop_quiet _ _ _ _ _ _ Q2) as [_ Q7]. cbn [blocks] in Bx. injection Bx as _ B2 B3. rewrite icon_child in B2 by assumption. rewrite !flat_map_app, Q5 in B3. cbn [app] in B3.
  assert (Ic : tame_line_opt i /\ linked s r2 /\ flat_map (trimmed s) k3 = ps /\ (i = None -> ficon (StopTerminator :: cst n) r1 = None /\ r2 = r1)
    /\ (raw_at c_nl (hb ps B) = false /\ cov s true r2 (hb ps B) \/ i = None /\ t <> None /\ exists V', hb ps B = raw c_nl :: V' /\ cov s true r2 V')).
  { destruct (ficon (StopTerminator :: cst n) r1) as [[y r1']|] eqn:F; cbn [opt_tree] in Q1; injection Q1 as <- <-.
    - destruct (ficon_root _ _ _ _ F) as (o' & k' & c' & ->). cbn [flat_map trimmed paragraph_of map app] in B3. destruct i as [z|]; [|exfalso; cbn in B2; discriminate B2]. destruct Q6 as [(_ & Q6)|(_ & V' & Q6 & _)]; [|discriminate Q6].
      destruct (icon_back s n z (hb ps B) r1 _ r1' L1 Q6 F B2 (NCi z eq_refl)) as (I1 & I2 & I3 & I4). split; [exact I1|]. split; [exact I4|]. split; [exact B3|]. split; [discriminate|left; auto].
    - cbn in B2. subst i. split; [exact I|]. split; [exact L1|]. split; [exact B3|]. split; [auto|]. destruct Q6 as [Q6|(T & V' & Q6 & Q8)]; [left; exact Q6|right; split; [reflexivity|split; [exact T|eauto]]]. }
  destruct Ic as (Ti & L2 & Ek & Hi & Cases). cbn [tame_block]. split; [exact Tt|]. split; [exact Ti|]. pose proof (hloop_sane _ _ _ _ _ _ _ L2 Q2) as Sa. rewrite Ek in Sa.
  destruct Cases as [(RB & CB)|(Ei & Nt & V' & EV & CB)].
  - destruct ps as [|p ps]; [discriminate RB|]. destruct (hloop_step s _ _ _ _ _ _ Q2) as (m' & w & r' & Em & -> & _ & [[_ ->]|(_ & par & r3 & k' & P & HL & Ek2 & _)]); [discriminate Ek|].
    assert (Kw : is_terminator w = false) by (unfold is_terminator; rewrite (term_test _ _ _ _ _ CB); apply raw_raw2; exact RB). rewrite Kw in P. fold (hstop n) in P. rewrite Ek in Ek2. destruct (par_one s _ _ _ _ P) as (q & Eq). rewrite Eq in Ek2. injection Ek2 as <- Ek2.
    pose proof (hloop_back s coll n ps p m' true _ B par r3 k' c r (proj2 Hn) L2 CB NCp P Eq HL (eq_sym Ek2)) as F. inversion F as [|? ? Fp Fr]; subst. rewrite hb_cons in RB.
    assert (Tp : tame_hpar coll p) by (destruct Fp as [->|Fp]; [discriminate RB|exact Fp]). split; [exact Tp|]. split; [exact Fr|]. split.
    + intros L3. destruct (hpar_led _ _ Tp L3) as (w' & Ew & _). rewrite Ew in RB. discriminate RB.
    + intros Ei LI. destruct (Hi Ei) as [Y1 Y2]. rewrite <- Y2 in Y1. destruct (like_icon_read s n coll p _ _ B Tp (proj1 Hn) LI TB CB) as (? & ? & ? & ? & Y3). congruence.
  - destruct ps as [|p ps]; [auto|exfalso]. inversion Sa as [|? ? Sp Sps]; subst. rewrite hb_cons in EV. destruct (list_eq_dec_nil p) as [->|Np].
    + change (u_hpar []) with (@nil uchar) in EV. cbn [app] in EV. injection EV as <-. destruct ps as [|p2 ps].
      * destruct (two_bangs_units _ _ _ CB HB) as (w & r3 & -> & W & _). destruct (hloop_step s _ _ _ _ _ _ Q2) as (m2 & t2 & r4 & _ & Et & _ & [[_ ->]|(K2 & _)]); [discriminate Ek|]. injection Et as <- <-. congruence.
      * exact (shift_back s n (p2 :: ps) _ _ B _ _ _ ltac:(discriminate) Sps HB CB Q2 Ek).
    + destruct (hpar_split p Sp Np) as (N & V & EU & (_ & _ & O3 & O4 & _) & NH). destruct (u_hpar p) as [|u w] eqn:Eu; [destruct N; [destruct V; [congruence|discriminate]|discriminate]|]. injection EV as -> EV.
      assert (Zw : w <> [] /\ leading c_nl (chars w) = 0).
      { destruct (nlhead_cons w NH) as [->|Zw]; [|split; [|exact Zw]; intros ->].
        - exfalso. destruct N as [|u N]; [cbn [app] in EU; rewrite <- EU in O4; discriminate O4|]. injection EU as _ EU. destruct N; [destruct V; [congruence|discriminate]|discriminate].
        - destruct N as [|u N]; [cbn [app] in EU; rewrite <- EU in O4; discriminate O4|]. injection EU as _ EU. destruct N; [destruct V; [congruence|discriminate]|discriminate]. }
      destruct Zw as [Nw Zw]. subst V'. destruct (cov_cons_inv _ _ _ _ CB) as (w0 & r0 & ->); [destruct w; [congruence|discriminate]|].
      match type of CB with cov _ _ _ (w ++ ?X) => assert (ZR : leading c_nl (chars (w ++ X)) = 0) by (rewrite chars_app; apply leading0_app; [destruct w; [congruence|discriminate]|exact Zw]) end.
      destruct (hloop_step s _ _ _ _ _ _ Q2) as (m2 & t2 & r4 & _ & Et & _ & [[_ ->]|(_ & par & r3 & k' & P & _ & Ek2 & _)]); [discriminate Ek|]. injection Et as <- <-.
      replace (is_terminator w0) with false in P by (symmetry; unfold is_terminator; rewrite (term_test _ _ _ _ _ CB); apply raw_raw2; exact (leading0_raw _ ZR)).
      destruct (par_one s _ _ _ _ P) as (q & Eq). pose proof (led_par _ _ _ _ _ _ _ _ _ CB ZR P Eq) as Lq. rewrite Ek, Eq in Ek2. injection Ek2 as <- _.
      pose proof (more_chars _ _ _ (u_hpar_more p)) as Ec. rewrite Eu in Ec. destruct Sp as [(Nn & _) _]. destruct p as [|p0 p]; [congruence|]. inversion Nn as [|? ? Np0 _]; subst. rewrite u_pars_cons in Ec.
      destruct p0 as [? ?|?|?|?|y|?|?]; cbn [u_par uflat] in Ec; try discriminate Ec. rewrite chars_app, u_text_chars in Ec. cbn in Np0. destruct y as [|d y]; [congruence|]. injection Ec as Ec _. cbn [first_text leading] in Lq. rewrite <- Ec, char_eqb_refl in Lq. discriminate Lq.
Qed.
