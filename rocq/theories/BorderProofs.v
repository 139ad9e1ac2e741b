(** Where blocks begin and end, for the op streams of [parse] (continues Borders.v). *)
From Coq Require Import String.
From Verif Require Import Base Lexer LexSpec LexProofs LexFacts Ops Parser FParser Refine Refine2 Refine3
  Wf TokFacts StreamSpec StreamProofs StreamProofs2 Lines StreamProofs3 LineProofs MissSpec MissProofs Borders Collapse BorderSpec.
Open Scope list_scope.

Lemma node_bord : forall s ops es a n x mid y b, parse s = Ok ops -> reads s ops es ->
  es = a ++ (Start n, x) :: mid ++ (End n, y) :: b -> balanced (map fst mid) ->
  exists o k c ta tb, wf (Node n o k c) /\ sflips (spec_tokens s) (ta ++ (o ++ yields k ++ c) ++ tb)
    /\ x = ttexts s o /\ mid = tevents_all s k /\ y = ttexts s c /\ covered a (ttexts s ta) /\ bord n o k c tb /\ (b = [] -> tb = []).
Proof.
  intros s ops es a n x mid y b H R E B.
  rewrite (reads_fun s ops es (stream s) R (parse_reads s ops H)) in E.
  destruct (fparse_wf (spec_tokens s)) as [W T].
  destruct (trees_located _ s [] _ W (fparse_linked s) (top_not_skip _ T) (fparse_bord s) _ _ _ _ E) as (ta & o & k & c & tb & r' & H1 & H2 & H3 & H4 & H5 & [_ H7] & H6).
  rewrite app_nil_r in H6. apply every_node in H6. destruct H6 as [H6 _].
  exists o, k, c, ta, tb. split; [exact H1|]. split; [rewrite <- H2; apply fparse_sflips|]. split; [exact H3|].
  assert (X : mid = tevents_all s k).
  { pose proof (f_equal (map fst) H4) as M. rewrite !map_app in M. cbn in M.
    apply balanced_unique in M; [|exact B|apply tevents_balanced].
    apply (f_equal (@List.length _)) in M. rewrite !map_length in M.
    eapply app_same_length; eauto. }
  split; [exact X|]. subst mid. apply app_inv_head in H4. injection H4 as -> ->. auto.
Qed.

(** *** Tokens of the trees and of the source *)

Lemma flip_end_rev : forall t u, flip t u -> is_collapsible_end u = true -> closing_brace t.
Proof.
  intros t u F H. rewrite (flip_collapsible_end _ _ F) in H. unfold is_collapsible_end in H. apply andb_true_iff in H. destruct H as [H1 H2].
  split; [apply kind_eqb_eq; exact H1|apply Nat.eqb_eq; exact H2].
Qed.
Lemma quiet_open : forall ts us, flips ts us -> quiet us -> still_open ts.
Proof.
  intros ts us F. induction F as [|t u ts us Ft F IH]; intros Q; [constructor|]. inversion Q as [|? ? Q1 Q2]; subst. constructor; [|apply IH; exact Q2].
  intros [K C]. rewrite (flip_collapsible_end _ _ Ft) in Q1. unfold is_collapsible_end in Q1. rewrite K in Q1. unfold col0 in Q1. rewrite C in Q1. discriminate.
Qed.
Lemma stopped_ahead : forall st ts us, flips ts us -> calm st -> stopped (StopTerminator :: st) us = true -> blank_ahead ts \/ (st <> [] /\ end_ahead ts).
Proof.
  intros st ts us F C S0. rewrite (flips_stopped _ _ _ F) in S0. destruct ts as [|t r]; [left; exact I|]. cbn [stopped existsb] in S0. apply orb_true_iff in S0.
  destruct S0 as [S0|S0]; [left; apply kind_eqb_eq; exact S0|]. right. apply existsb_exists in S0. destruct S0 as (c & I0 & S0).
  split; [intros ->; destruct I0|]. unfold calm in C. rewrite Forall_forall in C. apply C in I0. subst c. cbn [fmatches] in S0. apply orb_true_iff in S0. destruct S0 as [S0|S0].
  - left. exists t, r. split; [reflexivity|]. exact (flip_end_rev t t (flip_refl t) S0).
  - right. apply andb_true_iff in S0. destruct S0 as [S1 S2]. exists t, r. split; [reflexivity|]. split; [apply kind_eqb_eq; exact S1|].
    destruct r as [|u r]; [discriminate|]. exists u, r. split; [reflexivity|]. exact (flip_end_rev u u (flip_refl u) S2).
Qed.
Lemma marker_tok : forall s t, tok_ok s t -> is_list_marker None t = true -> is_tok s Minus (s_ "-") t \/ is_tok s Plus (s_ "+") t.
Proof.
  intros s t O H. unfold is_list_marker, list_kind_of in H. destruct (kind_eqb (kind t) Minus && (tlen t =? 1)) eqn:E1.
  - left. apply andb_true_iff in E1. destruct E1 as [K L]. apply kind_eqb_eq in K. apply Nat.eqb_eq in L. split; [exact K|]. rewrite (token_text_of s t O), (run_text_at s t Minus c_minus O K eq_refl), L. reflexivity.
  - right. destruct (kind_eqb (kind t) Plus && (tlen t =? 1)) eqn:E2; [|discriminate].
    apply andb_true_iff in E2. destruct E2 as [K L]. apply kind_eqb_eq in K. apply Nat.eqb_eq in L. split; [exact K|]. rewrite (token_text_of s t O), (run_text_at s t Plus c_plus O K eq_refl), L. reflexivity.
Qed.
Lemma space_tok : forall s t, tok_ok s t -> is_space_1 t = true -> is_tok s Space (s_ " ") t.
Proof. intros s t O H. split; [|rewrite (token_text_of s t O), (x_space_1 s t O H); reflexivity]. apply andb_true_iff in H. apply kind_eqb_eq, H. Qed.
Lemma line_ahead : forall s ts us, flips ts us -> Forall (tok_ok s) ts -> list_line us = true -> item_ahead s ts.
Proof.
  intros s ts us F O H. rewrite (line_flips _ _ F) in H. clear F us. unfold list_line in H. apply andb_true_iff in H. destruct H as [C H]. apply orb_true_iff in H. destruct H as [H|H].
  - apply andb_true_iff in H. destruct H as [H1 H2]. destruct ts as [|t [|u r]]; [discriminate|discriminate|]. unfold nth_is in *. cbn in *. inversion O as [|? ? O1 O2]; subst. inversion O2 as [|? ? O3 _]; subst.
    left. exists t, u, r. split; [reflexivity|]. split; [apply marker_tok; assumption|]. split; [apply Nat.eqb_eq; exact C|apply space_tok; assumption].
  - apply andb_true_iff in H. destruct H as [H H3]. apply andb_true_iff in H. destruct H as [H1 H2]. destruct ts as [|i [|t [|u r]]]; try discriminate. unfold nth_is in *. cbn in *.
    inversion O as [|? ? O1 O2]; subst. inversion O2 as [|? ? O3 O4]; subst. inversion O4 as [|? ? O5 _]; subst.
    right. exists i, t, u, r. split; [reflexivity|]. split; [apply kind_eqb_eq; exact H1|]. split; [apply Nat.eqb_eq; exact C|]. split; [apply marker_tok; assumption|apply space_tok; assumption].
Qed.
Lemma kid_after : forall s st n o k c ts us, flips ts us -> Forall (tok_ok s) ts -> calm st -> kid st (Node n o k c) us ->
  after_block s n (fun ts => st <> [] /\ end_ahead ts) ts.
Proof.
  intros s st n o k c ts us F O C (K1 & K2 & _). split.
  - intros E. eapply stopped_ahead; [exact F|exact C|]. apply K1. destruct n; try discriminate; reflexivity.
  - intros E. assert (X : list_node n = true) by (destruct n; try discriminate; reflexivity). destruct (K2 X) as [S0|S0].
    + destruct (stopped_ahead _ _ _ F C S0); auto.
    + right. right. eapply line_ahead; eauto.
Qed.
Lemma kids_at : forall st k1 t k2 r, kids st (k1 ++ t :: k2) r -> kid st t (yields k2 ++ r).
Proof. intros st k1. induction k1 as [|u k1 IH]; intros t k2 r H; [apply H|]. destruct H as [_ H]. exact (IH _ _ _ H). Qed.

(** *** Blocks of the whole document *)

Lemma covered_wf : forall s k, linked s (yields k) -> Forall wf k -> Forall not_skip k -> covered (tevents_all s k) (ttexts s (yields k)).
Proof. intros s k L W N. apply trees_covered_of; [exact L| |exact N]. eapply Forall_impl; [|exact W]. intros w Ww. apply tree_covered. exact Ww. Qed.
Lemma after_stop : forall s n (P Q : list token -> Prop) ts, (forall ts, P ts -> Q ts) -> after_block s n P ts -> after_block s n Q ts.
Proof. intros s n P Q ts H [H1 H2]. split; intros E; [destruct (H1 E); auto|destruct (H2 E) as [|[|]]; auto]. Qed.

Lemma block_top : forall s ops es a x0 m1 n x mid y m2 y0, parse s = Ok ops -> reads s ops es ->
  es = a ++ (Start NDocument, x0) :: (m1 ++ (Start n, x) :: mid ++ (End n, y) :: m2) ++ [(End NDocument, y0)] ->
  balanced (map fst m1) -> balanced (map fst mid) -> balanced (map fst m2) ->
  exists ts1 ts2 x1, lex s = Ok (ts1 ++ ts2) /\ concat_texts s ts1 = Ok x1
    /\ covered (a ++ (Start NDocument, x0) :: m1 ++ (Start n, x) :: mid ++ [(End n, y)]) x1
    /\ after_block s n (fun _ => False) ts2.
Proof.
  intros s ops es a x0 m1 n x mid y m2 y0 H R E B1 Bm B2.
  assert (B : balanced (map fst (m1 ++ (Start n, x) :: mid ++ (End n, y) :: m2))).
  { rewrite map_app. apply balanced_app; [exact B1|]. cbn. rewrite map_app. constructor; [exact Bm|exact B2]. }
  destruct (node_bord _ _ _ _ _ _ _ _ _ H R E B) as (o & k & c & ta & tb & W & SF & -> & M & -> & Cv & T & TB).
  pose proof (sflips_flips _ _ SF) as Fl.
  specialize (TB eq_refl). subst tb. specialize (T eq_refl).
  inversion W as [| |? ? ? ? Wk Sh]; subst.
  assert (NS : Forall not_skip k) by (eapply shape_not_skip; [exact Sh|discriminate]).
  assert (o = [] /\ c = []) as [-> ->] by (cbn [shape] in Sh; tauto).
  symmetry in M. destruct (node_in s k _ _ _ _ _ _ NS M B1 Bm) as (k1 & po & pk & pc & k2 & -> & -> & -> & -> & -> & ->).
  apply kids_at in T. rewrite app_nil_r in T.
  apply Forall_app in NS. destruct NS as [NS1 NS2]. inversion NS2; subst.
  apply Forall_app in Wk. destruct Wk as [Wk1 Wk2]. inversion Wk2 as [|? ? Wp _]; subst.
  pose proof (flips_linked s _ _ Fl (spec_linked s)) as L.
  rewrite yields_app in Fl, L. change (yields (Node n po pk pc :: k2)) with (yield (Node n po pk pc) ++ yields k2) in Fl, L.
  match type of Fl with flips _ ?X =>
    replace X with ((ta ++ yields k1 ++ yield (Node n po pk pc)) ++ yields k2) in Fl, L by (repeat (rewrite ?app_nil_r, <- ?app_assoc; cbn [app]); reflexivity) end.
  destruct (source_split _ _ _ Fl) as (ts1 & ts2 & EL & F1 & F2 & C1 & _ & TO).
  exists ts1, ts2, (ttexts s (ta ++ yields k1 ++ yield (Node n po pk pc))). split; [exact EL|]. split; [exact C1|].
  apply linked_app in L. destruct L as [L _]. apply linked_app in L. destruct L as [_ L]. apply linked_app in L. destruct L as [L1 L2]. split.
  - rewrite !ttexts_app. apply covered_app; [exact Cv|]. apply (cov_event _ []).
    apply covered_app; [apply covered_wf; assumption|]. apply (tree_covered s (Node n po pk pc) Wp L2 I).
  - apply Forall_app in TO. destruct TO as [_ TO]. eapply after_stop; [|eapply (kid_after s []); [exact F2|exact TO|constructor|exact T]]. intros ? [X _]. congruence.
Qed.

(** *** Collapsibles *)

(** The parts of a collapsible. *)
Lemma coll_parts : forall s ops es a xc p x0 m y0 yc b, parse s = Ok ops -> reads s ops es ->
  es = a ++ (Start NCollapsible, xc) :: (p ++ (Start NDocument, x0) :: m ++ [(End NDocument, y0)]) ++ (End NCollapsible, yc) :: b ->
  balanced (map fst p) -> balanced (map fst m) ->
  exists o k1 k2 k3 c ta tb, sflips (spec_tokens s) (ta ++ (o ++ yields k1 ++ yields k2 ++ yields k3 ++ c) ++ tb)
    /\ xc = ttexts s o /\ p = tevents_all s k1 /\ x0 = [] /\ m = tevents_all s k2 /\ y0 = [] /\ covered a (ttexts s ta)
    /\ opt_root NModifier k1 /\ nth_is 0 col0 (yields k2 ++ yields k3 ++ c) = true /\ kids [StopCollapsibleEnd] k2 (yields k3 ++ c ++ tb)
    /\ Forall wf k1 /\ Forall wf k2 /\ Forall not_skip k1 /\ Forall not_skip k2.
Proof.
  intros s ops es a xc p x0 m y0 yc b H R E Bp Bm.
  assert (B : balanced (map fst (p ++ (Start NDocument, x0) :: m ++ [(End NDocument, y0)]))).
  { rewrite map_app. apply balanced_app; [exact Bp|]. cbn. rewrite map_app. constructor; [exact Bm|constructor]. }
  destruct (node_bord _ _ _ _ _ _ _ _ _ H R E B) as (o & k & c & ta & tb & W & SF & -> & M & -> & Cv & T & TB).
  pose proof (sflips_flips _ _ SF) as Fl.
  destruct T as [_ (k1 & k2 & k3 & -> & O1 & E3 & CC & K)].
  inversion W as [| |? ? ? ? Wk Sh]; subst. apply Forall_app in Wk. destruct Wk as [Wk1 Wk2]. cbn [app] in Wk2. inversion Wk2 as [|? ? Wd _]; subst.
  inversion Wd as [| |? ? ? ? Wk ShD]; subst.
  assert (N2 : Forall not_skip k2) by (eapply shape_not_skip; [exact ShD|discriminate]).
  assert (N1 : Forall not_skip k1) by (eapply opt_not_skip; eauto).
  assert (NS : Forall not_skip (k1 ++ [Node NDocument [] k2 []])) by (apply Forall_app; split; [exact N1|repeat constructor]).
  assert (M' : tevents_all s (k1 ++ [Node NDocument [] k2 []]) = p ++ (Start NDocument, x0) :: m ++ [(End NDocument, y0)]).
  { rewrite M. destruct E3 as [->|(e & ->)]; [rewrite app_nil_r; reflexivity|]. unfold tevents_all. rewrite !flat_map_app. cbn [flat_map tevents]. rewrite !app_nil_r. reflexivity. }
  destruct (node_in s _ _ _ _ _ _ [] NS M' Bp Bm) as (j1 & do & dk & dc & j2 & EJ & -> & -> & -> & EJ2 & ->).
  assert (X : j1 = k1 /\ Node NDocument do dk dc = Node NDocument [] k2 []).
  { destruct O1 as [->|(z & -> & (zo & zk & zc & ->))].
    - destruct j1 as [|u j1]; [injection EJ as -> -> -> _; auto|]. destruct j1; discriminate.
    - destruct j1 as [|u [|v j1]]; [discriminate|injection EJ as <- -> -> -> _; auto|]. destruct j1; discriminate. }
  destruct X as [-> X]. injection X as -> -> ->.
  exists o, k1, k2, k3, c, ta, tb. split.
  { rewrite !yields_app in SF. cbn [yields flat_map yield app] in SF. fold (yields k2) in SF. rewrite !app_nil_r in SF. rewrite <- !app_assoc in *. exact SF. }
  repeat (split; [first [assumption|reflexivity]|]). assumption.
Qed.

Lemma block_inner : forall s ops es a xc p x0 m1 n x mid y m2 y0 yc b, parse s = Ok ops -> reads s ops es ->
  es = a ++ (Start NCollapsible, xc) :: (p ++ (Start NDocument, x0) :: (m1 ++ (Start n, x) :: mid ++ (End n, y) :: m2) ++ [(End NDocument, y0)])
         ++ (End NCollapsible, yc) :: b ->
  balanced (map fst p) -> balanced (map fst m1) -> balanced (map fst mid) -> balanced (map fst m2) ->
  exists ts1 ts2 ts3 x1 x2, lex s = Ok (ts1 ++ ts2 ++ ts3)
    /\ concat_texts s ts1 = Ok x1 /\ covered (a ++ (Start NCollapsible, xc) :: p ++ (Start NDocument, x0) :: m1) x1
    /\ concat_texts s ts2 = Ok x2 /\ covered ((Start n, x) :: mid ++ [(End n, y)]) x2
    /\ after_block s n end_ahead ts3
    /\ (n <> NCode -> n <> NCollapsible -> still_open ts2).
Proof.
  intros s ops es a xc p x0 m1 n x mid y m2 y0 yc b H R E Bp B1 Bm B2.
  assert (B : balanced (map fst (m1 ++ (Start n, x) :: mid ++ (End n, y) :: m2))).
  { rewrite map_app. apply balanced_app; [exact B1|]. cbn. rewrite map_app. constructor; [exact Bm|exact B2]. }
  destruct (coll_parts _ _ _ _ _ _ _ _ _ _ _ H R E Bp B) as (o & k1 & k2 & k3 & c & ta & tb & SF & -> & -> & -> & M & -> & Cv & O1 & CC & K & W1 & W2 & N1 & N2).
  pose proof (sflips_flips _ _ SF) as Fl.
  symmetry in M. destruct (node_in s k2 _ _ _ _ _ _ N2 M B1 Bm) as (j1 & po & pk & pc & j2 & -> & -> & -> & -> & -> & ->).
  apply kids_at in K. apply Forall_app in N2. destruct N2 as [N2 _]. apply Forall_app in W2. destruct W2 as [W2 W3]. inversion W3 as [|? ? Wp _]; subst.
  pose proof (flips_linked s _ _ Fl (spec_linked s)) as L.
  rewrite yields_app in Fl, L. change (yields (Node n po pk pc :: j2)) with (yield (Node n po pk pc) ++ yields j2) in Fl, L.
  match type of Fl with flips _ ?X =>
    replace X with ((ta ++ o ++ yields k1 ++ yields j1) ++ yield (Node n po pk pc) ++ yields j2 ++ yields k3 ++ c ++ tb) in Fl, L by (rewrite <- !app_assoc; reflexivity) end.
  destruct (source_split _ _ _ Fl) as (ts1 & ts' & EL & F1 & F2 & C1 & _ & TO).
  apply flips_split in F2. destruct F2 as (ts2 & ts3 & -> & F2 & F3).
  apply Forall_app in TO. destruct TO as [_ TO]. apply Forall_app in TO. destruct TO as [TO2 TO3].
  exists ts1, ts2, ts3, (ttexts s (ta ++ o ++ yields k1 ++ yields j1)), (ttexts s ts2). split; [exact EL|]. split; [exact C1|].
  apply linked_app in L. destruct L as [L1 L]. apply linked_app in L. destruct L as [L2 _].
  apply linked_app in L1. destruct L1 as [_ L1]. apply linked_app in L1. destruct L1 as [_ L1]. apply linked_app in L1. destruct L1 as [L1 L3].
  split; [|split; [|split; [|split]]].
  - rewrite !ttexts_app. apply covered_app; [exact Cv|]. apply cov_event. apply covered_app; [apply covered_wf; assumption|]. apply (cov_event _ []). apply covered_wf; assumption.
  - apply concat_of_ttexts. eapply Forall_impl; [|exact TO2]. intros z (w & Hw & _). exists w. exact Hw.
  - rewrite <- (flips_ttexts s _ _ F2). apply (tree_covered s (Node n po pk pc) Wp L2 I).
  - eapply after_stop; [|eapply (kid_after s [StopCollapsibleEnd]); [exact F3|exact TO3|repeat constructor|exact K]]. intros ? [_ X]. exact X.
  - intros NC NL. destruct K as (_ & _ & K & _). eapply quiet_open; [exact F2|]. apply K; [left; reflexivity|exact NC|exact NL].
Qed.

(** The document of a collapsible starts a line. *)
Lemma inner_start : forall s ops es a xc p x0 m y0 yc b, parse s = Ok ops -> reads s ops es ->
  es = a ++ (Start NCollapsible, xc) :: (p ++ (Start NDocument, x0) :: m ++ [(End NDocument, y0)]) ++ (End NCollapsible, yc) :: b ->
  balanced (map fst p) -> balanced (map fst m) ->
  exists ts1 t ts2 x1, lex s = Ok (ts1 ++ t :: ts2) /\ concat_texts s ts1 = Ok x1 /\ covered (a ++ (Start NCollapsible, xc) :: p) x1 /\ first_on_line t.
Proof.
  intros s ops es a xc p x0 m y0 yc b H R E Bp Bm.
  destruct (coll_parts _ _ _ _ _ _ _ _ _ _ _ H R E Bp Bm) as (o & k1 & k2 & k3 & c & ta & tb & SF & -> & -> & -> & M & -> & Cv & O1 & CC & K & W1 & W2 & N1 & N2).
  pose proof (sflips_flips _ _ SF) as Fl.
  pose proof (flips_linked s _ _ Fl (spec_linked s)) as L.
  match type of Fl with flips _ ?X =>
    replace X with ((ta ++ o ++ yields k1) ++ (yields k2 ++ yields k3 ++ c) ++ tb) in Fl, L by (rewrite <- !app_assoc; reflexivity) end.
  destruct (yields k2 ++ yields k3 ++ c) as [|u us]; [discriminate|].
  destruct (source_split _ _ _ Fl) as (ts1 & ts' & EL & F1 & F2 & C1 & _ & TO). apply flips_cons in F2. destruct F2 as (t & ts2 & -> & Ft & F2).
  exists ts1, t, ts2, (ttexts s (ta ++ o ++ yields k1)). split; [exact EL|]. split; [exact C1|]. split.
  - apply linked_app in L. destruct L as [L _]. apply linked_app in L. destruct L as [_ L]. apply linked_app in L. destruct L as [_ L].
    rewrite !ttexts_app. apply covered_app; [exact Cv|]. apply cov_event. apply covered_wf; assumption.
  - unfold nth_is in CC. cbn in CC. rewrite (flip_col0 _ _ Ft) in CC. apply Nat.eqb_eq. exact CC.
Qed.

(** The end of the last line belongs to the block. *)
Lemma eol_event : forall s ops es a n x mid y b, parse s = Ok ops -> reads s ops es ->
  es = a ++ (Start n, x) :: mid ++ (End n, y) :: b -> balanced (map fst mid) -> takes_eol n = true ->
  exists ts1 ts2 x1, lex s = Ok (ts1 ++ ts2)
    /\ concat_texts s ts1 = Ok x1 /\ covered (a ++ (Start n, x) :: mid ++ [(End n, y)]) x1 /\ eol_taken ts1 ts2.
Proof.
  intros s ops es a n x mid y b H R E B N.
  destruct (node_bord _ _ _ _ _ _ _ _ _ H R E B) as (o & k & c & ta & tb & W & SF & -> & -> & -> & Cv & T & _).
  pose proof (sflips_flips _ _ SF) as Fl.
  pose proof (flips_linked s _ _ Fl (spec_linked s)) as L. rewrite app_assoc in Fl.
  destruct (source_split _ _ _ Fl) as (ts1 & ts2 & EL & F1 & F2 & C1 & _ & _). exists ts1, ts2, (ttexts s (ta ++ o ++ yields k ++ c)).
  split; [exact EL|]. split; [exact C1|].
  apply linked_app in L. destruct L as [_ L]. apply linked_app in L. destruct L as [L _]. split.
  - rewrite ttexts_app. apply covered_app; [exact Cv|]. apply (tree_covered s (Node n o k c) W L I).
  - assert (LO : shut c tb) by (destruct n; try discriminate N; apply T). destruct LO as [(c' & e & -> & Ee)|LO].
    + left. rewrite !app_assoc in F1. apply flips_split in F1. destruct F1 as (ts & ts' & -> & _ & F1). apply flips_cons in F1.
      destruct F1 as (u & z & -> & Fu & Fz). inversion Fz; subst. exists ts, u. split; [reflexivity|]. rewrite (flip_eol _ _ Fu) in Ee. apply kind_eqb_eq. exact Ee.
    + right. inversion F2 as [|u t ts bb Fu F2']; subst; [exact I|]. unfold nth_is in LO. cbn in LO. rewrite (flip_eol _ _ Fu) in LO.
      intros K. unfold is_eol in LO. rewrite K in LO. discriminate.
Qed.

(** A collapsible in a collapsible: after the title line there is no [%}]. *)
Lemma nested_title : forall s ops es a xc p x0 m1 x xm v e m2 y m3 y0 yc b, parse s = Ok ops -> reads s ops es ->
  es = a ++ (Start NCollapsible, xc) :: (p ++ (Start NDocument, x0) ::
         (m1 ++ (Start NCollapsible, x) :: ((Start NModifier, xm) :: (Value, v) :: (End NModifier, e) :: m2) ++ (End NCollapsible, y) :: m3) ++ [(End NDocument, y0)])
         ++ (End NCollapsible, yc) :: b ->
  balanced (map fst p) -> balanced (map fst m1) -> balanced (map fst m2) -> balanced (map fst m3) -> newline e ->
  exists ts1 ts2 x1, lex s = Ok (ts1 ++ ts2)
    /\ concat_texts s ts1 = Ok x1
    /\ covered (a ++ (Start NCollapsible, xc) :: p ++ (Start NDocument, x0) :: m1 ++ [(Start NCollapsible, x); (Start NModifier, xm); (Value, v); (End NModifier, e)]) x1
    /\ ~ brace_ahead ts2.
Proof.
  intros s ops es a xc p x0 m1 x xm v e m2 y m3 y0 yc b H R E Bp B1 B2 B3 Ne.
  assert (Bm : balanced (map fst ((Start NModifier, xm) :: (Value, v) :: (End NModifier, e) :: m2))).
  { cbn. apply (bal_node NModifier [Value]); [repeat constructor|exact B2]. }
  assert (B : balanced (map fst (m1 ++ (Start NCollapsible, x) :: ((Start NModifier, xm) :: (Value, v) :: (End NModifier, e) :: m2) ++ (End NCollapsible, y) :: m3))).
  { rewrite map_app. apply balanced_app; [exact B1|]. rewrite map_cons, map_app. cbn [map fst]. constructor; [exact Bm|exact B3]. }
  destruct (coll_parts _ _ _ _ _ _ _ _ _ _ _ H R E Bp B) as (o & k1 & k2 & k3 & c & ta & tb & SF & -> & -> & -> & M & -> & Cv & O1 & CC & K & W1 & W2 & N1 & N2).
  pose proof (sflips_flips _ _ SF) as Fl.
  symmetry in M. destruct (node_in s k2 _ _ _ _ _ _ N2 M B1 Bm) as (j1 & po & pk & pc & j2 & -> & -> & -> & EM & -> & ->).
  apply kids_at in K. apply Forall_app in N2. destruct N2 as [N2 _]. apply Forall_app in W2. destruct W2 as [W2 W3]. inversion W3 as [|? ? Wp _]; subst.
  inversion Wp as [| |? ? ? ? Wpk ShP]; subst.
  (* the modifier is the first child *)
  cbn [shape] in ShP. destruct ShP as (_ & Tc & q1 & q2 & q3 & -> & Oq & E3).
  assert (X : exists mo mk me q', q1 ++ [Node NDocument [] q2 []] ++ q3 = Node NModifier mo mk me :: q' /\ wf (Node NModifier mo mk me)).
  { destruct Oq as [->|(z & -> & (zo & zk & zc & ->))]; [cbn in EM; discriminate|]. exists zo, zk, zc, ([Node NDocument [] q2 []] ++ q3). split; [reflexivity|].
    apply Forall_app in Wpk. destruct Wpk as [Wz _]. inversion Wz; assumption. }
  destruct X as (mo & mk & me & q' & EQ & Wm). rewrite EQ in *. inversion Wm as [| |? ? ? ? _ ShM]; subst. cbn [shape] in ShM.
  destruct ShM as (-> & (mb & ->) & (e0 & -> & He0)). cbn [tevents_all flat_map tevents app] in EM. injection EM as -> -> -> EM.
  pose proof (flips_linked s _ _ Fl (spec_linked s)) as L.
  rewrite yields_app in Fl, L. cbn [yields flat_map yield app] in Fl, L. fold (yields q') in Fl, L. fold (yields j2) in Fl, L. rewrite app_nil_r in Fl, L.
  match type of Fl with flips _ ?X =>
    replace X with ((ta ++ o ++ yields k1 ++ yields j1 ++ po ++ mb ++ [e0]) ++ (yields q' ++ pc) ++ yields j2 ++ yields k3 ++ c ++ tb) in Fl, L by (rewrite <- !app_assoc; reflexivity) end.
  destruct (source_split _ _ _ Fl) as (ts1 & ts2 & EL & F1 & F2 & C1 & _ & TO).
  exists ts1, ts2, (ttexts s (ta ++ o ++ yields k1 ++ yields j1 ++ po ++ mb ++ [e0])). split; [exact EL|]. split; [exact C1|].
  apply linked_app in L. destruct L as [L _]. pose proof (proj1 L) as LO.
  apply linked_app in L. destruct L as [_ L]. apply linked_app in L. destruct L as [_ L]. apply linked_app in L. destruct L as [L1 L]. apply linked_app in L. destruct L as [L2 _].
  split.
  - rewrite !ttexts_app. apply covered_app; [exact Cv|]. apply cov_event. apply covered_app; [apply covered_wf; assumption|]. apply (cov_event _ []).
    apply covered_app; [apply covered_wf; assumption|]. apply cov_event. apply (cov_event _ []). apply cov_event. apply covered_one.
  - assert (Ee : is_eol e0 = true).
    { assert (OE : tok_ok s e0) by (rewrite !Forall_app in LO; destruct LO as (_ & _ & _ & _ & _ & _ & LO); inversion LO; assumption).
      unfold is_eol_or_terminator in He0. apply orb_true_iff in He0. destruct He0 as [He0|He0]; [exact He0|]. exfalso.
      pose proof (x_terminator s e0 OE He0) as BL. unfold ttexts in Ne. cbn in Ne. rewrite app_nil_r in Ne.
      destruct BL as (l1 & l2 & EB & [-> | ->] & [-> | ->]); rewrite EB in Ne; destruct Ne as [Ne|Ne]; discriminate Ne. }
    destruct K as (_ & _ & _ & K & _). specialize (K eq_refl (or_introl eq_refl) [] [Leaf mb] e0 q' eq_refl Ee).
    intros (t & r & -> & Br). apply flips_split in F2. destruct F2 as (w1 & w2 & EW & F2 & _). destruct (yields q' ++ pc) as [|u us] eqn:EU.
    { apply app_eq_nil in EU. destruct EU as [_ ->]. destruct Tc as (? & _ & [X|(? & X & _)]); discriminate. }
    apply flips_cons in F2. destruct F2 as (t' & w' & -> & Ft & _). injection EW as <- _. unfold nth_is in K. cbn in K. rewrite (flip_collapsible_end _ _ Ft) in K.
    destruct Br as [Kt Ct]. unfold is_collapsible_end in K. rewrite Kt in K. unfold col0 in K. rewrite Ct in K. discriminate.
Qed.

(** *** Collapsibles that are read *)

Lemma free_of : forall (P : token -> Prop) f ts, (forall t, In t ts -> f t = true -> P t) -> Forall (fun t => ~ P t) ts -> free f ts.
Proof.
  intros P f ts H F. apply Forall_forall. intros t I0. apply (proj1 (Forall_forall _ _) F) in I0 as N. destruct (f t) eqn:E; [|reflexivity]. destruct (N (H t I0 E)).
Qed.
Lemma fence_of : forall s t, tok_ok s t -> is_backtick3 t = true -> fence s t.
Proof.
  intros s t O E. unfold is_backtick3 in E. apply andb_true_iff in E. destruct E as [E E3]. apply andb_true_iff in E. destruct E as [E E2]. apply kind_eqb_eq in E. apply Nat.eqb_eq in E2, E3. split; [|exact E2].
  apply (run_of s t Backtick c_backtick 3); [exact O|exact E|exact E3|reflexivity|discriminate|by_run].
Qed.
Lemma here_opens : forall s ts, linked s ts -> collapsible_here s ts -> opens_coll ts.
Proof.
  intros s ts L (o & u & b & c & r & -> & [Ko Co] & Ku & Nb & Ns & Nf & [Kc Cc]). pose proof (proj1 L) as O.
  assert (Q : quiet b) by (eapply quiet_flips; [apply flips_refl|exact Nb]).
  assert (O1 : Forall (tok_ok s) b) by (inversion O as [|? ? _ O1]; inversion O1 as [|? ? _ O2]; apply Forall_app in O2; apply O2).
  assert (Ec : is_collapsible_end c = true) by (unfold is_collapsible_end; rewrite Kc, (col0_of _ Cc); reflexivity).
  exists o, u, b, c, r. split; [reflexivity|]. split; [unfold is_collapsible_start; rewrite Ko, (col0_of _ Co); reflexivity|]. split; [unfold is_space_or_eol; destruct Ku as [-> |[-> _]]; reflexivity|].
  split; [exact Q|]. split; [eapply free_of; [|exact Nf]; intros t I0; apply fence_of; eapply Forall_forall in O1; eauto|]. split.
  { eapply free_of; [|exact Ns]. intros t _ E. apply andb_true_iff in E. destruct E as [E1 E2]. apply kind_eqb_eq in E1. apply Nat.eqb_eq in E2. split; assumption. }
  split; [exact Ec|]. destruct Ku as [Ku|[Ku NT]].
  - left. assert (X : nth_is 0 col0 (b ++ c :: r) = true) by (apply (after_end s [o] u); [exact L|apply end_of; left; exact Ku|destruct b; discriminate]).
    destruct b; exact X.
  - right. assert (L2 : linked s (u :: b ++ c :: r)) by (apply (linked_app s [o]) in L; apply L).
    assert (Nu : is_eol_or_terminator u = false) by (unfold is_eol_or_terminator; rewrite Ku; reflexivity).
    destruct (line_before s b c r u L2 Nu (col0_of _ Cc)) as (b1 & e & b2 & -> & X1 & X2).
    exists b1, e, b2. split; [reflexivity|]. split.
    { rewrite <- app_assoc in *. cbn [app] in *. destruct b1 as [|t b1]; cbn.
      * destruct (col0 e) eqn:C; [|reflexivity]. destruct (linked_pair s [] u e _ L2) as (_ & _ & _ & J). apply J in C. destruct C; congruence.
      * destruct (col0 t) eqn:C; [|reflexivity]. destruct (linked_pair s [] u t _ L2) as (_ & _ & _ & J). apply J in C. destruct C; congruence. }
    split; [exact X1|]. split; [exact X2|]. split.
    { rewrite <- app_assoc in L2. cbn [app] in L2. assert (X : nth_is 0 col0 (b2 ++ c :: r) = true) by (apply (after_end s (u :: b1) e); [exact L2|exact X2|destruct b2; discriminate]). destruct b2; exact X. }
    destruct (is_eol e) eqn:E; [right|left; reflexivity]. intros ->. apply NT. exists b1, e. split; [reflexivity|]. split; [|apply kind_eqb_eq; exact E].
    eapply Forall_impl; [|exact X1]. intros t F K. apply end_of in K. congruence.
Qed.

Lemma sflips_split : forall ts a b, sflips ts (a ++ b) -> exists ts1 ts2, ts = ts1 ++ ts2 /\ flips ts1 a /\ sflips ts2 b.
Proof.
  intros ts a. revert ts. induction a as [|u a IH]; intros ts b F; [exists [], ts; repeat split; [constructor|exact F]|].
  destruct ts as [|t ts]; [destruct F|]. destruct F as [F1 F2]. destruct (IH _ _ F2) as (ts1 & ts2 & -> & G1 & G2). exists (t :: ts1), ts2. split; [reflexivity|]. split; [|exact G2].
  constructor; [|exact G1]. destruct F1 as [F1|(F1 & F3 & _)]; [left; exact F1|right; auto].
Qed.
Lemma not_missed : forall s ts us, sflips ts us -> linked s ts -> fseq [is_collapsible_start; is_space_or_eol] us = None -> ~ collapsible_here s ts.
Proof.
  intros s ts us F L N H. apply (here_opens s ts L) in H. pose proof H as (o & u & b & c & r & -> & Eo & Eu & _).
  destruct us as [|o' [|u' us]]; [destruct F|destruct F as [_ []]|]. destruct F as ([-> |(_ & _ & X)] & Fu & _); [|destruct (X H)].
  assert (u' = u) as -> by (destruct Fu as [-> |(C & _)]; [reflexivity|]; unfold is_space_or_eol in Eu; unfold is_collapsible_start in C; destruct (kind u); discriminate).
  cbn [fseq] in N. rewrite Eo, Eu in N. discriminate.
Qed.

(** The start of a block that is not a collapsible. *)
Lemma source_ssplit : forall s a b, sflips (spec_tokens s) (a ++ b) -> fseq [is_collapsible_start; is_space_or_eol] b = None ->
  exists ts1 ts2, lex s = Ok (ts1 ++ ts2) /\ concat_texts s ts1 = Ok (ttexts s a) /\ ~ collapsible_here s ts2.
Proof.
  intros s a b F N. apply sflips_split in F. destruct F as (ts1 & ts2 & E & F1 & F2). exists ts1, ts2.
  pose proof (vtok_lex s) as V. pose proof (spec_linked s) as L. rewrite E in V, L. apply Forall_app in V. destruct V as [V1 _]. apply linked_app in L. destruct L as [_ L].
  split; [rewrite lex_correct, E; reflexivity|]. split; [rewrite (flips_ttexts s _ _ F1); apply concat_of_ttexts; exact V1|]. eapply not_missed; eauto.
Qed.
Lemma no_collapsible_missed : forall s ops es a x0 m1 n x mid y m2 y0, parse s = Ok ops -> reads s ops es ->
  es = a ++ (Start NDocument, x0) :: (m1 ++ (Start n, x) :: mid ++ (End n, y) :: m2) ++ [(End NDocument, y0)] ->
  balanced (map fst m1) -> balanced (map fst mid) -> balanced (map fst m2) -> n <> NCollapsible ->
  exists ts1 ts2 x1, lex s = Ok (ts1 ++ ts2) /\ concat_texts s ts1 = Ok x1 /\ covered (a ++ (Start NDocument, x0) :: m1) x1 /\ ~ collapsible_here s ts2.
Proof.
  intros s ops es a x0 m1 n x mid y m2 y0 H R E B1 Bm B2 NC.
  assert (B : balanced (map fst (m1 ++ (Start n, x) :: mid ++ (End n, y) :: m2))).
  { rewrite map_app. apply balanced_app; [exact B1|]. cbn. rewrite map_app. constructor; [exact Bm|exact B2]. }
  destruct (node_bord _ _ _ _ _ _ _ _ _ H R E B) as (o & k & c & ta & tb & W & SF & -> & M & -> & Cv & T & TB).
  pose proof (sflips_flips _ _ SF) as Fl.
  specialize (TB eq_refl). subst tb. specialize (T eq_refl).
  inversion W as [| |? ? ? ? Wk Sh]; subst.
  assert (NS : Forall not_skip k) by (eapply shape_not_skip; [exact Sh|discriminate]).
  assert (o = [] /\ c = []) as [-> ->] by (cbn [shape] in Sh; tauto).
  symmetry in M. destruct (node_in s k _ _ _ _ _ _ NS M B1 Bm) as (k1 & po & pk & pc & k2 & -> & -> & -> & -> & -> & ->).
  apply kids_at in T. rewrite app_nil_r in T. destruct T as (_ & _ & _ & _ & T). specialize (T NC).
  apply Forall_app in NS. destruct NS as [NS1 _]. apply Forall_app in Wk. destruct Wk as [Wk1 _].
  pose proof (flips_linked s _ _ Fl (spec_linked s)) as L.
  rewrite yields_app in SF, L. change (yields (Node n po pk pc :: k2)) with (yield (Node n po pk pc) ++ yields k2) in SF, L.
  match type of SF with sflips _ ?X =>
    replace X with ((ta ++ yields k1) ++ yield (Node n po pk pc) ++ yields k2) in SF, L by (repeat (rewrite ?app_nil_r, <- ?app_assoc; cbn [app]); reflexivity) end.
  destruct (source_ssplit _ _ _ SF T) as (ts1 & ts2 & EL & C1 & X). exists ts1, ts2, (ttexts s (ta ++ yields k1)). split; [exact EL|]. split; [exact C1|]. split; [|exact X].
  apply linked_app in L. destruct L as [L _]. apply linked_app in L. destruct L as [_ L].
  rewrite ttexts_app. apply covered_app; [exact Cv|]. apply (cov_event _ []). apply covered_wf; assumption.
Qed.
Lemma no_inner_missed : forall s ops es a xc p x0 m1 n x mid y m2 y0 yc b, parse s = Ok ops -> reads s ops es ->
  es = a ++ (Start NCollapsible, xc) :: (p ++ (Start NDocument, x0) :: (m1 ++ (Start n, x) :: mid ++ (End n, y) :: m2) ++ [(End NDocument, y0)])
         ++ (End NCollapsible, yc) :: b ->
  balanced (map fst p) -> balanced (map fst m1) -> balanced (map fst mid) -> balanced (map fst m2) -> n <> NCollapsible ->
  exists ts1 ts2 x1, lex s = Ok (ts1 ++ ts2) /\ concat_texts s ts1 = Ok x1
    /\ covered (a ++ (Start NCollapsible, xc) :: p ++ (Start NDocument, x0) :: m1) x1 /\ ~ collapsible_here s ts2.
Proof.
  intros s ops es a xc p x0 m1 n x mid y m2 y0 yc b H R E Bp B1 Bm B2 NC.
  assert (B : balanced (map fst (m1 ++ (Start n, x) :: mid ++ (End n, y) :: m2))).
  { rewrite map_app. apply balanced_app; [exact B1|]. cbn. rewrite map_app. constructor; [exact Bm|exact B2]. }
  destruct (coll_parts _ _ _ _ _ _ _ _ _ _ _ H R E Bp B) as (o & k1 & k2 & k3 & c & ta & tb & SF & -> & -> & -> & M & -> & Cv & O1 & CC & K & W1 & W2 & N1 & N2).
  pose proof (sflips_flips _ _ SF) as Fl.
  symmetry in M. destruct (node_in s k2 _ _ _ _ _ _ N2 M B1 Bm) as (j1 & po & pk & pc & j2 & -> & -> & -> & -> & -> & ->).
  apply kids_at in K. apply Forall_app in N2. destruct N2 as [N2 _]. apply Forall_app in W2. destruct W2 as [W2 _].
  destruct K as (_ & _ & _ & _ & K). specialize (K NC).
  pose proof (flips_linked s _ _ Fl (spec_linked s)) as L.
  rewrite yields_app in SF, L. change (yields (Node n po pk pc :: j2)) with (yield (Node n po pk pc) ++ yields j2) in SF, L.
  match type of SF with sflips _ ?X =>
    replace X with ((ta ++ o ++ yields k1 ++ yields j1) ++ yield (Node n po pk pc) ++ yields j2 ++ yields k3 ++ c ++ tb) in SF, L by (rewrite <- !app_assoc; reflexivity) end.
  destruct (source_ssplit _ _ _ SF K) as (ts1 & ts2 & EL & C1 & X). exists ts1, ts2, (ttexts s (ta ++ o ++ yields k1 ++ yields j1)). split; [exact EL|]. split; [exact C1|]. split; [|exact X].
  apply linked_app in L. destruct L as [L1 _].
  apply linked_app in L1. destruct L1 as [_ L1]. apply linked_app in L1. destruct L1 as [_ L1]. apply linked_app in L1. destruct L1 as [L1 L3].
  rewrite !ttexts_app. apply covered_app; [exact Cv|]. apply cov_event. apply covered_app; [apply covered_wf; assumption|]. apply (cov_event _ []). apply covered_wf; assumption.
Qed.
