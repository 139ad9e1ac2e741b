(** No collapsible is missed: facts about FParser.v. *)
From Coq Require Import Lia.
From Verif Require Import Base Lexer LexSpec LexProofs LexFacts Ops Parser FParser Refine Refine2 Refine3
  Wf TokFacts StreamSpec StreamProofs StreamProofs2 Lines StreamProofs3 Borders.

(** A collapsible that is read wherever a block may start. *)
Definition opens_coll (ts : list token) : Prop :=
  exists o u b c r, ts = o :: u :: b ++ c :: r /\ is_collapsible_start o = true /\ is_space_or_eol u = true
    /\ quiet b /\ free is_backtick3 b /\ free is_collapsible_start b /\ is_collapsible_end c = true
    /\ (nth_is 0 col0 (b ++ [c]) = true
        \/ exists b1 e b2, b = b1 ++ e :: b2 /\ nth_is 0 col0 (b ++ [c]) = false /\ free is_eol_or_terminator b1 /\ is_eol_or_terminator e = true
             /\ nth_is 0 col0 (b2 ++ [c]) = true /\ (is_eol e = false \/ b2 <> [])).

Lemma prefix_quiet : forall y r1 b c r, y ++ r1 = b ++ c :: r -> quiet y -> is_collapsible_end c = true -> exists b', b = y ++ b' /\ r1 = b' ++ c :: r.
Proof.
  induction y as [|t y IH]; intros r1 b c r E Q C; [exists b; auto|]. inversion Q as [|? ? Q1 Q2]; subst. destruct b as [|u b]; injection E as -> E; [congruence|].
  destruct (IH _ _ _ _ E Q2 C) as (b' & -> & ->). exists b'. auto.
Qed.

(** The document up to the first [%}]. *)
Lemma doc_reach : forall n src st b c r k rest, calm st -> In StopCollapsibleEnd st -> 3 * length (b ++ c :: r) < n -> vtok src (b ++ c :: r) ->
  quiet b -> free is_backtick3 b -> free is_collapsible_start b -> is_collapsible_end c = true ->
  fdoc n st (b ++ c :: r) = (k, rest) -> exists b', rest = b' ++ c :: r /\ b = yields k ++ b'.
Proof.
  induction n as [n IHn] using lt_wf_ind. intros src st b c r k rest C HI Hn V Q FB FS Ec H. destruct n; [lia|].
  cbn [fdoc] in H. destruct (b ++ c :: r) as [|t r0] eqn:E0; [destruct b; discriminate|].
  destruct (stopped st (t :: r0)) eqn:S0; [injection H as <- <-; exists b; auto|].
  destruct b as [|t' b].
  { exfalso. injection E0 as <- <-. cbn [stopped] in S0. assert (X : existsb (fun c0 => fmatches c0 (c :: r)) st = true); [|congruence].
    apply existsb_exists. exists StopCollapsibleEnd. split; [exact HI|]. cbn. rewrite Ec. reflexivity. }
  injection E0 as -> <-. inversion Q as [|? ? Q1 Q2]; subst. inversion FB as [|? ? FB1 FB2]; subst. inversion FS as [|? ? FS1 FS2]; subst.
  assert (G : forall X, (let '(x, r1) := X in yield x ++ r1 = t :: b ++ c :: r /\ quiet (yield x) /\ 1 <= length (yield x)) ->
            (let '(x, r1) := X in let (k, r2) := fdoc n st r1 in (x :: k, r2)) = (k, rest) -> exists b', rest = b' ++ c :: r /\ t :: b = yields k ++ b').
  { intros [x r1] (Ex & Qx & Lx) E. destruct (fdoc n st r1) as [k' r2] eqn:F. injection E as <- <-.
    change (t :: b ++ c :: r) with ((t :: b) ++ c :: r) in Ex. pose proof (f_equal (@length _) Ex) as LL. rewrite app_length in LL. change ((t :: b) ++ c :: r) with (t :: b ++ c :: r) in LL.
    destruct (prefix_quiet _ _ _ _ _ Ex Qx Ec) as (b' & Eb & ->).
    assert (Fo : forall P : token -> Prop, Forall P (t :: b) -> Forall P b') by (intros P HP; rewrite Eb in HP; apply Forall_app in HP; apply HP).
    destruct (IHn n (Nat.lt_succ_diag_r n) src st b' c r k' r2 C HI) as (b'' & -> & ->); try assumption; try (apply Fo; assumption).
    - lia.
    - assert (V' : vtok src ((t :: b) ++ c :: r)) by exact V. rewrite Eb, <- app_assoc in V'. apply Forall_app in V'. apply V'.
    - exists b''. split; [reflexivity|]. rewrite Eb. cbn [yields flat_map]. fold (yields k'). rewrite <- app_assoc. reflexivity. }
  refine (G _ _ H). clear G H.
  destruct (is_terminator t) eqn:T.
  { split; [reflexivity|]. split; [apply quiet_one; exact Q1|cbn; lia]. }
  rewrite (no_code st t (b ++ c :: r) FB1).
  assert (E2 : fcollapsible n st (t :: b ++ c :: r) = CFail (t :: b ++ c :: r)).
  { destruct n; [reflexivity|]. cbn [fcollapsible fseq]. rewrite FS1. reflexivity. }
  rewrite E2. destruct (forelse fembed fhighlight st (t :: b ++ c :: r)) as [[y r1]|] eqn:E3.
  { pose proof (covers_orelse _ _ covers_embed covers_highlight _ _ _ _ E3) as [Ey Ly]. split; [congruence|]. split; [|exact Ly].
    orelse_cases E3; [eapply hushes_embed; eauto|eapply hushes_highlight; eauto]. }
  destruct (fsimple st (t :: b ++ c :: r)) as [y r1] eqn:E4.
  pose proof (simple_block_ST src [] _ st [] y r1 V E4) as [Ey _]. split; [congruence|]. split; [eapply fsimple_hush; eauto|].
  eapply fsimple_progress; eauto.
Qed.

Lemma eot_end : forall e, is_eol_or_terminator e = true -> is_eol e = true \/ (is_eol e = false /\ is_terminator e = true).
Proof. intros e H. unfold is_eol_or_terminator in H. apply orb_true_iff in H. unfold is_eol, is_terminator. destruct (kind e); destruct H; try discriminate; auto. Qed.
Lemma not_end : forall c, is_collapsible_end c = true -> is_eol c = false.
Proof. intros c H. unfold is_collapsible_end in H. unfold is_eol. destruct (kind c); try discriminate; reflexivity. Qed.

Lemma title_reads : forall st b1 e r, calm st -> quiet b1 -> free is_eol_or_terminator b1 -> is_eol_or_terminator e = true -> (is_eol e = false \/ nth_is 0 is_collapsible_end r = false) ->
  until st is_eol_or_terminator (b1 ++ e :: r) = Some (b1, e, r).
Proof.
  intros st b1 e r C. induction b1 as [|t b1 IH]; intros Q F E N.
  - cbn [app until]. assert (X : is_collapsible_end e = false).
    { unfold is_eol_or_terminator in E. unfold is_collapsible_end. destruct (kind e); try discriminate; reflexivity. }
    rewrite (calm_stopped st e r C X N), E. reflexivity.
  - inversion Q as [|? ? Q1 Q2]; subst. inversion F as [|? ? F1 F2]; subst. cbn [app until].
    assert (X : is_eol t = false). { unfold is_eol_or_terminator in F1. apply orb_false_iff in F1. apply F1. }
    rewrite (calm_stopped st t _ C Q1 (or_introl X)), F1, (IH Q2 F2 E N). reflexivity.
Qed.

Lemma coll_read : forall n src st ts, calm st -> 3 * length ts <= n -> vtok src ts -> opens_coll ts -> exists t rest, fcollapsible n st ts = CMatch t rest.
Proof.
  intros n src st ts C Hn V (o & u & b & c & r & -> & Eo & Eu & Q & FB & FS & Ec & HT).
  destruct n; [cbn [length] in Hn; lia|]. cbn [fcollapsible fseq]. rewrite Eo, Eu. cbn [fseq].
  assert (K : exists k1 b', opt_tree (fmodifier st (b ++ c :: r)) (b ++ c :: r) = (k1, b' ++ c :: r) /\ nth_is 0 col0 (b' ++ [c]) = true
           /\ quiet b' /\ free is_backtick3 b' /\ free is_collapsible_start b' /\ length b' <= length b /\ vtok src (b' ++ c :: r)).
  { assert (Vb : vtok src (b ++ c :: r)) by (inversion V as [|? ? _ V1]; subst; inversion V1; assumption).
    assert (N0 : forall f b, nth_is 0 f (b ++ c :: r) = nth_is 0 f (b ++ [c])) by (intros f [|? ?]; reflexivity). unfold fmodifier. rewrite N0.
    destruct HT as [HT|(b1 & e & b2 & Eb & HT & Fb & Ee & Cb & NX)]; rewrite HT.
    - exists [], b. split; [reflexivity|]. repeat split; try assumption. lia.
    - subst b. rewrite <- app_assoc in *. cbn [app] in *. apply Forall_app in Q. destruct Q as [Q Q2]. inversion Q2; subst.
      apply Forall_app in FB. destruct FB as [_ FB]. inversion FB; subst. apply Forall_app in FS. destruct FS as [_ FS]. inversion FS; subst.
      rewrite (title_reads st b1 e (b2 ++ c :: r) C Q Fb Ee).
      + eexists _, b2. split; [reflexivity|]. repeat split; try assumption; [rewrite app_length; cbn; lia|]. apply Forall_app in Vb. destruct Vb as [_ Vb]. inversion Vb; assumption.
      + destruct NX as [NX|NX]; [left; exact NX|right]. destruct b2 as [|t b2]; [congruence|]. unfold nth_is. cbn. match goal with Hq : Forall _ (t :: b2) |- _ => inversion Hq; subst; assumption end. }
  destruct K as (k1 & b' & -> & CC & Q' & FB' & FS' & Lb & V'). 
  replace (nth_is 0 col0 (b' ++ c :: r)) with true by (rewrite <- CC; destruct b'; reflexivity).
  destruct (fdoc n (StopCollapsibleEnd :: st) (b' ++ c :: r)) as [k2 r2] eqn:D.
  assert (Ln : 3 * length (b' ++ c :: r) < n) by (cbn [length] in Hn; rewrite !app_length in *; cbn [length] in *; lia).
  assert (C' : calm (StopCollapsibleEnd :: st)) by (constructor; [reflexivity|exact C]).
  destruct (doc_reach n src (StopCollapsibleEnd :: st) b' c r k2 r2 C' (or_introl eq_refl) Ln V' Q' FB' FS' Ec D) as (b'' & -> & Eb).
  assert (S0 : stopped (StopCollapsibleEnd :: st) (b'' ++ c :: r) = true).
  { destruct (docs_ok (S (3 * length (b' ++ c :: r))) n) as [DO _]. specialize (DO src [] (b' ++ c :: r) (StopCollapsibleEnd :: st) [] ltac:(lia) Ln V'). unfold doc_ok in DO. rewrite D in DO. apply DO. }
  assert (Q'' : quiet b'') by (rewrite Eb in Q'; apply Forall_app in Q'; apply Q').
  assert (X : b'' = [] \/ exists e, b'' = [e] /\ is_eol e = true).
  { destruct b'' as [|e b'']; [left; reflexivity|right]. inversion Q'' as [|? ? Q1 Q2]; subst. cbn [app] in S0.
    destruct b'' as [|e' b'']; cycle 1.
    - inversion Q2; subst. rewrite (calm_stopped _ e _ C' Q1) in S0; [discriminate|right; assumption].
    - exists e. split; [reflexivity|]. destruct (is_eol e) eqn:Ee; [reflexivity|]. rewrite (calm_stopped _ e _ C' Q1 (or_introl Ee)) in S0. discriminate. }
  assert (CE : exists x y, fcollapsible_end (c :: r) = Some (x, y)).
  { unfold fcollapsible_end. cbn [fseq]. rewrite Ec. destruct r as [|e r]; [eauto|]. destruct (is_eol e); eauto. }
  destruct CE as (x & y & CE).
  destruct X as [->|(e & -> & Ee)]; cbn [app].
  - rewrite (not_end c Ec), CE. eauto.
  - rewrite Ee, CE. eauto.
Qed.

(** ** Which openings are turned into text *)

Fixpoint sflips (ts us : list token) : Prop :=
  match ts, us with
  | [], [] => True
  | t :: ts', u :: us' => (u = t \/ (is_collapsible_start t = true /\ u = literal_of t /\ ~ opens_coll ts)) /\ sflips ts' us'
  | _, _ => False
  end.
Lemma sflips_flips : forall ts us, sflips ts us -> flips ts us.
Proof.
  induction ts as [|t ts IH]; intros [|u us] H; try contradiction; [constructor|]. destruct H as [H1 H2]. constructor; [|apply IH; exact H2]. destruct H1 as [H1|(H1 & H3 & _)]; [left; exact H1|right; auto].
Qed.
Lemma sflips_refl : forall ts, sflips ts ts.
Proof. induction ts; [exact I|]. split; [left; reflexivity|assumption]. Qed.
Lemma sflips_pre : forall p a b, sflips a b -> sflips (p ++ a) (p ++ b).
Proof. induction p as [|t p IH]; intros a b H; [exact H|]. split; [left; reflexivity|apply IH; exact H]. Qed.

Lemma start_free_flips : forall b b', flips b b' -> free is_collapsible_start b -> b' = b.
Proof.
  intros b b' F. induction F as [|x y b b' Fx F IH]; intros H; [reflexivity|]. inversion H as [|? ? H1 H2]; subst. rewrite (IH H2). destruct Fx as [->|[X _]]; [reflexivity|congruence].
Qed.
Lemma unstart_flip : forall x y, flip x y -> is_collapsible_start x = false -> y = x.
Proof. intros x y [->|[X _]] H; [reflexivity|congruence]. Qed.
Lemma opens_flips : forall t a b, flips a b -> opens_coll (t :: a) -> opens_coll (t :: b).
Proof.
  intros t a b' F (o & u & b & c & r & E & Eo & Eu & Q & FB & FS & Ec & HT). injection E as <- ->.
  inversion F as [|? u' ? us Fu F1]; subst. apply Forall2_app_inv_l in F1. destruct F1 as (bb & us2 & F1 & F2 & ->). inversion F2 as [|? c' ? r' Fc F3]; subst.
  apply unstart_flip in Fu; [|unfold is_space_or_eol in Eu; unfold is_collapsible_start; destruct (kind u); try discriminate; reflexivity].
  apply unstart_flip in Fc; [|unfold is_collapsible_end in Ec; unfold is_collapsible_start; destruct (kind c); try discriminate; reflexivity].
  apply start_free_flips in F1; [|exact FS]. subst. exists t, u, b, c, r'. split; [reflexivity|]. auto 8.
Qed.
Lemma sflips_trans : forall a b c, sflips a b -> sflips b c -> sflips a c.
Proof.
  induction a as [|x a IH]; intros [|y b] [|z c] H1 H2; try contradiction; [exact I|]. destruct H1 as [H1 H1']. destruct H2 as [H2 H2']. split; [|eapply IH; eauto].
  destruct H1 as [->|(H1 & -> & N)].
  - destruct H2 as [->|(H2 & -> & N)]; [left; reflexivity|right]. split; [exact H2|]. split; [reflexivity|]. intros O. apply N. eapply opens_flips; [apply sflips_flips; exact H1'|exact O].
  - destruct H2 as [->|(H2 & -> & _)]; [right; auto|]. discriminate H2.
Qed.
Lemma sflips_head : forall t a b, is_collapsible_start t = true -> ~ opens_coll (t :: a) -> sflips a b -> sflips (t :: a) (flip_head (t :: b)).
Proof. intros t a b H N F. cbn [flip_head]. split; [right; auto|exact F]. Qed.

Lemma docs_sflips : forall n,
  (forall src st ts k rest, calm st -> 3 * length ts < n -> vtok src ts -> fdoc n st ts = (k, rest) -> sflips ts (yields k ++ rest))
  /\ (forall src st ts, calm st -> ts <> [] -> 3 * length ts <= n -> vtok src ts ->
       match fcollapsible n st ts with CMatch t rest => sflips ts (yield t ++ rest) | CFail ts' => sflips ts ts' end).
Proof.
  induction n as [n IHn] using lt_wf_ind. destruct n.
  { split; intros; cbn in *; [lia|apply sflips_refl]. }
  destruct (IHn n (Nat.lt_succ_diag_r n)) as [ID IC]. split.
  - intros src st ts k rest C Hn V H. cbn [fdoc] in H. destruct ts as [|t r]; [injection H as <- <-; exact I|].
    destruct (stopped st (t :: r)) eqn:S0; [injection H as <- <-; apply sflips_refl|].
    assert (G : forall X, (let '(x, r1) := X in sflips (t :: r) (yield x ++ r1) /\ 1 <= length (yield x)) ->
              (let '(x, r1) := X in let (k, r2) := fdoc n st r1 in (x :: k, r2)) = (k, rest) -> sflips (t :: r) (yields k ++ rest)).
    { intros [x r1] (Fx & Lx) E. destruct (fdoc n st r1) as [k' r2] eqn:F. injection E as <- <-.
      pose proof (sflips_flips _ _ Fx) as Fx'. pose proof (flips_length _ _ Fx') as LL. rewrite app_length in LL.
      assert (V1 : vtok src r1) by (pose proof (flips_vtok src _ _ Fx' V) as V1; apply Forall_app in V1; apply V1).
      eapply sflips_trans; [exact Fx|]. cbn [yields flat_map]. fold (yields k'). rewrite <- app_assoc. apply sflips_pre. eapply ID; eauto. lia. }
    refine (G _ _ H). clear G H.
    destruct (is_terminator t) eqn:T.
    { split; [apply sflips_refl|cbn; lia]. }
    destruct (fcode st (t :: r)) as [[y r1]|] eqn:E1.
    { pose proof (covers_code _ _ _ _ E1) as [Ey Ly]. split; [rewrite <- Ey; apply sflips_refl|exact Ly]. }
    assert (Ln : 3 * length (t :: r) <= n) by (cbn [length] in *; lia).
    destruct (docs_ok (3 * length (t :: r)) n) as [_ CO].
    specialize (CO src [] (t :: r) st [] ltac:(discriminate) ltac:(lia) Ln V). unfold coll_ok in CO.
    specialize (IC src st (t :: r) C ltac:(discriminate) Ln V).
    destruct (fcollapsible n st (t :: r)) as [y r1|ts'] eqn:E2.
    { destruct CO as (_ & Ly & _). auto. }
    destruct CO as [F2 _].
    destruct (forelse fembed fhighlight st ts') as [[y r1]|] eqn:E3.
    { pose proof (covers_orelse _ _ covers_embed covers_highlight _ _ _ _ E3) as [Ey Ly]. rewrite <- Ey. auto. }
    destruct (fsimple st ts') as [y r1] eqn:E4.
    assert (V' : vtok src ts') by (eapply flips_vtok; eauto).
    pose proof (simple_block_ST src [] ts' st [] y r1 V' E4) as [Ey _].
    split; [rewrite <- Ey; exact IC|]. eapply fsimple_progress; [exact E4|rewrite (flips_stopped st _ _ F2); exact S0|].
    rewrite (flips_nth is_terminator _ _ 0 flip_terminator F2). exact T.
  - intros src st ts C NE Hn V.
    assert (R : opens_coll ts -> exists t rest, fcollapsible (S n) st ts = CMatch t rest) by (eapply coll_read; eauto).
    cbn [fcollapsible] in *.
    destruct (fseq [is_collapsible_start; is_space_or_eol] ts) as [[o r]|] eqn:Q; [|apply sflips_refl].
    assert (HS : exists t ts0, ts = t :: ts0 /\ is_collapsible_start t = true).
    { cbn [fseq] in Q. destruct ts as [|t ts0]; [discriminate|]. exists t, ts0. split; [reflexivity|]. destruct (is_collapsible_start t); [reflexivity|discriminate]. }
    apply fseq_app in Q. destruct Q as (Ets & Lo & _). simpl in Lo.
    destruct (opt_tree (fmodifier st r) r) as [k1 r1] eqn:K1.
    pose proof (opt_tree_app _ _ _ _ _ covers_modifier K1) as Er.
    destruct HS as (t & ts0 & Et & St).
    destruct (nth_is 0 col0 r1).
    2: { rewrite Et. apply sflips_head; [exact St| |apply sflips_refl]. rewrite <- Et. intros O. destruct (R O) as (? & ? & X). discriminate X. }
    destruct (fdoc n (StopCollapsibleEnd :: st) r1) as [k2 r2] eqn:D.
    assert (L1 : 3 * length r1 < n).
    { subst r. rewrite Ets in Hn. rewrite !app_length in Hn. lia. }
    assert (V1 : vtok src r1).
    { rewrite Ets, Er in V. apply Forall_app in V. destruct V as [_ V]. apply Forall_app in V. apply V. }
    pose proof (ID _ _ _ _ _ (Forall_cons _ eq_refl C) L1 V1 D) as SD.
    destruct (match r2 with
              | e :: r3 => if is_eol e then ([Skip [e]], r3) else ([], r2)
              | [] => ([], r2) end) as [k3 r3] eqn:K3.
    assert (E3 : r2 = yields k3 ++ r3).
    { destruct r2 as [|e r2']; [injection K3 as <- <-; reflexivity|]. destruct (is_eol e); injection K3 as <- <-; reflexivity. }
    assert (SA : sflips ts (o ++ yields k1 ++ yields k2 ++ yields k3 ++ r3)).
    { rewrite Ets, Er. apply sflips_pre, sflips_pre. rewrite <- E3. exact SD. }
    destruct (fcollapsible_end r3) as [[c rest']|] eqn:CE.
    + apply fcollapsible_end_app in CE. destruct CE as [-> _].
      match goal with |- sflips _ ?X => replace X with (o ++ yields k1 ++ yields k2 ++ yields k3 ++ c ++ rest'); [exact SA|] end.
      cbn [yield]. fold (yields (k1 ++ [Node NDocument [] k2 []] ++ k3)). rewrite !yields_app. cbn [yields flat_map yield]. fold (yields k2). rewrite !app_nil_r. cbn [app]. rewrite <- !app_assoc. reflexivity.
    + assert (NO : ~ opens_coll ts) by (intros O; destruct (R O) as (? & ? & X); discriminate X).
      rewrite Et in *. destruct (o ++ yields k1 ++ yields k2 ++ yields k3 ++ r3) as [|u us]; [contradiction|]. destruct SA as [SA1 SA2].
      destruct SA1 as [->|(_ & -> & _)].
      * apply sflips_head; [exact St|exact NO|exact SA2].
      * split; [right; split; [exact St|split; [destruct t; reflexivity|exact NO]]|exact SA2].
Qed.

Theorem fparse_sflips : forall s, sflips (spec_tokens s) (yields (fparse (spec_tokens s))).
Proof.
  intros s. pose proof (vtok_lex s) as V. revert V. generalize (spec_tokens s). intros ts V. unfold fparse.
  destruct (opt_tree (fmetadata [] ts) ts) as [k1 r1] eqn:K1. pose proof (opt_tree_app _ _ _ _ _ (covers_delim _ _ _) K1) as E1.
  assert (V1 : vtok s r1) by (subst ts; apply Forall_app in V; apply V).
  destruct (fdoc (3 * length r1 + 5) [] r1) as [k2 r2] eqn:D.
  assert (r2 = []) as ->.
  { destruct (docs_ok (3 * length r1 + 5) (3 * length r1 + 5)) as [DO _]. specialize (DO s [] r1 [] [] ltac:(lia) ltac:(lia) V1).
    unfold doc_ok in DO. rewrite D in DO. destruct DO as (_ & S0 & _). destruct r2; [reflexivity|discriminate]. }
  apply (proj1 (docs_sflips _)) with (src := s) in D; [|constructor|lia|exact V1].
  rewrite yields_app. cbn [yields flat_map yield]. fold (yields k2). rewrite !app_nil_r in *. rewrite E1 at 1. apply sflips_pre. exact D.
Qed.
