(** The parser of MemorySpec.v agrees with the model where no collapsible block is empty. *)
From Coq Require Import String.
From Verif Require Import Base Lexer LexSpec LexProofs LexFacts Ops Parser FParser Refine Refine2 Refine3 Wf TokFacts StreamSpec MissSpec BorderSpec Kin MemorySpec.
Open Scope list_scope.

(** ** Only what a stack of stop conditions stops matters *)

Definition alter (st st' : list stop_condition) : Prop := forall ts, stopped st ts = stopped st' ts.
Lemma alter_cons : forall c st st', alter st st' -> alter (c :: st) (c :: st').
Proof. intros c st st' A ts. specialize (A ts). unfold stopped in *. destruct ts; [reflexivity|]. cbn. rewrite A. reflexivity. Qed.
Definition even (g : fparser) : Prop := forall st st' ts, alter st st' -> g st ts = g st' ts.

Lemma until_even : forall st st' m ts, alter st st' -> until st m ts = until st' m ts.
Proof. intros st st' m ts A. induction ts as [|t ts IH]; [reflexivity|]. cbn [until]. rewrite (A (t :: ts)), IH. reflexivity. Qed.
Lemma even_orelse : forall f g, even f -> even g -> even (forelse f g).
Proof. intros f g F G st st' ts A. unfold forelse. rewrite (F _ _ ts A), (G _ _ ts A). reflexivity. Qed.
Lemma even_delim : forall n f g, even (fdelim n f g).
Proof. intros n f g st st' [|t ts] A; [reflexivity|]. cbn [fdelim]. rewrite (until_even _ _ g ts A). reflexivity. Qed.
Lemma dest_scan_even : forall st st' ts n, alter st st' -> dest_scan st n ts = dest_scan st' n ts.
Proof.
  intros st st' ts n A. revert n. induction ts as [|t ts IH]; intros n; [reflexivity|]. cbn [dest_scan]. rewrite (A (t :: ts)), !IH. reflexivity.
Qed.
Lemma even_dest : even fdest.
Proof. intros st st' [|t ts] A; [reflexivity|]. cbn [fdest]. rewrite (dest_scan_even _ _ ts 1 A). reflexivity. Qed.
Lemma even_title : even ftitle. Proof. apply even_delim. Qed.
Lemma even_anchor : even fanchor.
Proof.
  intros st st' ts A. unfold fanchor. rewrite (even_title _ _ ts A). destruct (ftitle st' ts) as [[t r]|]; [|reflexivity]. rewrite (even_dest _ _ r A). reflexivity.
Qed.
Lemma even_strike_italic : even (forelse fstrike fitalic). Proof. apply even_orelse; apply even_delim. Qed.
Lemma bold_loop_even : forall n st st' acc ts, alter st st' -> fbold_loop n st acc ts = fbold_loop n st' acc ts.
Proof.
  induction n; intros st st' acc ts A; [reflexivity|]. destruct ts as [|t ts]; [reflexivity|]. cbn [fbold_loop]. rewrite (A (t :: ts)), (even_strike_italic _ _ _ A).
  destruct (stopped st' (t :: ts)); [reflexivity|]. destruct (is_star2 t); [reflexivity|]. destruct (forelse fstrike fitalic st' (t :: ts)) as [[x r]|]; rewrite (IHn _ _ _ _ A); reflexivity.
Qed.
Lemma even_bold : even fbold.
Proof. intros st st' [|t ts] A; [reflexivity|]. cbn [fbold]. rewrite (bold_loop_even _ _ _ _ _ A). reflexivity. Qed.
Lemma even_inline : even finline.
Proof.
  apply even_orelse; [apply even_delim|]. apply even_orelse; [apply even_delim|]. apply even_orelse; [apply even_bold|]. apply even_orelse; [apply even_anchor|].
  apply even_orelse; apply even_delim.
Qed.
Lemma items_even : forall g n st st' acc ts, even g -> alter st st' -> fitems g n st acc ts = fitems g n st' acc ts.
Proof.
  intros g n. induction n; intros st st' acc ts G A; [reflexivity|]. cbn [fitems]. rewrite (A ts), (G _ _ ts A). destruct (stopped st' ts); [reflexivity|].
  destruct (g st' ts) as [[x r]|]; [rewrite (IHn _ _ _ _ G A); reflexivity|]. destruct ts as [|t ts]; [reflexivity|]. apply IHn; assumption.
Qed.
Lemma paragraph_even : forall st st' ts, alter st st' -> fparagraph st ts = fparagraph st' ts.
Proof. intros st st' ts A. unfold fparagraph. rewrite (items_even _ _ _ _ _ _ even_inline A). reflexivity. Qed.
Lemma even_heading : even fheading.
Proof. intros st st' [|t [|u ts]] A; [reflexivity|reflexivity|]. cbn [fheading]. rewrite (items_even _ _ _ _ _ _ even_anchor A). reflexivity. Qed.
Lemma even_image : even fimage.
Proof.
  intros st st' [|t ts] A; [reflexivity|]. cbn [fimage]. rewrite (even_title _ _ ts A). destruct (is_bang t); [|reflexivity]. destruct (ftitle st' ts) as [[x r]|]; [|reflexivity].
  rewrite (even_dest _ _ r A). destruct (fdest st' r) as [[y q]|]; [|reflexivity]. destruct q as [|e q]; [reflexivity|]. rewrite (A (e :: q)). reflexivity.
Qed.
Lemma images_loop_even : forall n st st' ts, alter st st' -> fimages_loop n st ts = fimages_loop n st' ts.
Proof.
  induction n; intros st st' ts A; [reflexivity|]. destruct ts as [|t ts]; [reflexivity|]. cbn [fimages_loop]. rewrite (even_image _ _ _ A), (A (t :: ts)).
  destruct (fimage st' (t :: ts)) as [[x r]|]; [|reflexivity]. rewrite (IHn _ _ _ A). reflexivity.
Qed.
Lemma even_images : even fimages.
Proof. intros st st' ts A. unfold fimages. rewrite (images_loop_even _ _ _ _ A). reflexivity. Qed.
Lemma even_modifier : even fmodifier.
Proof. intros st st' ts A. unfold fmodifier. rewrite (until_even _ _ _ _ A). reflexivity. Qed.
Lemma even_break : even fbreak. Proof. intros st st' ts A. reflexivity. Qed.
Lemma lists_even : forall n,
  (forall l k st st' ts, alter st st' -> fitem n l k st ts = fitem n l k st' ts)
  /\ (forall l st st' ts, alter st st' -> flist n l st ts = flist n l st' ts)
  /\ (forall l lk st st' ts, alter st st' -> flist_items n l lk st ts = flist_items n l lk st' ts).
Proof.
  induction n as [|n (I1 & I2 & I3)]; [repeat split|]. split; [|split].
  - intros l k st st' ts A. cbn [fitem]. destruct (negb (nth_is 0 col0 ts)); [reflexivity|]. destruct (nth_error ts _) as [m|]; [|reflexivity]. destruct (list_kind_of m) as [mk|]; [|reflexivity].
    destruct (fseq (marker_preds l k) ts) as [[o r]|]; [|reflexivity]. rewrite (paragraph_even _ _ r (alter_cons (StopListBoundary l mk) _ _ A)).
    destruct (fparagraph (StopListBoundary l mk :: st') r) as [par r1]. rewrite (A r1), (I2 _ _ _ r1 A). reflexivity.
  - intros l st st' ts A. cbn [flist]. rewrite (I1 _ _ _ _ ts A). destruct (fitem n l None st' ts) as [[[a x] r]|]; [|reflexivity]. rewrite (I3 _ _ _ _ r A). reflexivity.
  - intros l lk st st' ts A. cbn [flist_items]. rewrite (I1 _ _ _ _ ts A). destruct (fitem n l (Some lk) st' ts) as [[[a x] r]|]; [|reflexivity]. rewrite (I3 _ _ _ _ r A). reflexivity.
Qed.
Lemma even_list : even flist0.
Proof. intros st st' ts A. unfold flist0. rewrite (proj1 (proj2 (lists_even _)) _ _ _ ts A). reflexivity. Qed.
Lemma even_icon : even ficon.
Proof. intros st st' ts A. unfold ficon. destruct (fseq _ ts) as [[o r]|]; [|reflexivity]. rewrite (until_even _ _ _ _ A). reflexivity. Qed.
Lemma highlight_loop_even : forall n st st' ts, alter st st' -> fhighlight_loop n st ts = fhighlight_loop n st' ts.
Proof.
  induction n; intros st st' ts A; [reflexivity|]. destruct ts as [|t ts]; [reflexivity|]. cbn [fhighlight_loop]. rewrite (A (t :: ts)). destruct (stopped st' (t :: ts)); [reflexivity|].
  destruct (is_two_bangs t); [reflexivity|]. destruct (if is_terminator t then ([Leaf [t]], ts) else ([], t :: ts)) as [l r1].
  rewrite (paragraph_even _ _ r1 (alter_cons StopTerminator _ _ (alter_cons StopHighlightEnd _ _ A))). destruct (fparagraph _ r1) as [par r2]. rewrite (IHn _ _ r2 A). reflexivity.
Qed.
Lemma even_highlight : even fhighlight.
Proof.
  intros st st' ts A. unfold fhighlight. destruct (fseq _ ts) as [[o r]|]; [|reflexivity]. cbv zeta. rewrite (even_modifier _ _ r A).
  destruct (if negb _ then _ else _) as [k1 r1]. rewrite (even_icon _ _ r1 (alter_cons StopTerminator _ _ A)). destruct (opt_tree _ r1) as [k2 r2]. rewrite (highlight_loop_even _ _ _ r2 A). reflexivity.
Qed.
Lemma close_line_even : forall st st' c ts, alter st st' -> fclose_line st c ts = fclose_line st' c ts.
Proof. intros st st' c [|e ts] A; [reflexivity|]. cbn [fclose_line]. rewrite (A (e :: ts)). reflexivity. Qed.
Lemma even_embed : even fembed.
Proof.
  intros st st' [|t ts] A; [reflexivity|]. cbn [fembed]. rewrite (until_even _ _ _ ts A). destruct (is_left_curly2 t); [|reflexivity]. destruct (until st' is_pipe ts) as [[[b c] r]|]; [|reflexivity].
  rewrite (until_even _ _ _ r A). destruct (until st' is_right_curly2 r) as [[[b2 c2] r2]|]; [|reflexivity]. rewrite (close_line_even _ _ c2 r2 A). reflexivity.
Qed.
Lemma even_code : even fcode.
Proof.
  intros st st' ts A. unfold fcode. destruct (ffence ts) as [[o r]|]; [|reflexivity]. cbv zeta. destruct (if negb _ then _ else _) as [k1 r1].
  destruct (until [] is_backtick3 r1) as [[[b c] q]|]; [|reflexivity]. rewrite (close_line_even _ _ c q A). reflexivity.
Qed.
Lemma simple_even : forall st st' ts, alter st st' -> fsimple st ts = fsimple st' ts.
Proof.
  intros st st' ts A. unfold fsimple. cbv zeta. pose proof (alter_cons StopTerminator _ _ A) as B.
  assert (F : even (forelse flist0 (forelse fimages (forelse fbreak fheading)))) by (apply even_orelse; [apply even_list|apply even_orelse; [apply even_images|apply even_orelse; [apply even_break|apply even_heading]]]).
  rewrite (F _ _ ts B), (paragraph_even _ _ ts B). reflexivity.
Qed.
Lemma even_embed_highlight : even (forelse fembed fhighlight). Proof. apply even_orelse; [apply even_embed|apply even_highlight]. Qed.

(** ** The parser without memory *)

Definition pblock (n : nat) (b : bool) (t : token) (r : list token) : tree * list token :=
  if is_terminator t then (Leaf [t], r)
  else match fcode (around b) (t :: r) with
       | Some y => y
       | None => match pcoll n b (t :: r) with
                 | Some y => y
                 | None => match forelse fembed fhighlight (around b) (t :: r) with Some y => y | None => fsimple (around b) (t :: r) end
                 end
       end.
Lemma pdoc_step : forall n b t r, pdoc (S n) b (t :: r)
  = if stopped (around b) (t :: r) then ([], t :: r) else let '(x, r1) := pblock n b t r in let (k, r2) := pdoc n b r1 in (x :: k, r2).
Proof. reflexivity. Qed.

Lemma simple_cover : forall st ts x r, fsimple st ts = (x, r) -> ts = yield x ++ r.
Proof.
  intros st ts x r H. unfold fsimple in H. destruct (forelse flist0 (forelse fimages (forelse fbreak fheading)) (StopTerminator :: st) ts) as [[y q]|] eqn:E.
  - injection H as <- <-. apply (covers_orelse _ _ covers_list (covers_orelse _ _ covers_images (covers_orelse _ _ covers_break covers_heading))) in E. apply E.
  - apply fparagraph_app in H. exact H.
Qed.
Lemma pblock_cover : forall n b t r x r1, (forall ts y q, pcoll n b ts = Some (y, q) -> ts = yield y ++ q /\ 1 <= length (yield y)) -> stopped (around b) (t :: r) = false ->
  pblock n b t r = (x, r1) -> t :: r = yield x ++ r1 /\ 1 <= length (yield x).
Proof.
  intros n b t r x r1 C S0 H. unfold pblock in H. destruct (is_terminator t) eqn:T; [injection H as <- <-; cbn; split; [reflexivity|lia]|].
  destruct (fcode (around b) (t :: r)) as [[y q]|] eqn:E1; [injection H as <- <-; apply covers_code in E1; exact E1|].
  destruct (pcoll n b (t :: r)) as [[y q]|] eqn:E2; [injection H as <- <-; apply C; exact E2|].
  destruct (forelse fembed fhighlight (around b) (t :: r)) as [[y q]|] eqn:E3; [injection H as <- <-; apply (covers_orelse _ _ covers_embed covers_highlight) in E3; exact E3|].
  split; [apply (simple_cover _ _ _ _ H)|]. eapply fsimple_progress; [exact H|exact S0|]. exact T.
Qed.
Lemma pdocs_cover : forall n,
  (forall b ts k r, pdoc n b ts = (k, r) -> ts = yields k ++ r)
  /\ (forall b ts x r, pcoll n b ts = Some (x, r) -> ts = yield x ++ r /\ 1 <= length (yield x)).
Proof.
  induction n as [|n [I1 I2]]; [split; [intros b ts k r H; injection H as <- <-; reflexivity|discriminate]|]. split.
  - intros b [|t ts] k r H; [injection H as <- <-; reflexivity|]. rewrite pdoc_step in H. destruct (stopped (around b) (t :: ts)) eqn:S0; [injection H as <- <-; reflexivity|].
    destruct (pblock n b t ts) as [x r1] eqn:P. destruct (pdoc n b r1) as [k2 r2] eqn:D. injection H as <- <-.
    apply (pblock_cover n b t ts x r1 (I2 b) S0) in P. apply I1 in D. cbn [yields flat_map]. fold (yields k2). rewrite <- app_assoc, <- D. apply P.
  - intros b ts x r H. cbn [pcoll] in H. destruct (fseq [is_collapsible_start; is_space_or_eol] ts) as [[o r0]|] eqn:Q; [|discriminate]. apply fseq_app in Q. destruct Q as (E0 & Lo & _). cbn in Lo.
    destruct (opt_tree (fmodifier (around b) r0) r0) as [k1 r1] eqn:M. apply (opt_tree_app fmodifier _ r0 k1 r1 covers_modifier) in M. destruct (nth_is 0 col0 r1); [|discriminate].
    destruct (pdoc n true r1) as [k2 r2] eqn:D. apply I1 in D.
    destruct (match r2 with e :: r3 => if is_eol e then ([Skip [e]], r3) else ([], r2) | [] => ([], r2) end) as [k3 r3] eqn:K.
    assert (E3 : r2 = yields k3 ++ r3). { destruct r2 as [|e q]; [injection K as <- <-; reflexivity|]. destruct (is_eol e); injection K as <- <-; reflexivity. }
    destruct (fcollapsible_end r3) as [[c q]|] eqn:CE; [|discriminate]. injection H as <- <-. apply fcollapsible_end_app in CE. destruct CE as [CE _].
    cbn [yield]. fold (yields (k1 ++ [Node NDocument [] k2 []] ++ k3)). rewrite !yields_app. cbn [yields flat_map yield app]. fold (yields k2). rewrite !app_length, ?app_nil_r.
    split; [rewrite E0, M, D, E3, CE, <- !app_assoc; reflexivity|lia].
Qed.

Lemma pdocs_fuel : forall n,
  (forall m b ts, 3 * length ts < n -> 3 * length ts < m -> pdoc n b ts = pdoc m b ts)
  /\ (forall m b ts, ts <> [] -> 3 * length ts <= n -> 3 * length ts <= m -> pcoll n b ts = pcoll m b ts).
Proof.
  induction n as [n IHn] using lt_wf_ind. destruct n as [|n].
  { split; intros; [lia|]. destruct ts; [congruence|cbn in *; lia]. }
  destruct (IHn n (Nat.lt_succ_diag_r n)) as [ID IC]. split.
  - intros m b [|t r] Hn Hm; destruct m as [|m]; try lia; [reflexivity|]. rewrite !pdoc_step. destruct (stopped (around b) (t :: r)) eqn:S0; [reflexivity|].
    assert (E : pblock n b t r = pblock m b t r) by (unfold pblock; rewrite (IC m b (t :: r)) by (try discriminate; lia); reflexivity).
    rewrite E. destruct (pblock m b t r) as [x r1] eqn:P. apply (pblock_cover m b t r x r1 (proj2 (pdocs_cover m) b) S0) in P. destruct P as [P L].
    assert (LL : length (t :: r) = length (yield x) + length r1) by (rewrite P, app_length; reflexivity). rewrite (ID m b r1) by lia. reflexivity.
  - intros m b ts NE Hn Hm. destruct m as [|m]; [destruct ts; [congruence|cbn in *; lia]|]. cbn [pcoll].
    destruct (fseq [is_collapsible_start; is_space_or_eol] ts) as [[o r0]|] eqn:Q; [|reflexivity]. apply fseq_app in Q. destruct Q as (E0 & Lo & _). cbn in Lo.
    destruct (opt_tree (fmodifier (around b) r0) r0) as [k1 r1] eqn:M. apply (opt_tree_app fmodifier _ r0 k1 r1 covers_modifier) in M. destruct (nth_is 0 col0 r1); [|reflexivity].
    assert (LL : length ts = 2 + length (yields k1) + length r1) by (rewrite E0, M, !app_length; lia).
    rewrite (ID m true r1) by lia. reflexivity.
Qed.

(** ** What is remembered does not matter *)

(** A title is read in the same way inside and outside of a collapsible block. *)
Definition level (ts : list token) : Prop :=
  forall a q o r, ts = a ++ q -> fseq [is_collapsible_start; is_space_or_eol] q = Some (o, r) -> fmodifier [] r = fmodifier [StopCollapsibleEnd] r.
Lemma level_tail : forall a b, level (a ++ b) -> level b.
Proof. intros a b L x q o r E. apply (L (a ++ x) q o r). rewrite E, app_assoc. reflexivity. Qed.

Definition dead (ts : list token) : Prop := pcoll (3 * length ts) false ts = None.
Lemma pcoll_level : forall n b ts, level ts -> pcoll n b ts = pcoll n false ts.
Proof.
  intros n [|] ts L; [|reflexivity]. destruct n; [reflexivity|]. cbn [pcoll]. destruct (fseq [is_collapsible_start; is_space_or_eol] ts) as [[o r]|] eqn:Q; [|reflexivity].
  cbn [around]. rewrite (L [] ts o r eq_refl Q). reflexivity.
Qed.
Lemma dead_any : forall n b ts, ts <> [] -> level ts -> 3 * length ts <= n -> (pcoll n b ts = None <-> dead ts).
Proof.
  intros n b ts NE L H. rewrite (pcoll_level n b ts L). unfold dead. rewrite (proj2 (pdocs_fuel n) (3 * length ts) false ts NE H (le_n _)). reflexivity.
Qed.

Inductive stale : list token -> list token -> Prop :=
| stale_nil : stale [] []
| stale_same : forall t ts us, stale ts us -> stale (t :: ts) (t :: us)
| stale_dead : forall t ts us, is_collapsible_start t = true -> dead (t :: ts) -> stale ts us -> stale (t :: ts) (literal_of t :: us).
Lemma stale_refl : forall ts, stale ts ts. Proof. induction ts; constructor; assumption. Qed.
Lemma stale_flips : forall ts us, stale ts us -> flips ts us.
Proof. intros ts us S. induction S; constructor; auto using flip_refl. right. auto. Qed.
Lemma stale_tail : forall a a' b b', length a = length a' -> stale (a ++ b) (a' ++ b') -> stale b b'.
Proof.
  induction a as [|t a IH]; intros [|u a'] b b' L S; try discriminate; [exact S|]. cbn in *. inversion S; subst; apply (IH a'); auto.
Qed.
Lemma stale_swap : forall a a' b b' c, length a = length a' -> stale (a ++ b) (a' ++ b') -> stale b c -> stale (a ++ b) (a' ++ c).
Proof.
  induction a as [|t a IH]; intros [|u a'] b b' c L S T; try discriminate; [exact T|]. cbn in *. inversion S; subst; constructor; auto; apply (IH a' b b' c); auto.
Qed.
Lemma stale_flip : forall ts us, stale ts us -> nth_is 0 is_collapsible_start us = true -> dead ts -> stale ts (flip_head us).
Proof.
  intros ts us S N D. destruct S as [|t ts us S|t ts us K D' S]; [discriminate| |discriminate N]. cbn [flip_head]. apply stale_dead; auto.
Qed.

Lemma kins_len : forall a b, kins a b -> length a = length b. Proof. intros a b H. induction H; cbn; congruence. Qed.
Lemma twins_len : forall x y, twins x y -> length (yield x) = length (yield y). Proof. intros x y T. apply kins_len, twins_yield, T. Qed.
Lemma twins_lens : forall x y, Forall2 twins x y -> length (yields x) = length (yields y). Proof. intros x y T. apply kins_len, twins_yields, T. Qed.

Definition block_ok (b : bool) (ts : list token) (x y : tree * list token) : Prop :=
  twins (fst x) (fst y) /\ stale ts (yield (fst y) ++ snd y).
Definition pcoll_ok (ts : list token) (x : option (tree * list token)) (y : cres) : Prop :=
  match x, y with
  | Some (t, r), CMatch t' r' => twins t t' /\ stale ts (yield t' ++ r')
  | None, CFail us => stale ts us
  | _, _ => False
  end.

(** A parser that sees neither flips nor the depth. *)
Lemma node_ok : forall g st st' ts us x r y q, fair g -> even g -> covers g -> alter st st' -> stale ts us -> g st ts = Some (x, r) -> g st' us = Some (y, q) -> twins x y /\ stale ts (yield y ++ q).
Proof.
  intros g st st' ts us x r y q F E C A S H1 H2. rewrite (E _ _ _ A) in H1. pose proof (F st' ts us (stale_flips _ _ S)) as X. rewrite H1, H2 in X. cbn in X. split; [apply X|].
  apply C in H2. destruct H2 as [<- _]. exact S.
Qed.
Lemma node_none : forall g st st' ts us, fair g -> even g -> alter st st' -> stale ts us -> (g st ts = None <-> g st' us = None).
Proof.
  intros g st st' ts us F E A S. rewrite (E _ _ _ A). pose proof (F st' ts us (stale_flips _ _ S)) as X. destruct (g st' ts), (g st' us); cbn in X; try contradiction; split; congruence.
Qed.

Lemma docs_plain : forall n,
  (forall b st ts us k r k' r', alter (around b) st -> 3 * length ts < n -> level ts -> stale ts us -> pdoc n b ts = (k, r) -> fdoc n st us = (k', r') ->
     Forall2 twins k k' /\ stale ts (yields k' ++ r'))
  /\ (forall b st ts us, alter (around b) st -> 3 * length ts <= n -> level ts -> ts <> [] -> stale ts us -> pcoll_ok ts (pcoll n b ts) (fcollapsible n st us)).
Proof.
  induction n as [|n [ID IC]].
  { split; [intros; lia|]. intros b st ts us A L V NE S. destruct ts; [congruence|cbn in L; lia]. }
  split.
  - intros b st ts us k r k' r' A L V S HP HF. pose proof S as S0. pose proof (stale_flips _ _ S) as FL. destruct ts as [|t ts].
    { inversion S; subst. cbn in HP, HF. injection HP as <- <-. injection HF as <- <-. split; constructor. }
    destruct us as [|u us]; [inversion S|]. rewrite pdoc_step in HP. cbn [fdoc] in HF.
    assert (ST : stopped st (u :: us) = stopped (around b) (t :: ts)) by (rewrite (flips_stopped st _ _ FL); symmetry; apply A). rewrite ST in HF.
    destruct (stopped (around b) (t :: ts)) eqn:S1.
    { injection HP as <- <-. injection HF as <- <-. split; [constructor|exact S]. }
    set (blk := if is_terminator u then (Leaf [u], us) else _) in HF.
    assert (B : block_ok b (t :: ts) (pblock n b t ts) blk).
    { unfold pblock, blk. inversion FL as [|? ? ? ? Ftu FL']; subst. rewrite (terminator_blind t u Ftu). destruct (is_terminator u) eqn:T.
      { split; cbn [fst snd yield app]; [constructor; constructor; [exact Ftu|constructor]|exact S]. }
      pose proof (node_none fcode _ _ _ _ fair_code even_code A S) as N1.
      destruct (fcode (around b) (t :: ts)) as [[x q]|] eqn:E1, (fcode st (u :: us)) as [[x' q']|] eqn:E1'; try (exfalso; destruct N1 as [N1 N1']; try (discriminate (N1' eq_refl)); discriminate (N1 eq_refl)).
      { apply (node_ok fcode _ _ _ _ _ _ _ _ fair_code even_code covers_code A S E1 E1'). }
      clear N1. specialize (IC b st (t :: ts) (u :: us) A ltac:(lia) V ltac:(discriminate) S). unfold pcoll_ok in IC.
      destruct (pcoll n b (t :: ts)) as [[x q]|] eqn:E2, (fcollapsible n st (u :: us)) as [x' q'|vs]; try contradiction; [exact IC|].
      assert (FE : fair (forelse fembed fhighlight)) by (apply fair_orelse; [apply fair_embed|apply fair_highlight]).
      pose proof (node_none (forelse fembed fhighlight) _ _ _ _ FE even_embed_highlight A IC) as N1.
      destruct (forelse fembed fhighlight (around b) (t :: ts)) as [[x q]|] eqn:E3, (forelse fembed fhighlight st vs) as [[x' q']|] eqn:E3'; try (exfalso; destruct N1 as [N1 N1']; try (discriminate (N1' eq_refl)); discriminate (N1 eq_refl)).
      { apply (node_ok _ _ _ _ _ _ _ _ _ FE even_embed_highlight (covers_orelse _ _ covers_embed covers_highlight) A IC E3 E3'). }
      rewrite (simple_even _ _ (t :: ts) A). pose proof (simple_rel st _ _ (stale_flips _ _ IC)) as X. destruct X as [X1 X2]. split; [exact X1|].
      destruct (fsimple st vs) as [x' q'] eqn:E4. apply simple_cover in E4. cbn [fst snd]. rewrite <- E4. exact IC. }
    destruct (pblock n b t ts) as [x r1] eqn:P. clearbody blk. destruct blk as [x' r1']. destruct B as [B1 B2]. cbn [fst snd] in B1, B2.
    destruct (pdoc n b r1) as [k2 r2] eqn:D. destruct (fdoc n st r1') as [k2' r2'] eqn:D'. injection HP as <- <-. injection HF as <- <-.
    apply (pblock_cover n b t ts x r1 (proj2 (pdocs_cover n) b) S1) in P. destruct P as [P Lx]. rewrite P in B2. pose proof (stale_tail _ _ _ _ (twins_len _ _ B1) B2) as S2.
    assert (LL : length (t :: ts) = length (yield x) + length r1) by (rewrite P, app_length; reflexivity).
    assert (V1 : level r1) by (rewrite P in V; apply (level_tail _ _ V)).
    destruct (ID b st r1 r1' k2 r2 k2' r2' A ltac:(lia) V1 S2 D D') as [I1 I2]. split; [constructor; assumption|].
    rewrite P. cbn [yields flat_map]. fold (yields k2'). rewrite <- app_assoc. apply (stale_swap _ _ _ r1'); [apply twins_len; exact B1|exact B2|exact I2].
  - intros b st ts us A L V NE S. pose proof (stale_flips _ _ S) as FL.
    pose proof (dead_any (Datatypes.S n) b ts NE V L) as DA.
    destruct S as [|t ts us S|t ts us K D S]; [congruence| |]; cycle 1.
    { rewrite (proj2 DA D). cbn [fcollapsible fseq]. change (is_collapsible_start (literal_of t)) with false. cbn [pcoll_ok]. constructor; assumption. }
    assert (S1 : stale (t :: ts) (t :: us)) by (constructor; exact S).
    cbn [pcoll] in *. cbn [fcollapsible]. cbn [fseq]. destruct (is_collapsible_start t) eqn:K; [|cbn [pcoll_ok]; exact S1].
    destruct S as [|t2 ts us S|t2 ts us K2 D2 S]; [exact S1| |].
    2:{ assert (Z : is_space_or_eol t2 = false /\ is_space_or_eol (literal_of t2) = false).
        { unfold is_collapsible_start in K2. apply andb_true_iff in K2. destruct K2 as [K2 _]. apply kind_eqb_eq in K2. unfold is_space_or_eol. cbn. rewrite K2. auto. }
        destruct Z as [Z1 Z2]. rewrite Z1, Z2. exact S1. }
    destruct (is_space_or_eol t2) eqn:K3; [|exact S1]. cbn [fseq] in *. rewrite K, K3 in DA.
    pose proof (stale_flips _ _ S) as FS. pose proof (opt_tree_rel _ _ _ _ (fair_modifier st ts us FS) FS) as Y. rewrite (even_modifier _ _ ts A) in *.
    destruct (opt_tree (fmodifier st ts) ts) as [k1 r1] eqn:M, (opt_tree (fmodifier st us) us) as [k1' r1'] eqn:M'. destruct Y as [Y1 Y2]. cbn [fst snd] in Y1, Y2.
    apply (opt_tree_app fmodifier _ _ k1 r1 covers_modifier) in M. apply (opt_tree_app fmodifier _ _ k1' r1' covers_modifier) in M'.
    rewrite (nth_blind col0 0 r1 r1' col0_blind Y2) in *. destruct (nth_is 0 col0 r1'); [|cbn [pcoll_ok]; apply stale_flip; [exact S1|exact K|apply DA; reflexivity]].
    destruct (pdoc n true r1) as [k2 r2] eqn:D. destruct (fdoc n (StopCollapsibleEnd :: st) r1') as [k2' r2'] eqn:D'.
    assert (A' : alter (around true) (StopCollapsibleEnd :: st)).
    { intros q. specialize (A q). unfold stopped in *. destruct q as [|z q]; [reflexivity|]. cbn [around existsb] in *. rewrite <- A. destruct b; cbn [around existsb]; destruct (fmatches StopCollapsibleEnd (z :: q)); reflexivity. }
    assert (S2 : stale (yields k1 ++ r1) (yields k1' ++ r1')) by (rewrite <- M, <- M'; exact S).
    pose proof (stale_tail _ _ _ _ (twins_lens _ _ Y1) S2) as S3. cbn [length] in L. assert (LL : length ts = length (yields k1) + length r1) by (rewrite M, app_length; reflexivity).
    assert (V1 : level r1) by (rewrite M in V; apply (level_tail (t :: t2 :: yields k1) r1 V)).
    destruct (ID true _ r1 r1' k2 r2 k2' r2' A' ltac:(lia) V1 S3 D D') as [I1 I2]. pose proof (proj1 (pdocs_cover n) true r1 k2 r2 D) as CP.
    assert (S4 : stale r2 r2') by (rewrite CP in I2; apply (stale_tail _ _ _ _ (twins_lens _ _ I1) I2)).
    set (c1 := match r2 with e :: r3 => if is_eol e then ([Skip [e]], r3) else ([], r2) | [] => ([], r2) end) in *.
    set (c2 := match r2' with e :: r3 => if is_eol e then ([Skip [e]], r3) else ([], r2') | [] => ([], r2') end).
    assert (Z : Forall2 twins (fst c1) (fst c2) /\ stale (snd c1) (snd c2) /\ r2 = yields (fst c1) ++ snd c1 /\ r2' = yields (fst c2) ++ snd c2).
    { unfold c1, c2. destruct S4 as [|e q q' S4|e q q' K4 D4 S4].
      - repeat split; constructor.
      - destruct (is_eol e); cbn [fst snd yields flat_map yield app]; repeat split; try (constructor; fail); try (constructor; exact S4); try exact S4.
        constructor; [constructor; constructor; [apply flip_refl|constructor]|constructor].
      - assert (Ee : is_eol e = false) by (unfold is_collapsible_start in K4; apply andb_true_iff in K4; destruct K4 as [K4 _]; apply kind_eqb_eq in K4; unfold is_eol; rewrite K4; reflexivity).
        rewrite Ee. change (is_eol (literal_of e)) with false. cbn [fst snd yields flat_map app]. repeat split; try (constructor; fail). constructor; assumption. }
    clearbody c1 c2. destruct c1 as [k3 r3], c2 as [k3' r3']. cbn [fst snd] in Z. destruct Z as (Z1 & Z2 & Z3 & Z4).
    pose proof (collapsible_end_rel r3 r3' (stale_flips _ _ Z2)) as W.
    assert (S5 : stale (t :: t2 :: ts) ([t; t2] ++ yields k1' ++ yields k2' ++ yields k3' ++ r3')).
    { cbn [app]. constructor. constructor. rewrite M. eapply stale_swap; [apply twins_lens; exact Y1|exact S2|]. rewrite <- Z4. exact I2. }
    destruct (fcollapsible_end r3) as [[c q]|] eqn:C1, (fcollapsible_end r3') as [[c' q']|] eqn:C2; cbn in W; try contradiction; cbn [pcoll_ok].
    + destruct W as [W1 W2]. cbn [fst snd] in W1, W2. split.
      * constructor; [constructor; [apply flip_refl|constructor; [apply flip_refl|constructor]]| |exact W1].
        apply Forall2_app; [exact Y1|]. cbn [app]. constructor; [constructor; [constructor|exact I1|constructor]|exact Z1].
      * apply fcollapsible_end_app in C2. destruct C2 as [C2 _]. cbn [yield]. fold (yields (k1' ++ [Node NDocument [] k2' []] ++ k3')). rewrite !yields_app. cbn [yields flat_map yield app]. fold (yields k2').
        rewrite ?app_nil_r, <- ?app_assoc. rewrite C2 in S5. cbn [app] in S5. exact S5.
    + apply stale_flip; [exact S5|exact K|apply DA; reflexivity].
Qed.

(** ** Operations *)

Lemma content_flips : forall s a b, flips a b -> content_of s a = content_of s b.
Proof.
  intros s a b F.
  assert (E : existsb escaped a = existsb escaped b) by (induction F as [|x y a b H F IH]; [reflexivity|]; cbn; rewrite IH; destruct (flip_slice _ _ H) as (_ & _ & _ & -> & _); reflexivity).
  assert (T : ttexts s a = ttexts s b).
  { clear E. induction F as [|x y a b H F IH]; [reflexivity|]. unfold ttexts in *. cbn. rewrite IH. unfold ttext. destruct (flip_slice _ _ H) as (-> & -> & _). reflexivity. }
  assert (C : is_contiguous a = is_contiguous b).
  { clear E T. induction F as [|x y a b H F IH]; [reflexivity|]. destruct F as [|x' y' a b H' F]; [reflexivity|]. cbn [is_contiguous] in *. rewrite IH.
    destruct (flip_slice _ _ H) as (_ & -> & _). destruct (flip_slice _ _ H') as (-> & _). reflexivity. }
  assert (L : forall x y, flip x y -> t_end (last a x) = t_end (last b y)).
  { clear E T C. intros x y H. revert x y H. induction F as [|x' y' a b H' F IH]; intros x y H; [symmetry; apply (flip_slice _ _ H)|]. cbn. destruct F; [symmetry; apply (flip_slice _ _ H')|apply IH; exact H]. }
  destruct F as [|x y a b H F]; [reflexivity|]. unfold content_of. rewrite E, T, C, (L x y H). destruct (flip_slice _ _ H) as (-> & _). reflexivity.
Qed.
Lemma flatten_twins : forall s t u, twins t u -> flatten s t = flatten s u.
Proof.
  intros s. fix IH 3. intros t u T. destruct T as [a b S|a b S|n o o' k k' c c' So Sk Sc]; [cbn; rewrite (content_flips s a b S); reflexivity|reflexivity|].
  cbn [flatten]. rewrite (content_flips s o o' So), (content_flips s c c' Sc). do 2 f_equal. clear So Sc.
  induction Sk as [|x y k k' H Sk IHk]; [reflexivity|]. cbn [flat_map]. rewrite IHk, (IH x y H). reflexivity.
Qed.
Lemma flattens_twins : forall s k k', Forall2 twins k k' -> flattens s k = flattens s k'.
Proof. intros s k k' S. induction S as [|x y k k' H S IH]; [reflexivity|]. cbn. rewrite (flatten_twins s x y H). unfold flattens in IH. rewrite IH. reflexivity. Qed.

Lemma parse_plain : forall s, level (spec_tokens s) -> parse s = Ok (flattens s (pparse (spec_tokens s))).
Proof.
  intros s L. destruct (parse_refines s) as [E _]. rewrite E. f_equal. unfold fparse, pparse. symmetry.
  destruct (opt_tree (fmetadata [] (spec_tokens s)) (spec_tokens s)) as [k1 r1] eqn:M. apply (opt_tree_app fmetadata _ _ k1 r1 (covers_delim _ _ _)) in M.
  destruct (pdoc (3 * length r1 + 5) false r1) as [k2 r2] eqn:D. destruct (fdoc (3 * length r1 + 5) [] r1) as [k2' r2'] eqn:D'.
  assert (V : level r1) by (rewrite M in L; apply (level_tail _ _ L)).
  destruct (proj1 (docs_plain (3 * length r1 + 5)) false [] r1 r1 k2 r2 k2' r2' ltac:(intros ?; reflexivity) ltac:(lia) V (stale_refl _) D D') as [T _].
  unfold flattens. rewrite !flat_map_app. f_equal. apply (flattens_twins s [_] [_]). constructor; [|constructor]. constructor; [constructor|exact T|constructor].
Qed.

(** ** Titles *)

Lemma title_same : forall ts, chain joined ts -> nth_is 0 col0 ts = false ->
  (forall b e c r, ts = b ++ e :: c :: r -> Forall (fun t => ~ is_line_end t) b -> kind e = Eol -> ~ closing_brace c) ->
  until [] is_eol_or_terminator ts = until [StopCollapsibleEnd] is_eol_or_terminator ts.
Proof.
  induction ts as [|t ts IH]; intros C N H; [reflexivity|]. cbn [until]. unfold nth_is in N. cbn in N.
  assert (CE : forall u, is_collapsible_end u = true -> closing_brace u).
  { intros u E. unfold is_collapsible_end in E. apply andb_true_iff in E. destruct E as [E1 E2]. apply kind_eqb_eq in E1. split; [exact E1|]. unfold col0 in E2. apply Nat.eqb_eq in E2. exact E2. }
  assert (T0 : is_collapsible_end t = false) by (unfold is_collapsible_end; rewrite N; apply andb_false_r).
  assert (S0 : stopped [] (t :: ts) = false) by reflexivity. rewrite S0.
  assert (S1 : stopped [StopCollapsibleEnd] (t :: ts) = is_eol t && nth_is 0 is_collapsible_end ts).
  { change (stopped [StopCollapsibleEnd] (t :: ts)) with ((is_collapsible_end t || (is_eol t && nth_is 0 is_collapsible_end ts)) || false). rewrite T0. cbn [orb]. apply orb_false_r. }
  rewrite S1. destruct (is_eol_or_terminator t) eqn:ET.
  - destruct (is_eol t) eqn:Ee; [|reflexivity]. destruct (nth_is 0 is_collapsible_end ts) eqn:E1; [|reflexivity]. exfalso.
    destruct ts as [|c r]; [discriminate|]. apply (H [] t c r eq_refl); [constructor|apply kind_eqb_eq; exact Ee|apply CE; exact E1].
  - assert (NL : kind t <> Eol /\ kind t <> Terminator) by (unfold is_eol_or_terminator in ET; apply orb_false_iff in ET; destruct ET as [E1 E2]; split; intros E; rewrite E in *; discriminate).
    assert (Ee : is_eol t = false) by (unfold is_eol; destruct (kind_eqb (kind t) Eol) eqn:E; [apply kind_eqb_eq in E; tauto|reflexivity]). rewrite Ee. cbn [andb].
    rewrite IH; [reflexivity| | |].
    + destruct ts; [exact I|]. apply C.
    + destruct ts as [|u ts]; [reflexivity|]. destruct C as [(_ & _ & _ & J) _]. unfold nth_is. cbn. destruct (col0 u); [|reflexivity]. destruct (proj1 J eq_refl); tauto.
    + intros b e c r -> F. apply (H (t :: b) e c r eq_refl). constructor; [|exact F]. unfold is_line_end. tauto.
Qed.

Lemma level_spec : forall s, ~ empty_block (spec_tokens s) -> level (spec_tokens s).
Proof.
  intros s NE a q o r E Q. cbn [fseq] in Q. destruct q as [|t q]; [discriminate|]. destruct (is_collapsible_start t) eqn:K; [|discriminate]. destruct q as [|u q]; [discriminate|].
  destruct (is_space_or_eol u) eqn:K2; [|discriminate]. injection Q as <- <-. pose proof (spec_linked s) as LK. rewrite E in LK. apply linked_app in LK. destruct LK as [_ [_ LK]].
  unfold fmodifier. destruct (nth_is 0 col0 q) eqn:N; [reflexivity|]. destruct q as [|v q]; [reflexivity|]. rewrite (title_same (v :: q)); [reflexivity|apply LK|exact N|].
  intros b e c r' Eb F Ke B. apply NE. rewrite E. rewrite Eb. exists a, t, u, (b ++ [e]), c, r'. rewrite <- app_assoc. cbn [app].
  unfold is_collapsible_start in K. apply andb_true_iff in K. destruct K as [K K']. apply kind_eqb_eq in K. unfold col0 in K'. apply Nat.eqb_eq in K'.
  split; [reflexivity|]. split; [split; assumption|]. split; [|split; [exists b, e; auto|exact B]].
  destruct LK as [_ [(_ & _ & _ & J) _]]. unfold is_space_or_eol in K2. apply orb_true_iff in K2. destruct K2 as [K2|K2]; apply kind_eqb_eq in K2; [exact K2|].
  unfold nth_is in N. cbn in N. rewrite (proj2 J (or_introl K2)) in N. discriminate.
Qed.

Lemma plain_parser : forall s ts, lex s = Ok ts -> ~ empty_block ts -> parse s = Ok (flattens s (pparse ts)).
Proof. intros s ts L H. rewrite lex_correct in L. injection L as <-. apply parse_plain, level_spec, H. Qed.

(** ** Examples *)

Fixpoint empty_blockb (ts : list token) : bool :=
  match ts with
  | o :: ((u :: r) as ts') =>
      (is_collapsible_start o && kind_eqb (kind u) Space
       && match until [] is_eol_or_terminator r with Some (_, e, c :: _) => is_eol e && is_collapsible_end c | _ => false end)
      || empty_blockb ts'
  | _ => false
  end.
Lemma no_empty_block : forall ts, empty_blockb ts = false -> ~ empty_block ts.
Proof.
  intros ts H (a & o & u & b & c & r & -> & [Ko Co] & Ku & (b' & e & -> & F & Ke) & [Kc Cc]). rewrite <- app_assoc in H. cbn [app] in H.
  assert (U : until [] is_eol_or_terminator (b' ++ e :: c :: r) = Some (b', e, c :: r)).
  { clear H. induction F as [|t b Ht F IH].
    - cbn. unfold is_eol_or_terminator. rewrite Ke. reflexivity.
    - cbn [app until]. change (stopped [] (t :: b ++ e :: c :: r)) with false. rewrite IH.
      assert (E : is_eol_or_terminator t = false). { unfold is_eol_or_terminator, is_line_end in *. destruct (kind t); try reflexivity; exfalso; apply Ht; auto. }
      rewrite E. reflexivity. }
  induction a as [|x a IH].
  - cbn [app empty_blockb] in H. unfold is_collapsible_start, is_collapsible_end, is_eol, col0 in H. unfold first_on_line in *. rewrite Ko, Co, Ku, U, Ke, Kc, Cc in H. cbn in H. discriminate.
  - apply IH. destruct a; cbn [app empty_blockb] in H; apply orb_false_iff in H; apply H.
Qed.

Definition seen : string := "{% A

{{ x

{% B

```
%}
```
| y }}

{% C
%}".
Lemma memory_seen : exists s ts, lex s = Ok ts /\ parse s <> Ok (flattens s (pparse ts)).
Proof. exists (s_ seen). eexists. split; [vm_compute; reflexivity|]. vm_compute. discriminate. Qed.
