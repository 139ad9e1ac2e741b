(** Refinement of the block parsers and of the whole parser (continues Refine.v). *)
From Verif Require Import Base Lexer LexSpec LexProofs LexFacts Ops Parser FParser Refine.

(** ** Lists *)

Lemma with_eof_paragraph : forall c src pre ts st os t rest, vtok src (pre ++ ts) ->
  fparagraph (c :: st) ts = (t, rest) ->
  with_eof c paragraph (ST src pre ts st os)
  = Ok (tt, ST src (pre ++ yield t) rest st (os ++ flatten src t)).
Proof.
  intros c src pre ts st os t rest V H. unfold with_eof.
  change (set_stack (c :: eof_stack (ST src pre ts st os)) (ST src pre ts st os))
    with (ST src pre ts (c :: st) os).
  rewrite (paragraph_ST src pre ts (c :: st) os t rest V H). reflexivity.
Qed.

Definition item_ok f n level k src pre ts st os : Prop :=
  match fitem n level k st ts with
  | Some (mk, x, rest) =>
      ts = yield x ++ rest /\ 2 <= length (yield x)
      /\ list_item f level k (ST src pre ts st os)
         = Ok (Some mk, ST src (pre ++ yield x) rest st (os ++ flatten src x))
  | None => list_item f level k (ST src pre ts st os) = Ok (None, ST src pre ts st os)
  end.
Definition inner_ok f n level src pre ts st os : Prop :=
  match flist n level st ts with
  | Some (mk, x, rest) =>
      ts = yield x ++ rest /\ 2 <= length (yield x)
      /\ list_inner f level (ST src pre ts st os)
         = Ok (Some mk, ST src (pre ++ yield x) rest st (os ++ flatten src x))
  | None => list_inner f level (ST src pre ts st os) = Ok (None, ST src pre ts st os)
  end.
Definition items_ok f n level lk src pre ts st os : Prop :=
  let (k, rest) := flist_items n level lk st ts in
  ts = yields k ++ rest
  /\ list_items f level lk (ST src pre ts st os)
     = Ok (ST src (pre ++ yields k) rest st (os ++ flattens src k)).

Lemma lists_ok : forall f n,
  (forall level k src pre ts st os, length ts < f -> length ts < n -> vtok src (pre ++ ts) ->
     item_ok f n level k src pre ts st os)
  /\ (forall level src pre ts st os, S (length ts) < f -> S (length ts) < n -> vtok src (pre ++ ts) ->
     inner_ok f n level src pre ts st os)
  /\ (forall level lk src pre ts st os, S (length ts) < f -> S (length ts) < n -> vtok src (pre ++ ts) ->
     items_ok f n level lk src pre ts st os).
Proof.
  induction f; intros n; [repeat split; intros; lia|].
  destruct n; [repeat split; intros; lia|].
  destruct (IHf n) as (II & IN & IS). split; [|split].
  - intros level k src pre ts st os Hf Hn V. unfold item_ok. cbn [fitem list_item].
    rewrite at_ST. destruct (negb (nth_is 0 col0 ts)); [reflexivity|].
    cbn [pos ST]. rewrite get_ST.
    destruct (nth_error ts (if level =? 0 then 0 else 1)) as [m|]; [|reflexivity].
    destruct (list_kind_of m) as [mk|]; [|reflexivity].
    fold (marker_preds level k). rewrite eat_seq_ST.
    destruct (fseq (marker_preds level k) ts) as [[o r]|] eqn:Q; [|reflexivity].
    apply fseq_app in Q. destruct Q as (-> & Lo & _).
    assert (Lo2 : 2 <= length o).
    { rewrite Lo. unfold marker_preds. destruct (level =? 0); simpl; lia. }
    do_span pre o r. rewrite push_ST.
    destruct (fparagraph (StopListBoundary level mk :: st) r) as [par r1] eqn:P.
    assert (V1 : vtok src ((pre ++ o) ++ r)) by vt.
    rewrite (with_eof_paragraph _ _ _ _ _ _ _ _ V1 P). cbn [bind]. rewrite at_eof_ST.
    apply fparagraph_app in P. subst r. rewrite !app_length in Hf, Hn.
    destruct (negb (stopped st r1)) eqn:S1.
    + assert (V2 : vtok src (((pre ++ o) ++ yield par) ++ r1)) by vt.
      assert (L1 : S (length r1) < f) by lia. assert (L2 : S (length r1) < n) by lia.
      pose proof (IN (level + 1) src ((pre ++ o) ++ yield par) r1 st
        ((os ++ [new_start NListItem (content_of src o)]) ++ flatten src par) L1 L2 V2) as H.
      unfold inner_ok in H. destruct (flist n (level + 1) st r1) as [[[mk' x] r2]|].
      * destruct H as (-> & Lx & H). rewrite H. cbn [bind]. rewrite push_ST. split; [|split].
        -- cbn. rewrite !app_nil_r. list_eq.
        -- cbn. rewrite app_length. lia.
        -- do 2 f_equal. unfold ST. cbn. rewrite ?app_nil_r. f_equal; try list_eq; len_eq.
      * rewrite H. cbn [bind]. rewrite push_ST. split; [|split].
        -- cbn. rewrite !app_nil_r. list_eq.
        -- cbn. rewrite app_length. lia.
        -- do 2 f_equal. unfold ST. cbn. rewrite ?app_nil_r. f_equal; try list_eq; len_eq.
    + cbn [bind]. rewrite push_ST. split; [|split].
      * cbn. rewrite !app_nil_r. list_eq.
      * cbn. rewrite app_length. lia.
      * do 2 f_equal. unfold ST. cbn. rewrite ?app_nil_r. f_equal; try list_eq; len_eq.
  - intros level src pre ts st os Hf Hn V. unfold inner_ok. cbn [flist list_inner].
    assert (L1 : length ts < f) by lia. assert (L2 : length ts < n) by lia.
    pose proof (II level None src pre ts st os L1 L2 V) as H. unfold item_ok in H.
    destruct (fitem n level None st ts) as [[[lk x] r]|].
    2:{ rewrite H. reflexivity. }
    destruct H as (-> & Lx & H). rewrite H. cbn [bind]. cbn [ops ST]. rewrite insert_ST. cbn [bind].
    rewrite app_length in Hf, Hn.
    assert (V1 : vtok src ((pre ++ yield x) ++ r)) by vt.
    assert (L3 : S (length r) < f) by lia. assert (L4 : S (length r) < n) by lia.
    pose proof (IS level lk src (pre ++ yield x) r st
      (os ++ new_start (list_kind_node lk) no_content :: flatten src x) L3 L4 V1) as H2.
    unfold items_ok in H2. destruct (flist_items n level lk st r) as [k r1].
    destruct H2 as (-> & H2). rewrite H2. cbn [bind]. rewrite push_ST. split; [|split].
    + cbn. fold (yields k). rewrite !app_nil_r. list_eq.
    + cbn. rewrite !app_length. lia.
    + do 2 f_equal. unfold ST. cbn. fold (yields k) (flattens src k). rewrite ?app_nil_r.
      f_equal; try list_eq; len_eq.
  - intros level lk src pre ts st os Hf Hn V. unfold items_ok. cbn [flist_items list_items].
    assert (L1 : length ts < f) by lia. assert (L2 : length ts < n) by lia.
    pose proof (II level (Some lk) src pre ts st os L1 L2 V) as H. unfold item_ok in H.
    destruct (fitem n level (Some lk) st ts) as [[[lk' x] r]|].
    2:{ rewrite H. cbn. rewrite !app_nil_r. auto. }
    destruct H as (-> & Lx & H). rewrite H. cbn [bind].
    rewrite app_length in Hf, Hn.
    assert (V1 : vtok src ((pre ++ yield x) ++ r)) by vt.
    assert (L3 : S (length r) < f) by lia. assert (L4 : S (length r) < n) by lia.
    pose proof (IS level lk src (pre ++ yield x) r st (os ++ flatten src x) L3 L4 V1) as H2.
    unfold items_ok in H2. destruct (flist_items n level lk st r) as [k r1].
    destruct H2 as (-> & H2). rewrite H2. split.
    + cbn. fold (yields k). list_eq.
    + do 2 f_equal. 1: cbn; unfold yields; list_eq. cbn. unfold flattens. list_eq.
Qed.

Lemma refines_list : refines (list_ 0) flist0.
Proof.
  intros src pre ts st os V. unfold list_, flist0.
  assert (L1 : S (length ts) < 2 * length (tokens (ST src pre ts st os)) + 3).
  { cbn [tokens ST]. rewrite app_length. lia. }
  assert (L2 : S (length ts) < 2 * length ts + 3) by lia.
  destruct (lists_ok (2 * length (tokens (ST src pre ts st os)) + 3) (2 * length ts + 3)) as (_ & H & _).
  specialize (H 0 src pre ts st os L1 L2 V). unfold inner_ok in H.
  destruct (flist (2 * length ts + 3) 0 st ts) as [[[mk x] r]|].
  - destruct H as (-> & _ & H). split; [reflexivity|]. rewrite H. reflexivity.
  - rewrite H. reflexivity.
Qed.

Lemma lists_app : forall n,
  (forall level k ts st mk x rest, length ts < n -> fitem n level k st ts = Some (mk, x, rest) ->
     ts = yield x ++ rest /\ 2 <= length (yield x))
  /\ (forall level ts st mk x rest, S (length ts) < n -> flist n level st ts = Some (mk, x, rest) ->
     ts = yield x ++ rest /\ 2 <= length (yield x))
  /\ (forall level lk ts st k rest, S (length ts) < n -> flist_items n level lk st ts = (k, rest) ->
     ts = yields k ++ rest).
Proof.
  induction n; [repeat split; intros; lia|]. destruct IHn as (II & IN & IS). split; [|split].
  - intros level k ts st mk x rest Hn H. cbn [fitem] in H.
    destruct (negb (nth_is 0 col0 ts)); [discriminate|].
    destruct (nth_error ts (if level =? 0 then 0 else 1)) as [m|]; [|discriminate].
    destruct (list_kind_of m) as [mk0|]; [|discriminate].
    destruct (fseq (marker_preds level k) ts) as [[o r]|] eqn:Q; [|discriminate].
    apply fseq_app in Q. destruct Q as (-> & Lo & _).
    assert (Lo2 : 2 <= length o).
    { rewrite Lo. unfold marker_preds. destruct (level =? 0); simpl; lia. }
    destruct (fparagraph (StopListBoundary level mk0 :: st) r) as [par r1] eqn:P.
    apply fparagraph_app in P. subst r. rewrite !app_length in Hn.
    destruct (negb (stopped st r1)).
    + destruct (flist n (level + 1) st r1) as [[[mk' y] r2]|] eqn:F.
      * injection H as <- <- <-. apply IN in F; [|lia]. destruct F as [-> L].
        cbn. rewrite !app_nil_r. split; [list_eq|rewrite app_length; lia].
      * injection H as <- <- <-. cbn. rewrite !app_nil_r. split; [list_eq|rewrite app_length; lia].
    + injection H as <- <- <-. cbn. rewrite !app_nil_r. split; [list_eq|rewrite app_length; lia].
  - intros level ts st mk x rest Hn H. cbn [flist] in H.
    destruct (fitem n level None st ts) as [[[lk y] r]|] eqn:F; [|discriminate].
    destruct (flist_items n level lk st r) as [k r1] eqn:G. injection H as <- <- <-.
    apply II in F; [|lia]. destruct F as [-> L]. rewrite app_length in Hn. apply IS in G; [|lia]. subst r.
    cbn. fold (yields k). rewrite app_nil_r. split; [list_eq|rewrite app_length; lia].
  - intros level lk ts st k rest Hn H. cbn [flist_items] in H.
    destruct (fitem n level (Some lk) st ts) as [[[lk' y] r]|] eqn:F.
    2:{ injection H as <- <-. reflexivity. }
    destruct (flist_items n level lk st r) as [k0 r1] eqn:G. injection H as <- <-.
    apply II in F; [|lia]. destruct F as [-> L]. rewrite app_length in Hn. apply IS in G; [|lia]. subst r.
    cbn. fold (yields k0). list_eq.
Qed.

Lemma covers_list : covers flist0.
Proof.
  intros st ts t rest H. unfold flist0 in H.
  destruct (flist (2 * length ts + 3) 0 st ts) as [[[mk x] r]|] eqn:F; [|discriminate].
  injection H as <- <-. destruct (lists_app (2 * length ts + 3)) as (_ & H & _).
  apply H in F; [|lia]. destruct F. split; [assumption|lia].
Qed.

Lemma covers_break : covers fbreak.
Proof.
  intros st ts t rest H. unfold fbreak in H. destruct ts as [|a r]; [discriminate|].
  destruct (is_dash5 a); [|discriminate]. injection H as <- <-. cbn. split; [reflexivity|lia].
Qed.

Lemma covers_heading : covers fheading.
Proof.
  intros st ts t rest H. rewrite fheading_eq in H.
  destruct (fseq [is_hash; is_space_1] ts) as [[o r]|] eqn:Q; [|discriminate].
  apply fseq_app in Q. destruct Q as (-> & Lo & _). simpl in Lo.
  destruct (fitems fanchor (S (length r)) st [] r) as [k r1] eqn:F. injection H as <- <-.
  apply fitems_app in F; [|apply covers_anchor|lia]. cbn [app] in F. subst r.
  cbn. fold (yields k). rewrite app_nil_r. split; [list_eq|rewrite app_length; lia].
Qed.

(** ** Failure states *)

(** A state reached from [ST src pre ts st os] by moving forward and pushing ops. *)
Definition ahead src pre ts st os (p : parser) : Prop :=
  exists x y rest, p = ST src (pre ++ x) rest st (os ++ y) /\ ts = x ++ rest.

Lemma ahead_reset : forall src pre ts st os p, ahead src pre ts st os p ->
  truncate_ops (length os) (set_pos (length pre) p) = ST src pre ts st os.
Proof.
  intros src pre ts st os p (x & y & rest & -> & ->). rewrite set_pos_ST, truncate_ST. reflexivity.
Qed.

Lemma ahead_refl : forall src pre ts st os, ahead src pre ts st os (ST src pre ts st os).
Proof. intros. exists [], [], ts. rewrite !app_nil_r. auto. Qed.

Lemma ahead_step : forall src pre x ts st os y p,
  ahead src (pre ++ x) ts st (os ++ y) p -> ahead src pre (x ++ ts) st os p.
Proof.
  intros src pre x ts st os y p (x' & y' & rest & -> & ->).
  exists (x ++ x'), (y ++ y'), rest. split; [|list_eq]. unfold ST. f_equal; try list_eq; len_eq.
Qed.

(** ** Icon *)

Lemma refines_icon : refines icon ficon.
Proof.
  intros src pre ts st os V. unfold icon, ficon. rewrite eat_seq_ST.
  destruct (fseq [is_one_bang; is_space_1] ts) as [[o r]|] eqn:Q; [|reflexivity].
  apply fseq_app in Q. destruct Q as (-> & _ & _).
  rewrite eat_until_ST. destruct (until st is_eol r) as [[[b e] rest]|] eqn:U; cbn [bind].
  - apply until_app in U. destruct U as [-> Ee]. split; [cbn; list_eq|]. unfold push_leaf.
    do_span pre o (b ++ e :: rest). do_span (pre ++ o) b (e :: rest). do_span (pre ++ o ++ b) [e] rest.
    rewrite !push_ST. do 2 f_equal. cbn [yield flat_map flatten app].
    rewrite ?app_nil_r. unfold ST. f_equal; try list_eq; len_eq.
  - cbn [pos ops ST]. rewrite set_pos_ST, truncate_ST0. reflexivity.
Qed.

(** A parser whose result does not matter: it may add one tree. *)
Lemma refines_opt : forall f g src pre ts st os, refines f g -> covers g -> vtok src (pre ++ ts) ->
  forall k r, opt_tree (g st ts) ts = (k, r) ->
  ts = yields k ++ r
  /\ exists b, f (ST src pre ts st os) = Ok (b, ST src (pre ++ yields k) r st (os ++ flattens src k)).
Proof.
  intros f g src pre ts st os R C V k r H. specialize (R src pre ts st os V).
  destruct (g st ts) as [[t rest]|]; cbn in H; injection H as <- <-.
  - destruct R as [E R]. cbn. rewrite !app_nil_r. split; [exact E|]. exists true. exact R.
  - cbn. rewrite !app_nil_r. split; [reflexivity|]. exists false. exact R.
Qed.

Lemma covers_icon : covers ficon.
Proof.
  intros st ts t rest H. unfold ficon in H.
  destruct (fseq [is_one_bang; is_space_1] ts) as [[o r]|] eqn:Q; [|discriminate].
  apply fseq_app in Q. destruct Q as (-> & Lo & _). simpl in Lo.
  destruct (until st is_eol r) as [[[b e] r']|] eqn:U; [|discriminate]. injection H as <- <-.
  apply until_app in U. destruct U as [-> Ee]. cbn. rewrite app_nil_r. split; [list_eq|rewrite app_length; lia].
Qed.

(** [with_eof] around a refined parser. *)
Lemma with_eof_opt : forall c f g src pre ts st os, refines f g -> covers g -> vtok src (pre ++ ts) ->
  forall k r, opt_tree (g (c :: st) ts) ts = (k, r) ->
  ts = yields k ++ r
  /\ exists b, with_eof c f (ST src pre ts st os) = Ok (b, ST src (pre ++ yields k) r st (os ++ flattens src k)).
Proof.
  intros c f g src pre ts st os R C V k r H.
  destruct (refines_opt f g src pre ts (c :: st) os R C V k r H) as (E & b & HR).
  split; [exact E|]. exists b. unfold with_eof.
  change (set_stack (c :: eof_stack (ST src pre ts st os)) (ST src pre ts st os))
    with (ST src pre ts (c :: st) os).
  rewrite HR. reflexivity.
Qed.

(** ** Highlight *)

Lemma with_eol_app : forall c r x rest, with_eol c r = (x, rest) -> c :: r = x ++ rest /\ 1 <= length x.
Proof.
  intros c r x rest H. unfold with_eol in H. destruct r as [|e r'].
  - injection H as <- <-. auto.
  - destruct (is_eol e); injection H as <- <-; cbn; auto with arith.
Qed.

Lemma stopped_two : forall st t r, stopped st (t :: r) = false -> is_terminator t = false ->
  is_two_bangs t = false -> stopped (StopTerminator :: StopHighlightEnd :: st) (t :: r) = false.
Proof.
  intros st t r H H1 H2. unfold stopped in *. cbn [existsb fmatches]. unfold nth_is.
  cbn [nth_error is_some_and]. rewrite H1, H2. exact H.
Qed.

Lemma with_eofs_paragraph : forall src pre ts st os t rest, vtok src (pre ++ ts) ->
  fparagraph (StopTerminator :: StopHighlightEnd :: st) ts = (t, rest) ->
  with_eofs [StopHighlightEnd; StopTerminator] paragraph (ST src pre ts st os)
  = Ok (tt, ST src (pre ++ yield t) rest st (os ++ flatten src t)).
Proof.
  intros src pre ts st os t rest V H. unfold with_eofs. cbn [rev_append].
  change (set_stack (StopTerminator :: StopHighlightEnd :: eof_stack (ST src pre ts st os)) (ST src pre ts st os))
    with (ST src pre ts (StopTerminator :: StopHighlightEnd :: st) os).
  rewrite (paragraph_ST src pre ts _ os t rest V H). reflexivity.
Qed.

(** One turn of the loop: the paragraph, with a terminator in front of it if there is one. *)
Lemma highlight_turn : forall st t r l r1 par r2,
  stopped st (t :: r) = false -> is_two_bangs t = false ->
  (if is_terminator t then ([Leaf [t]], r) else ([], t :: r)) = (l, r1) ->
  fparagraph (StopTerminator :: StopHighlightEnd :: st) r1 = (par, r2) ->
  t :: r = yields l ++ yield par ++ r2 /\ length r2 < length (t :: r).
Proof.
  intros st t r l r1 par r2 S0 E2 HL P.
  destruct (is_terminator t) eqn:ET; injection HL as <- <-.
  - pose proof (fparagraph_app _ _ _ _ P) as ->. cbn. split; [reflexivity|rewrite app_length; lia].
  - pose proof (fparagraph_app _ _ _ _ P) as E. split; [exact E|].
    eapply fparagraph_progress; [exact P|]. apply stopped_two; assumption.
Qed.

Lemma fhighlight_loop_app : forall n st ts k c rest, length ts < n ->
  fhighlight_loop n st ts = Some (k, c, rest) -> ts = yields k ++ c ++ rest /\ 1 <= length c.
Proof.
  induction n; intros st ts k c rest Hn H; [lia|]. cbn [fhighlight_loop] in H.
  destruct ts as [|t r]; [discriminate|]. destruct (stopped st (t :: r)) eqn:S0; [discriminate|].
  destruct (is_two_bangs t) eqn:E2.
  - destruct (with_eol t r) as [x r'] eqn:W. injection H as <- <- <-.
    apply with_eol_app in W. exact W.
  - destruct (if is_terminator t then ([Leaf [t]], r) else ([], t :: r)) as [l r1] eqn:HL.
    destruct (fparagraph (StopTerminator :: StopHighlightEnd :: st) r1) as [par r2] eqn:P.
    destruct (fhighlight_loop n st r2) as [[[k' c'] r3]|] eqn:F; [|discriminate]. injection H as <- <- <-.
    destruct (highlight_turn _ _ _ _ _ _ _ S0 E2 HL P) as [E L].
    apply IHn in F; [|lia]. destruct F as [F Lc]. split; [|exact Lc].
    rewrite E, F. rewrite yields_app. cbn. unfold yields. list_eq.
Qed.

Lemma highlight_loop_ST : forall f n src pre ts st os,
  length ts < f -> length ts < n -> vtok src (pre ++ ts) ->
  match fhighlight_loop n st ts with
  | Some (k, c, rest) =>
      highlight_loop f (ST src pre ts st os)
      = Ok (true, ST src (pre ++ yields k ++ c) rest st
                     (os ++ flattens src k ++ [new_end NHighlight (content_of src c)]))
  | None => exists p, highlight_loop f (ST src pre ts st os) = Ok (false, p) /\ ahead src pre ts st os p
  end.
Proof.
  induction f; intros n src pre ts st os Hf Hn V; [lia|]. destruct n; [lia|].
  cbn [highlight_loop fhighlight_loop]. rewrite at_eof_ST. destruct ts as [|t r].
  { cbn [stopped]. eexists; split; [reflexivity|apply ahead_refl]. }
  destruct (stopped st (t :: r)) eqn:S0.
  { eexists; split; [reflexivity|apply ahead_refl]. }
  rewrite eat_ST. destruct (is_two_bangs t) eqn:E2.
  - rewrite eat_ST. unfold with_eol. destruct r as [|e r'].
    + do_span pre [t] (@nil token). rewrite push_ST. do 2 f_equal.
    + destruct (is_eol e).
      * cbn [fst snd]. do_span pre [t; e] r'. rewrite push_ST. do 2 f_equal.
        cbn [yields flat_map app]. unfold ST. f_equal; try list_eq; len_eq.
      * do_span pre [t] (e :: r'). rewrite push_ST. do 2 f_equal.
  - destruct (if is_terminator t then ([Leaf [t]], r) else ([], t :: r)) as [l r1] eqn:HL.
    destruct (fparagraph (StopTerminator :: StopHighlightEnd :: st) r1) as [par r2] eqn:P.
    destruct (highlight_turn _ _ _ _ _ _ _ S0 E2 HL P) as [E L].
    assert (H : (let! p2 := match eat is_terminator (ST src pre (t :: r) st os) with
              | (Some term_range, p2) => let! c := span term_range p2 in Ok (push_op (new_value c) p2)
              | (None, p2) => Ok p2 end in
              with_eofs [StopHighlightEnd; StopTerminator] paragraph p2)
              = Ok (tt, ST src (pre ++ yields l ++ yield par) r2 st (os ++ flattens src l ++ flatten src par))).
    { rewrite eat_ST. destruct (is_terminator t) eqn:ET; injection HL as <- <-.
      - do_span pre [t] r. rewrite push_ST. rewrite (with_eofs_paragraph _ _ _ _ _ par r2).
        + do 2 f_equal. unfold ST. cbn. f_equal; try list_eq; len_eq.
        + vt.
        + exact P.
      - cbn [bind]. rewrite (with_eofs_paragraph _ _ _ _ _ par r2); [reflexivity|vt|exact P]. }
    destruct (match eat is_terminator (ST src pre (t :: r) st os) with
              | (Some term_range, p2) => let! c := span term_range p2 in Ok (push_op (new_value c) p2)
              | (None, p2) => Ok p2 end) as [p2| |]; cbn [bind] in *; try discriminate.
    rewrite H. cbn [bind]. cbn [pos ST].
    assert (LL : length (t :: r) = length (yields l) + (length (yield par) + length r2))
      by (rewrite E, !app_length; reflexivity).
    replace (length pre <? length (pre ++ yields l ++ yield par)) with true
      by (symmetry; apply Nat.ltb_lt; rewrite !app_length; lia).
    assert (V2 : vtok src ((pre ++ yields l ++ yield par) ++ r2)).
    { rewrite E in V. vt. }
    assert (L1 : length r2 < f) by lia. assert (L2 : length r2 < n) by lia.
    pose proof (IHf n src (pre ++ yields l ++ yield par) r2 st (os ++ flattens src l ++ flatten src par) L1 L2 V2) as IH.
    destruct (fhighlight_loop n st r2) as [[[k c] rest]|].
    + rewrite IH. do 2 f_equal. rewrite yields_app, flattens_app. unfold ST. cbn.
      fold (yields k) (flattens src k). f_equal; try list_eq; len_eq.
    + destruct IH as (p & IH & A). exists p. split; [exact IH|].
      rewrite E. rewrite app_assoc. eapply ahead_step. exact A.
Qed.

Lemma last_app_ne : forall (x : list token) d a, x <> [] ->
  last x d = last x a.
Proof. induction x as [|t [|u x] IH]; intros d a H; [congruence|reflexivity|]. apply IH. discriminate. Qed.

Lemma nth_last : forall (pre o r : list token) d, o <> [] ->
  nth_error (pre ++ o ++ r) (length pre + length o - 1) = Some (last o d).
Proof.
  intros pre o r d H. destruct (exists_last H) as (o' & t & ->). rewrite last_last.
  rewrite app_length. cbn [length].
  replace (length pre + (length o' + 1) - 1) with (length pre + length o') by lia.
  rewrite nth_pre. rewrite <- app_assoc. rewrite nth_error_app2 by lia. rewrite Nat.sub_diag. reflexivity.
Qed.

Lemma get_last : forall src pre o r st os d, o <> [] ->
  get (length pre + length o - 1) (ST src (pre ++ o) r st os) = Some (last o d).
Proof. intros. unfold get. cbn [tokens ST]. rewrite <- app_assoc. apply nth_last. assumption. Qed.

Lemma refines_highlight : refines highlight fhighlight.
Proof.
  intros src pre ts st os V. unfold highlight, fhighlight. rewrite eat_seq_ST.
  destruct (fseq [is_two_bangs; fun t => is_space_1 t || is_eol t] ts) as [[o r]|] eqn:Q; [|reflexivity].
  apply fseq_app in Q. destruct Q as (-> & Lo & _).
  assert (No : o <> []) by (intros ->; discriminate).
  cbn [snd]. rewrite (get_last _ _ _ _ _ _ (mk_token Literal 0 0 (mk_pos 0 0 0) false)) by exact No.
  cbn [is_some_and].
  set (skip := is_eol (last o (mk_token Literal 0 0 (mk_pos 0 0 0) false))).
  do_span pre o r. rewrite push_ST.
  set (os1 := os ++ [new_start NHighlight (content_of src o)]).
  destruct (if negb skip then opt_tree (fmodifier st r) r else ([], r)) as [k1 r1] eqn:K1.
  assert (V1 : vtok src ((pre ++ o) ++ r)) by vt.
  assert (H1 : r = yields k1 ++ r1 /\ exists b,
    (if negb skip then modifier (ST src (pre ++ o) r st os1) else Ok (false, ST src (pre ++ o) r st os1))
    = Ok (b, ST src ((pre ++ o) ++ yields k1) r1 st (os1 ++ flattens src k1))).
  { destruct (negb skip).
    - apply (refines_opt modifier fmodifier); auto using refines_modifier, covers_modifier.
    - injection K1 as <- <-. cbn. rewrite !app_nil_r. split; [reflexivity|]. exists false. reflexivity. }
  destruct H1 as (E1 & b1 & H1). rewrite H1. cbn [bind]. subst r.
  destruct (opt_tree (ficon (StopTerminator :: st) r1) r1) as [k2 r2] eqn:K2.
  assert (V2 : vtok src (((pre ++ o) ++ yields k1) ++ r1)) by vt.
  destruct (with_eof_opt StopTerminator icon ficon src ((pre ++ o) ++ yields k1) r1 st (os1 ++ flattens src k1)
              refines_icon covers_icon V2 k2 r2 K2) as (E2 & b2 & H2).
  rewrite H2. cbn [bind]. subst r1. rewrite at_ST. cbn [pos ops ST].
  destruct (nth_is 0 col0 r2) eqn:C0; cbn [negb].
  2:{ do 2 f_equal. apply ahead_reset. unfold os1. rewrite <- !app_assoc.
      exists (o ++ yields k1 ++ yields k2), ([new_start NHighlight (content_of src o)] ++ flattens src k1 ++ flattens src k2), r2.
      split; [reflexivity|list_eq]. }
  assert (Lf : length r2 < loop_fuel (ST src pre (o ++ yields k1 ++ yields k2 ++ r2) st os)).
  { unfold loop_fuel. cbn [tokens ST]. rewrite !app_length. lia. }
  assert (V3 : vtok src ((((pre ++ o) ++ yields k1) ++ yields k2) ++ r2)) by vt.
  pose proof (highlight_loop_ST _ (S (length r2)) src (((pre ++ o) ++ yields k1) ++ yields k2) r2 st
    ((os1 ++ flattens src k1) ++ flattens src k2) Lf (Nat.lt_succ_diag_r _) V3) as H.
  destruct (fhighlight_loop (S (length r2)) st r2) as [[[k3 c] rest]|] eqn:F.
  - rewrite H. cbn [bind]. apply fhighlight_loop_app in F; [|lia]. destruct F as [-> _]. split.
    + cbn [yield]. fold (yields (k1 ++ k2 ++ k3)). rewrite !yields_app. list_eq.
    + do 2 f_equal. cbn [yield flatten]. fold (yields (k1 ++ k2 ++ k3)) (flattens src (k1 ++ k2 ++ k3)).
      rewrite !yields_app, !flattens_app. unfold os1, ST. f_equal; try list_eq; len_eq.
  - destruct H as (p & H & A). rewrite H. cbn [bind]. do 2 f_equal. apply ahead_reset.
    unfold os1 in A. rewrite <- !app_assoc in A.
    replace (o ++ yields k1 ++ yields k2 ++ r2) with ((o ++ yields k1 ++ yields k2) ++ r2) by list_eq.
    eapply ahead_step. exact A.
Qed.

Lemma opt_tree_app : forall g st ts k r, covers g -> opt_tree (g st ts) ts = (k, r) -> ts = yields k ++ r.
Proof.
  intros g st ts k r C H. destruct (g st ts) as [[t rest]|] eqn:E; cbn in H; injection H as <- <-.
  - apply C in E. destruct E as [E _]. cbn. rewrite app_nil_r. exact E.
  - reflexivity.
Qed.

Lemma covers_highlight : covers fhighlight.
Proof.
  intros st ts t rest H. unfold fhighlight in H.
  destruct (fseq [is_two_bangs; fun t => is_space_1 t || is_eol t] ts) as [[o r]|] eqn:Q; [|discriminate].
  apply fseq_app in Q. destruct Q as (-> & Lo & _). simpl in Lo.
  set (skip := is_eol (last o (mk_token Literal 0 0 (mk_pos 0 0 0) false))) in *.
  destruct (if negb skip then opt_tree (fmodifier st r) r else ([], r)) as [k1 r1] eqn:K1.
  assert (E1 : r = yields k1 ++ r1).
  { destruct (negb skip); [apply opt_tree_app in K1; auto using covers_modifier|].
    injection K1 as <- <-. reflexivity. }
  destruct (opt_tree (ficon (StopTerminator :: st) r1) r1) as [k2 r2] eqn:K2.
  apply opt_tree_app in K2; [|apply covers_icon].
  destruct (nth_is 0 col0 r2); [|discriminate].
  destruct (fhighlight_loop (S (length r2)) st r2) as [[[k3 c] r3]|] eqn:F; [|discriminate].
  injection H as <- <-. apply fhighlight_loop_app in F; [|lia]. destruct F as [-> _]. subst r r1.
  cbn [yield]. fold (yields (k1 ++ k2 ++ k3)). rewrite !yields_app. split; [list_eq|rewrite app_length; lia].
Qed.

(** ** Embed and code *)

Lemma fclose_line_app : forall st c r x rest, fclose_line st c r = Some (x, rest) ->
  c :: r = x ++ rest /\ 1 <= length x.
Proof.
  intros st c r x rest H. unfold fclose_line in H. destruct r as [|e r'].
  - injection H as <- <-. auto.
  - destruct (is_eol e).
    + injection H as <- <-. cbn. auto.
    + destruct (stopped st (e :: r') || is_terminator e); [|discriminate]. injection H as <- <-. auto.
Qed.

Lemma close_line_ST : forall src pre c r st os a,
  close_line (a, length pre + 1) (ST src (pre ++ [c]) r st os) =
  match fclose_line st c r with
  | Some (x, rest) => (Some (a, length pre + length x), ST src (pre ++ x) rest st os)
  | None => (None, ST src (pre ++ [c]) r st os)
  end.
Proof.
  intros. unfold close_line, fclose_line, at_block_boundary. rewrite eat_ST.
  destruct r as [|e r'].
  - rewrite at_eof_ST. reflexivity.
  - destruct (is_eol e) eqn:E.
    + cbn [fst snd]. rewrite <- app_assoc. cbn [app length]. do 3 f_equal. rewrite app_length. simpl. lia.
    + rewrite at_eof_ST, at_ST. unfold nth_is. cbn [nth_error is_some_and]. fold (is_terminator e).
      destruct (stopped st (e :: r') || is_terminator e); reflexivity.
Qed.

Lemma refines_embed : refines embed fembed.
Proof.
  intros src pre ts st os V. unfold embed, fembed. rewrite eat_ST.
  destruct ts as [|t r]; [reflexivity|]. destruct (is_left_curly2 t); [|reflexivity].
  rewrite eat_until_ST. destruct (until st is_pipe r) as [[[b1 s] r1]|] eqn:U1; cbn [bind].
  2:{ cbn [pos ST]. rewrite set_pos_ST. reflexivity. }
  apply until_app in U1. destruct U1 as [-> _].
  rewrite eat_until_ST. destruct (until st is_right_curly2 r1) as [[[b2 c] r2]|] eqn:U2; cbn [bind].
  2:{ cbn [pos ST]. do 2 f_equal. rewrite <- !app_assoc, set_pos_ST. f_equal. list_eq. }
  apply until_app in U2. destruct U2 as [-> _].
  set (pre1 := ((pre ++ [t]) ++ b1 ++ [s]) ++ b2).
  replace (((pre ++ [t]) ++ b1 ++ [s]) ++ b2 ++ [c]) with (pre1 ++ [c]) by (unfold pre1; list_eq).
  replace (length ((pre ++ [t]) ++ b1 ++ [s]) + length b2) with (length pre1)
    by (unfold pre1; rewrite (app_length _ b2); reflexivity).
  rewrite close_line_ST. destruct (fclose_line st c r2) as [[x rest]|] eqn:CL.
  2:{ cbn [pos ST]. do 2 f_equal. unfold pre1. rewrite <- !app_assoc. rewrite set_pos_ST. f_equal. list_eq. }
  apply fclose_line_app in CL. destruct CL as [CL Lx].
  assert (V1 : vtok src ((pre1 ++ x) ++ rest)).
  { unfold pre1. rewrite <- !app_assoc, <- CL. vt. }
  unfold pre1 in *.
  do_span pre [t] (b1 ++ s :: b2 ++ x ++ rest).
  do_span (pre ++ [t]) b1 (s :: b2 ++ x ++ rest).
  do_span (pre ++ t :: b1) [s] (b2 ++ x ++ rest).
  do_span (pre ++ t :: b1 ++ [s]) b2 (x ++ rest).
  do_span (pre ++ t :: b1 ++ [s] ++ b2) x rest.
  split.
  - cbn. rewrite CL. list_eq.
  - rewrite !push_ST. do 2 f_equal. cbn [yield flat_map flatten app]. rewrite ?app_nil_r.
    unfold ST. f_equal; try list_eq; len_eq.
Qed.

Lemma covers_embed : covers fembed.
Proof.
  intros st ts t rest H. unfold fembed in H. destruct ts as [|a r]; [discriminate|].
  destruct (is_left_curly2 a); [|discriminate].
  destruct (until st is_pipe r) as [[[b1 s] r1]|] eqn:U1; [|discriminate].
  destruct (until st is_right_curly2 r1) as [[[b2 c] r2]|] eqn:U2; [|discriminate].
  destruct (fclose_line st c r2) as [[x r3]|] eqn:CL; [|discriminate]. injection H as <- <-.
  apply until_app in U1. destruct U1 as [-> _]. apply until_app in U2. destruct U2 as [-> _].
  apply fclose_line_app in CL. destruct CL as [CL Lx]. split; [|cbn; lia].
  cbn. rewrite CL. list_eq.
Qed.

Lemma ffence_app : forall ts o r, ffence ts = Some (o, r) -> ts = o ++ r /\ o <> [].
Proof.
  intros ts o r H. unfold ffence in H. destruct (fseq [is_backtick3; is_eol] ts) as [[a b]|] eqn:Q.
  - injection H as <- <-. apply fseq_app in Q. destruct Q as (-> & L & _). split; [reflexivity|].
    intros ->; discriminate.
  - apply fseq_app in H. destruct H as (-> & L & _). split; [reflexivity|]. intros ->; discriminate.
Qed.

Lemma eat_one : forall f src pre ts st os, eat f (ST src pre ts st os) = 
  match fseq [f] ts with
  | Some (a, b) => (Some (length pre, length pre + length a), ST src (pre ++ a) b st os)
  | None => (None, ST src pre ts st os)
  end.
Proof.
  intros. rewrite eat_ST. cbn [fseq]. destruct ts as [|t r]; [reflexivity|]. destruct (f t); reflexivity.
Qed.

Lemma eat_fence_ST : forall src pre ts st os, eat_fence (ST src pre ts st os) =
  match ffence ts with
  | Some (a, b) => (Some (length pre, length pre + length a), ST src (pre ++ a) b st os)
  | None => (None, ST src pre ts st os)
  end.
Proof.
  intros. unfold eat_fence, ffence. rewrite eat_seq_ST.
  destruct (fseq [is_backtick3; is_eol] ts) as [[a b]|]; [reflexivity|]. apply eat_one.
Qed.

Lemma refines_code : refines code fcode.
Proof.
  intros src pre ts st os V. unfold code, fcode. rewrite eat_fence_ST.
  destruct (ffence ts) as [[o r]|] eqn:Q; [|reflexivity].
  apply ffence_app in Q. destruct Q as (-> & No).
  cbn [snd]. rewrite (get_last _ _ _ _ _ _ (mk_token Literal 0 0 (mk_pos 0 0 0) false)) by exact No.
  cbn [is_some_and].
  set (wm := negb (is_eol (last o (mk_token Literal 0 0 (mk_pos 0 0 0) false)))).
  do_span pre o r. rewrite push_ST.
  set (os1 := os ++ [new_start NCode (content_of src o)]).
  destruct (if wm then opt_tree (fmodifier [] r) r else ([], r)) as [k1 r1] eqn:K1.
  assert (V1 : vtok src ((pre ++ o) ++ r)) by vt.
  unfold with_no_stops.
  change (set_stack [] (ST src (pre ++ o) r st os1)) with (ST src (pre ++ o) r [] os1).
  assert (H1 : r = yields k1 ++ r1 /\ exists b,
    (if wm then modifier (ST src (pre ++ o) r [] os1) else Ok (false, ST src (pre ++ o) r [] os1))
    = Ok (b, ST src ((pre ++ o) ++ yields k1) r1 [] (os1 ++ flattens src k1))).
  { destruct wm.
    - apply (refines_opt modifier fmodifier); auto using refines_modifier, covers_modifier.
    - injection K1 as <- <-. cbn. rewrite !app_nil_r. split; [reflexivity|]. exists false. reflexivity. }
  destruct H1 as (E1 & b1 & H1). rewrite H1. cbn [bind]. subst r.
  rewrite eat_until_ST. cbn [eof_stack ST pos ops].
  destruct (until [] is_backtick3 r1) as [[[b c] r2]|] eqn:U; cbn [bind].
  2:{ match goal with |- context[set_stack ?s ?p] =>
        change (set_stack s p) with (ST src ((pre ++ o) ++ yields k1) r1 st (os1 ++ flattens src k1)) end.
      do 2 f_equal. apply ahead_reset. unfold os1. rewrite <- !app_assoc.
      eexists _, _, r1. split; [reflexivity|list_eq]. }
  match goal with |- context[set_stack ?s ?p] =>
    change (set_stack s p) with (ST src (((pre ++ o) ++ yields k1) ++ b ++ [c]) r2 st (os1 ++ flattens src k1)) end.
  apply until_app in U. destruct U as [-> _].
  set (pre1 := ((pre ++ o) ++ yields k1) ++ b).
  replace (((pre ++ o) ++ yields k1) ++ b ++ [c]) with (pre1 ++ [c]) by (unfold pre1; list_eq).
  replace (length ((pre ++ o) ++ yields k1) + length b) with (length pre1)
    by (unfold pre1; rewrite (app_length _ b); reflexivity).
  rewrite close_line_ST. destruct (fclose_line st c r2) as [[x rest]|] eqn:CL.
  2:{ do 2 f_equal. apply ahead_reset. unfold pre1, os1. rewrite <- !app_assoc.
      eexists _, _, r2. split; [reflexivity|list_eq]. }
  apply fclose_line_app in CL. destruct CL as [CL Lx].
  assert (V2 : vtok src ((pre1 ++ x) ++ rest)).
  { unfold pre1. rewrite <- !app_assoc, <- CL. vt. }
  unfold pre1 in *.
  do_span ((pre ++ o) ++ yields k1) b (x ++ rest).
  do_span (((pre ++ o) ++ yields k1) ++ b) x rest.
  split.
  - cbn [yield]. fold (yields (k1 ++ [Leaf b])). rewrite yields_app. cbn. rewrite CL, app_nil_r. list_eq.
  - rewrite !push_ST. do 2 f_equal. cbn [yield flatten]. fold (yields (k1 ++ [Leaf b])) (flattens src (k1 ++ [Leaf b])).
    rewrite yields_app, flattens_app. cbn [yields flattens flat_map yield flatten app]. unfold os1, ST. rewrite ?app_nil_r.
    f_equal; try list_eq; len_eq.
Qed.

Lemma covers_code : covers fcode.
Proof.
  intros st ts t rest H. unfold fcode in H.
  destruct (ffence ts) as [[o r]|] eqn:Q; [|discriminate]. apply ffence_app in Q. destruct Q as (-> & No).
  set (wm := negb (is_eol (last o (mk_token Literal 0 0 (mk_pos 0 0 0) false)))) in *.
  destruct (if wm then opt_tree (fmodifier [] r) r else ([], r)) as [k1 r1] eqn:K1.
  assert (E1 : r = yields k1 ++ r1).
  { destruct wm; [apply opt_tree_app in K1; auto using covers_modifier|]. injection K1 as <- <-. reflexivity. }
  destruct (until [] is_backtick3 r1) as [[[b c] r2]|] eqn:U; [|discriminate].
  destruct (fclose_line st c r2) as [[x r3]|] eqn:CL; [|discriminate]. injection H as <- <-.
  apply until_app in U. destruct U as [-> _]. apply fclose_line_app in CL. destruct CL as [CL Lx]. subst r.
  split.
  - cbn [yield]. fold (yields (k1 ++ [Leaf b])). rewrite yields_app. cbn. rewrite CL, app_nil_r. list_eq.
  - destruct o; [congruence|]. cbn. lia.
Qed.
