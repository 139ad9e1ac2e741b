(** Refinement of document and collapsible, and of the whole parser (continues Refine2.v). *)
From Verif Require Import Base Lexer LexSpec LexProofs LexFacts Ops Parser FParser Refine Refine2.

(** ** Tokens turned into literals *)

(** [b] is [a], or [a] is a [{%] at the start of a line and [b] the same text as a literal. *)
Definition flip (a b : token) : Prop :=
  b = a \/ (is_collapsible_start a = true /\ b = literal_of a).
Definition flips : list token -> list token -> Prop := Forall2 flip.

Lemma flip_refl : forall t, flip t t. Proof. left; reflexivity. Qed.
Lemma flips_refl : forall ts, flips ts ts.
Proof. induction ts; constructor; auto using flip_refl. Qed.
Lemma flips_trans : forall a b c, flips a b -> flips b c -> flips a c.
Proof.
  intros a b c H. revert c. induction H as [|x y a b Hxy H IH]; intros c Hc; inversion Hc; subst.
  - constructor.
  - constructor; [|apply IH; assumption]. destruct Hxy as [->|[K ->]]; [assumption|].
    destruct H2 as [->|[K2 ->]].
    + right; auto.
    + unfold is_collapsible_start in K2. cbn in K2. discriminate.
Qed.
Lemma flips_app : forall a b c d, flips a b -> flips c d -> flips (a ++ c) (b ++ d).
Proof. intros. apply Forall2_app; assumption. Qed.
Lemma flips_length : forall a b, flips a b -> length a = length b.
Proof. intros a b H. induction H; simpl; congruence. Qed.

Lemma flip_slice : forall a b, flip a b -> t_start b = t_start a /\ t_end b = t_end a /\ t_pos b = t_pos a
  /\ escaped b = escaped a /\ tlen b = tlen a.
Proof. intros a b [->|[_ ->]]; auto. Qed.

Lemma flips_vtok : forall src a b, flips a b -> vtok src a -> vtok src b.
Proof.
  intros src a b H. induction H as [|x y a b Hxy H IH]; intros V; [constructor|].
  inversion V as [|? ? [z Hz] V']; subst. constructor; [|apply IH; assumption].
  destruct (flip_slice _ _ Hxy) as (-> & -> & _). eauto.
Qed.

Lemma flips_vtok_app : forall src pre a b, flips a b -> vtok src (pre ++ a) -> vtok src (pre ++ b).
Proof. intros src pre a b H. apply flips_vtok. apply flips_app; [apply flips_refl|exact H]. Qed.

(** Stop conditions do not see the difference. *)
Lemma flips_nth : forall f a b i, (forall x y, flip x y -> f y = f x) -> flips a b -> nth_is i f b = nth_is i f a.
Proof.
  intros f a b i Hf H. revert i. induction H as [|x y a b Hxy H IH]; intros [|i]; try reflexivity.
  - unfold nth_is. cbn. apply Hf. exact Hxy.
  - apply (IH i).
Qed.

Lemma flip_pred : forall (f g : token -> bool) k x y, k <> Literal -> k <> CollapsibleStart ->
  (forall t, f t = true -> kind t = k) -> flip x y -> f y = f x.
Proof.
  intros f g k x y H1 H2 Hk [->|[K ->]]; [reflexivity|].
  assert (A : f (literal_of x) = false).
  { destruct (f (literal_of x)) eqn:E; [|reflexivity]. apply Hk in E. cbn in E. congruence. }
  assert (B : f x = false).
  { destruct (f x) eqn:E; [|reflexivity]. apply Hk in E. unfold is_collapsible_start in K.
    apply andb_true_iff in K. destruct K as [K _]. apply kind_eqb_eq in K. congruence. }
  congruence.
Qed.

Ltac pred_kind := let t := fresh in let H := fresh in intros t H;
  repeat (apply andb_true_iff in H; destruct H as [H ?]); apply kind_eqb_eq in H; exact H.
Ltac flip_tac k := intros x y Hxy; apply (flip_pred _ (fun _ => true) k); [discriminate|discriminate| |exact Hxy]; pred_kind.

Lemma flip_terminator : forall x y, flip x y -> is_terminator y = is_terminator x.
Proof. flip_tac Terminator. Qed.
Lemma flip_collapsible_end : forall x y, flip x y -> is_collapsible_end y = is_collapsible_end x.
Proof. flip_tac CollapsibleEnd. Qed.
Lemma flip_eol : forall x y, flip x y -> is_eol y = is_eol x.
Proof. flip_tac Eol. Qed.
Lemma flip_two_bangs : forall x y, flip x y -> is_two_bangs y = is_two_bangs x.
Proof. flip_tac Bang. Qed.
Lemma flip_space1 : forall x y, flip x y -> is_space_1 y = is_space_1 x.
Proof. flip_tac Space. Qed.
Lemma flip_indent : forall l x y, flip x y -> is_indent l y = is_indent l x.
Proof. intros l. flip_tac Space. Qed.
Lemma flip_col0 : forall x y, flip x y -> col0 y = col0 x.
Proof. intros x y H. unfold col0. destruct (flip_slice _ _ H) as (_ & _ & -> & _). reflexivity. Qed.
Lemma flip_marker : forall k x y, flip x y -> is_list_marker k y = is_list_marker k x.
Proof.
  intros k x y [->|[K ->]]; [reflexivity|]. unfold is_list_marker, list_kind_of. cbn.
  unfold is_collapsible_start in K. apply andb_true_iff in K. destruct K as [K _].
  apply kind_eqb_eq in K. rewrite K. reflexivity.
Qed.

Lemma flips_fmatches : forall a b c, flips a b -> fmatches c b = fmatches c a.
Proof.
  intros a b c H.
  pose proof (fun f i Hf => flips_nth f a b i Hf H) as N.
  destruct c; cbn [fmatches].
  - apply N, flip_terminator.
  - rewrite !(N _ _ flip_collapsible_end), (N _ _ flip_eol). reflexivity.
  - apply N, flip_two_bangs.
  - rewrite (N _ _ flip_col0). f_equal. apply existsb_ext'. intros l. unfold boundary_at.
    rewrite (N _ _ flip_col0), !(N _ _ flip_space1), (N _ _ (flip_indent l)).
    destruct (l =? level).
    + rewrite !(N _ _ (flip_marker (Some k))). reflexivity.
    + rewrite !(N _ _ (flip_marker None)). reflexivity.
Qed.

Lemma flips_stopped : forall st a b, flips a b -> stopped st b = stopped st a.
Proof.
  intros st a b H. unfold stopped. destruct H as [|x y a b Hxy H]; [reflexivity|].
  apply existsb_ext'. intros c. apply flips_fmatches. constructor; assumption.
Qed.

Lemma flip_ST : forall src pre t r st os,
  flip_to_literal (length pre) (ST src pre (t :: r) st os) = ST src pre (literal_of t :: r) st os.
Proof.
  intros. unfold flip_to_literal. cbn [tokens ST]. rewrite nth_pre0. cbn [nth_error].
  unfold ST. cbn [source pos eof_stack ops]. f_equal.
  rewrite firstn_app, firstn_all, Nat.sub_diag. cbn [firstn]. rewrite app_nil_r. f_equal. f_equal.
  replace (pre ++ t :: r) with ((pre ++ [t]) ++ r) by list_eq.
  replace (S (length pre)) with (length (pre ++ [t])) by len_eq.
  rewrite skipn_app, skipn_all, Nat.sub_diag. reflexivity.
Qed.

(** ** Simple blocks *)

Lemma simple_block_ST : forall src pre ts st os x rest, vtok src (pre ++ ts) ->
  fsimple st ts = (x, rest) ->
  ts = yield x ++ rest
  /\ simple_block (ST src pre ts st os) = Ok (tt, ST src (pre ++ yield x) rest st (os ++ flatten src x)).
Proof.
  intros src pre ts st os x rest V H. unfold fsimple in H. unfold simple_block, with_eof.
  change (set_stack (StopTerminator :: eof_stack (ST src pre ts st os)) (ST src pre ts st os))
    with (ST src pre ts (StopTerminator :: st) os).
  pose proof (refines_orelse _ _ _ _ refines_list (refines_orelse _ _ _ _ refines_images
     (refines_orelse _ _ _ _ refines_break refines_heading)) src pre ts (StopTerminator :: st) os V) as R.
  destruct (forelse flist0 (forelse fimages (forelse fbreak fheading)) (StopTerminator :: st) ts) as [[y r]|].
  - injection H as -> ->. destruct R as [E R]. split; [exact E|]. rewrite R. reflexivity.
  - split; [apply (fparagraph_app _ _ _ _ H)|]. rewrite R. cbn [bind].
    rewrite (paragraph_ST _ _ _ _ _ _ _ V H). reflexivity.
Qed.

Lemma fsimple_progress : forall st ts x rest, fsimple st ts = (x, rest) ->
  stopped st ts = false -> nth_is 0 is_terminator ts = false -> 1 <= length (yield x).
Proof.
  intros st ts x rest H S0 T. unfold fsimple in H.
  destruct (forelse flist0 (forelse fimages (forelse fbreak fheading)) (StopTerminator :: st) ts) as [[y r]|] eqn:E.
  - injection H as <- <-.
    apply (covers_orelse _ _ covers_list (covers_orelse _ _ covers_images (covers_orelse _ _ covers_break covers_heading))) in E.
    apply E.
  - pose proof (fparagraph_app _ _ _ _ H) as EA. apply fparagraph_progress in H.
    + rewrite EA, app_length in H. lia.
    + unfold stopped in *. destruct ts as [|t r]; [discriminate|]. cbn [existsb fmatches]. rewrite T. exact S0.
Qed.

(** ** Document and collapsible *)

Lemma eat_collapsible_end_ST : forall src pre ts st os, eat_collapsible_end (ST src pre ts st os) =
  match fcollapsible_end ts with
  | Some (a, b) => (Some (length pre, length pre + length a), ST src (pre ++ a) b st os)
  | None => (None, ST src pre ts st os)
  end.
Proof.
  intros. unfold eat_collapsible_end, fcollapsible_end. rewrite eat_seq_ST.
  destruct (fseq [is_collapsible_end; is_eol] ts) as [[a b]|]; [reflexivity|]. apply eat_one.
Qed.

Lemma fcollapsible_end_app : forall ts a b, fcollapsible_end ts = Some (a, b) -> ts = a ++ b /\ 1 <= length a.
Proof.
  intros ts a b H. unfold fcollapsible_end in H. destruct (fseq [is_collapsible_end; is_eol] ts) as [[c d]|] eqn:Q.
  - injection H as <- <-. apply fseq_app in Q. destruct Q as (-> & L & _). split; [reflexivity|]. simpl in L. lia.
  - apply fseq_app in H. destruct H as (-> & L & _). split; [reflexivity|]. simpl in L. lia.
Qed.

Definition doc_ok f n src pre ts st os : Prop :=
  let (k, rest) := fdoc n st ts in
  flips ts (yields k ++ rest) /\ stopped st rest = true
  /\ document_loop f (ST src pre ts st os) = Ok (ST src (pre ++ yields k) rest st (os ++ flattens src k)).

Definition coll_ok f n src pre ts st os : Prop :=
  match fcollapsible n st ts with
  | CMatch t rest =>
      flips ts (yield t ++ rest) /\ 1 <= length (yield t)
      /\ collapsible f (ST src pre ts st os) = Ok (true, ST src (pre ++ yield t) rest st (os ++ flatten src t))
  | CFail ts' =>
      flips ts ts' /\ collapsible f (ST src pre ts st os) = Ok (false, ST src pre ts' st os)
  end.

Lemma docs_ok : forall f n,
  (forall src pre ts st os, 3 * length ts < f -> 3 * length ts < n -> vtok src (pre ++ ts) ->
     doc_ok f n src pre ts st os)
  /\ (forall src pre ts st os, ts <> [] -> 3 * length ts <= f -> 3 * length ts <= n -> vtok src (pre ++ ts) ->
     coll_ok f n src pre ts st os).
Proof.
  induction f as [f IHf] using lt_wf_ind. intros n. split.
  - intros src pre ts st os Hf Hn V. destruct f; [lia|]. destruct n; [lia|].
    unfold doc_ok. cbn [fdoc document_loop]. rewrite at_eof_ST.
    destruct ts as [|t r].
    { cbn. rewrite !app_nil_r. repeat split. constructor. }
    destruct (stopped st (t :: r)) eqn:S0.
    { cbn. rewrite !app_nil_r. repeat split; [apply flips_refl|exact S0]. }
    (* one block *)
    set (blk := if is_terminator t then (Leaf [t], r)
          else match fcode st (t :: r) with
               | Some y => y
               | None => match fcollapsible n st (t :: r) with
                         | CMatch y r1 => (y, r1)
                         | CFail ts' => match forelse fembed fhighlight st ts' with
                                        | Some y => y | None => fsimple st ts' end
                         end
               end).
    assert (B : flips (t :: r) (yield (fst blk) ++ snd blk) /\ 1 <= length (yield (fst blk))
      /\ match eat is_terminator (ST src pre (t :: r) st os) with
         | (Some range, p1) => let! c := span range p1 in Ok (push_op (new_value c) p1)
         | (None, p1) =>
             let! (b, q) := orelse code (orelse (collapsible f) (orelse embed highlight)) p1 in
             (if b then Ok q else let! (_, q1) := simple_block q in Ok q1)
         end = Ok (ST src (pre ++ yield (fst blk)) (snd blk) st (os ++ flatten src (fst blk)))).
    { rewrite eat_ST. subst blk. destruct (is_terminator t) eqn:ET.
      { cbn [fst snd yield flatten app]. split; [apply flips_refl|]. split; [simpl; lia|].
        do_span pre [t] r. rewrite push_ST. reflexivity. }
      unfold orelse at 1.
      pose proof (refines_code src pre (t :: r) st os V) as RC.
      destruct (fcode st (t :: r)) as [[y r1]|] eqn:EC.
      { destruct RC as [E RC]. rewrite RC. cbn [bind fst snd]. apply covers_code in EC. destruct EC as [_ L].
        split; [rewrite <- E; apply flips_refl|]. split; [exact L|reflexivity]. }
      rewrite RC. cbn [bind]. unfold orelse at 1.
      assert (Hc : coll_ok f n src pre (t :: r) st os).
      { apply (proj2 (IHf f (Nat.lt_succ_diag_r f) n)); [discriminate|lia|lia|exact V]. }
      unfold coll_ok in Hc. destruct (fcollapsible n st (t :: r)) as [y r1|ts'].
      { destruct Hc as (F & L & Hc). rewrite Hc. cbn [bind fst snd]. split; [exact F|]. split; [exact L|reflexivity]. }
      destruct Hc as (F & Hc). rewrite Hc. cbn [bind].
      assert (V' : vtok src (pre ++ ts')) by (eapply flips_vtok_app; eassumption).
      assert (S' : stopped st ts' = false) by (rewrite (flips_stopped _ _ _ F); exact S0).
      assert (T' : nth_is 0 is_terminator ts' = false).
      { rewrite (flips_nth is_terminator _ _ 0 flip_terminator F). exact ET. }
      pose proof (refines_orelse _ _ _ _ refines_embed refines_highlight src pre ts' st os V') as RE.
      destruct (forelse fembed fhighlight st ts') as [[y r1]|] eqn:EE.
      { destruct RE as [E RE]. rewrite RE. cbn [bind fst snd].
        apply (covers_orelse _ _ covers_embed covers_highlight) in EE. destruct EE as [_ L].
        split; [rewrite <- E; exact F|]. split; [exact L|reflexivity]. }
      rewrite RE. cbn [bind]. destruct (fsimple st ts') as [y r1] eqn:ES. cbn [fst snd].
      destruct (simple_block_ST src pre ts' st os y r1 V' ES) as [E HS]. rewrite HS. cbn [bind].
      split; [rewrite <- E; exact F|]. split; [eapply fsimple_progress; eassumption|reflexivity]. }
    destruct B as (FB & LB & HB).
    rewrite HB. cbn [bind]. cbn [pos ST].
    replace (length pre <? length (pre ++ yield (fst blk))) with true
      by (symmetry; apply Nat.ltb_lt; rewrite app_length; lia).
    fold blk. destruct blk as [x r1]. cbn [fst snd] in *.
    assert (LL : length (t :: r) = length (yield x) + length r1)
      by (rewrite (flips_length _ _ FB); apply app_length).
    assert (V1 : vtok src ((pre ++ yield x) ++ r1)).
    { rewrite <- app_assoc. eapply flips_vtok_app; eassumption. }
    assert (Hd : doc_ok f n src (pre ++ yield x) r1 st (os ++ flatten src x)).
    { apply (proj1 (IHf f (Nat.lt_succ_diag_r f) n)); [lia|lia|exact V1]. }
    unfold doc_ok in Hd. destruct (fdoc n st r1) as [k r2]. destruct Hd as (Fd & Sd & Hd).
    split; [|split; [exact Sd|]].
    + eapply flips_trans; [exact FB|]. cbn. fold (yields k). rewrite <- app_assoc.
      apply flips_app; [apply flips_refl|exact Fd].
    + rewrite Hd. cbn. fold (yields k) (flattens src k). rewrite !app_assoc. reflexivity.
  - intros src pre ts st os Hne Hf Hn V.
    assert (Lts : 1 <= length ts) by (destruct ts; [congruence|simpl; lia]).
    destruct f; [lia|]. destruct n; [lia|].
    unfold coll_ok. cbn [fcollapsible collapsible]. rewrite eat_seq_ST.
    destruct (fseq [is_collapsible_start; is_space_or_eol] ts) as [[o r]|] eqn:Q.
    2:{ split; [apply flips_refl|reflexivity]. }
    apply fseq_app in Q. destruct Q as (-> & Lo & Fo). simpl in Lo. clear Hne.
    destruct o as [|o1 o']; [discriminate|].
    assert (Ho1 : is_collapsible_start o1 = true) by (inversion Fo; assumption).
    do_span pre (o1 :: o') r. rewrite push_ST. set (o := o1 :: o') in *.
    set (os1 := os ++ [new_start NCollapsible (content_of src o)]).
    destruct (opt_tree (fmodifier st r) r) as [k1 r1] eqn:K1.
    assert (V1 : vtok src ((pre ++ o) ++ r)) by vt.
    destruct (refines_opt modifier fmodifier src (pre ++ o) r st os1 refines_modifier covers_modifier V1 k1 r1 K1)
      as (E1 & b1 & H1).
    rewrite H1. cbn [bind]. subst r. rewrite at_ST. cbn [pos ops ST].
    destruct (nth_is 0 col0 r1); cbn [negb].
    2:{ split.
        - unfold o. cbn [flip_head app]. constructor; [right; auto|apply flips_refl].
        - do 2 f_equal. rewrite (ahead_reset src pre (o ++ yields k1 ++ r1) st os).
          + unfold o. cbn [app]. rewrite flip_ST. reflexivity.
          + unfold os1. rewrite <- !app_assoc. eexists _, _, r1. split; [reflexivity|list_eq]. }
    assert (V2 : vtok src (((pre ++ o) ++ yields k1) ++ r1)) by vt.
    rewrite !app_length in Hf, Hn, Lts.
    destruct f; [lia|].
    assert (Hd : doc_ok f n src ((pre ++ o) ++ yields k1) r1 (StopCollapsibleEnd :: st)
                   ((os1 ++ flattens src k1) ++ [new_start NDocument no_content])).
    { assert (LF : f < S (S f)) by lia. apply (proj1 (IHf f LF n)); [lia|lia|exact V2]. }
    unfold with_eof.
    change (set_stack (StopCollapsibleEnd :: eof_stack (ST src ((pre ++ o) ++ yields k1) r1 st (os1 ++ flattens src k1)))
              (ST src ((pre ++ o) ++ yields k1) r1 st (os1 ++ flattens src k1)))
      with (ST src ((pre ++ o) ++ yields k1) r1 (StopCollapsibleEnd :: st) (os1 ++ flattens src k1)).
    cbn [document]. rewrite push_ST.
    unfold doc_ok in Hd. destruct (fdoc n (StopCollapsibleEnd :: st) r1) as [k2 r2]. destruct Hd as (Fd & Sd & Hd).
    rewrite Hd. cbn [bind]. rewrite push_ST. cbn [eof_stack ST].
    set (os2 := (((os1 ++ flattens src k1) ++ [new_start NDocument no_content]) ++ flattens src k2)
                ++ [new_end NDocument no_content]).
    set (pre2 := ((pre ++ o) ++ yields k1) ++ yields k2).
    change (set_stack (tl (StopCollapsibleEnd :: st)) (ST src pre2 r2 (StopCollapsibleEnd :: st) os2))
      with (ST src pre2 r2 st os2).
    destruct (match r2 with
              | e :: r3 => if is_eol e then ([Skip [e]], r3) else ([], r2)
              | [] => ([], r2) end) as [k3 r3] eqn:K3.
    assert (E3 : r2 = yields k3 ++ r3 /\ flattens src k3 = []
                 /\ snd (eat is_eol (ST src pre2 r2 st os2)) = ST src (pre2 ++ yields k3) r3 st os2).
    { rewrite eat_ST. destruct r2 as [|e r2'].
      - injection K3 as <- <-. cbn. rewrite !app_nil_r. auto.
      - destruct (is_eol e); injection K3 as <- <-; cbn; rewrite ?app_nil_r; auto. }
    destruct E3 as (E3 & F3 & H3). rewrite H3.
    rewrite eat_collapsible_end_ST.
    assert (Fall : flips (o ++ yields k1 ++ r1) (o ++ yields k1 ++ yields k2 ++ yields k3 ++ r3)).
    { apply flips_app; [apply flips_refl|]. apply flips_app; [apply flips_refl|]. rewrite <- E3. exact Fd. }
    destruct (fcollapsible_end r3) as [[c rest]|] eqn:CE.
    + apply fcollapsible_end_app in CE. destruct CE as [-> Lc].
      assert (V3 : vtok src ((pre2 ++ yields k3) ++ c ++ rest)).
      { unfold pre2. rewrite <- !app_assoc. eapply flips_vtok_app; [exact Fall|exact V]. }
      assert (V4 : vtok src (((pre2 ++ yields k3) ++ c) ++ rest)) by (rewrite <- app_assoc; exact V3).
      do_span (pre2 ++ yields k3) c rest. rewrite push_ST.
      assert (Y : yield (Node NCollapsible o (k1 ++ [Node NDocument [] k2 []] ++ k3) c)
                  = o ++ yields k1 ++ yields k2 ++ yields k3 ++ c).
      { cbn [yield]. fold (yields (k1 ++ [Node NDocument [] k2 []] ++ k3)). rewrite !yields_app. cbn.
        fold (yields k2). rewrite !app_nil_r. list_eq. }
      cbn [app] in *. rewrite Y. split; [|split].
      * rewrite <- !app_assoc. exact Fall.
      * unfold o. simpl. lia.
      * do 2 f_equal. unfold ST. f_equal.
        -- unfold pre2. list_eq.
        -- unfold pre2. len_eq.
        -- cbn [flatten]. change (Node NDocument [] k2 [] :: k3) with ([Node NDocument [] k2 []] ++ k3).
           fold (flattens src (k1 ++ [Node NDocument [] k2 []] ++ k3)).
           rewrite !flattens_app, F3. unfold os2, os1. cbn [flattens flat_map flatten]. fold (flattens src k2).
           change (content_of src []) with no_content. rewrite !app_nil_r. list_eq.
    + split.
      * eapply flips_trans; [exact Fall|]. unfold o. cbn [flip_head app].
        constructor; [right; auto|apply flips_refl].
      * do 2 f_equal. rewrite (ahead_reset src pre (o ++ yields k1 ++ yields k2 ++ yields k3 ++ r3) st os).
        -- unfold o. cbn [app]. rewrite flip_ST. reflexivity.
        -- unfold pre2, os2, os1. rewrite <- !app_assoc. eexists _, _, r3. split; [reflexivity|list_eq].
Qed.

(** ** The whole parser *)

Lemma vtok_lex : forall s, vtok s (spec_tokens s).
Proof.
  intros s. apply Forall_forall. intros t Ht. apply In_nth_error in Ht. destruct Ht as [i Hi].
  destruct (token_text_piece s _ i t (lex_correct s) Hi) as (p & _ & H & _). eauto.
Qed.

Theorem parse_refines : forall s,
  parse s = Ok (flattens s (fparse (spec_tokens s)))
  /\ flips (spec_tokens s) (yields (fparse (spec_tokens s))).
Proof.
  intros s. unfold parse, parser_from, fparse. rewrite lex_correct. cbn [bind].
  set (ts := spec_tokens s).
  change (mk_parser s ts 0 [] []) with (ST s [] ts [] []).
  assert (V : vtok s ([] ++ ts)) by apply vtok_lex.
  destruct (opt_tree (fmetadata [] ts) ts) as [k1 r1] eqn:K1.
  destruct (refines_opt metadata fmetadata s [] ts [] [] (refines_delim _ _ _) (covers_delim _ _ _) V k1 r1 K1)
    as (E1 & b & H1).
  rewrite H1. cbn [bind]. cbn [app] in *.
  set (fu := 3 * length (tokens (ST s (yields k1) r1 [] (flattens s k1))) + 5).
  assert (Hfu : 3 * length r1 + 4 < fu).
  { unfold fu. cbn [tokens ST]. rewrite app_length. lia. }
  destruct fu as [|fu]; [lia|]. cbn [document]. rewrite push_ST.
  assert (V1 : vtok s (yields k1 ++ r1)) by (rewrite <- E1; exact V).
  destruct (docs_ok fu (3 * length r1 + 5)) as [D _].
  assert (L1 : 3 * length r1 < fu) by lia. assert (L2 : 3 * length r1 < 3 * length r1 + 5) by lia.
  specialize (D s (yields k1) r1 [] (flattens s k1 ++ [new_start NDocument no_content]) L1 L2 V1).
  unfold doc_ok in D. destruct (fdoc (3 * length r1 + 5) [] r1) as [k2 r2].
  destruct D as (F & S0 & D). rewrite D. cbn [bind]. rewrite push_ST. cbn [ops ST].
  assert (r2 = []) as ->.
  { destruct r2; [reflexivity|]. cbn in S0. discriminate. }
  rewrite app_nil_r in F. split.
  - f_equal. rewrite flattens_app. cbn [flattens flat_map flatten]. fold (flattens s k2).
    change (content_of s []) with no_content. rewrite app_nil_r. list_eq.
  - rewrite yields_app. cbn. fold (yields k2). rewrite !app_nil_r. rewrite E1.
    apply flips_app; [apply flips_refl|exact F].
Qed.
