(** No parser but that of collapsible blocks sees whether a [{%] was turned into a literal. *)
From Verif Require Import Base Lexer LexSpec LexProofs LexFacts Ops Parser FParser Refine Refine2 Refine3 Wf TokFacts.

(** ** Predicates *)

Definition blind {A} (p : token -> A) : Prop := forall t u, flip t u -> p t = p u.
Ltac unseen := intros t u [->|[K ->]]; [reflexivity|]; unfold is_collapsible_start in K; apply andb_true_iff in K; destruct K as [K _]; apply kind_eqb_eq in K;
  cbv beta delta [is_list_marker list_kind_of is_space_1 is_eol is_terminator is_three_dashes is_left_bracket is_right_bracket is_underscore is_tilde is_star is_backtick is_left_paren is_star2
    is_hash is_bang is_eol_or_terminator is_dash5 is_indent is_two_bangs is_one_bang is_left_curly2 is_pipe is_right_curly2 is_backtick3 is_collapsible_end is_space_or_eol];
  cbn [kind literal_of]; rewrite ?K; reflexivity.
Lemma col0_blind : blind col0. Proof. unseen. Qed.
Lemma list_kind_blind : blind list_kind_of. Proof. unseen. Qed.
Lemma space_1_blind : blind is_space_1. Proof. unseen. Qed.
Lemma eol_blind : blind is_eol. Proof. unseen. Qed.
Lemma terminator_blind : blind is_terminator. Proof. unseen. Qed.
Lemma three_dashes_blind : blind is_three_dashes. Proof. unseen. Qed.
Lemma left_bracket_blind : blind is_left_bracket. Proof. unseen. Qed.
Lemma right_bracket_blind : blind is_right_bracket. Proof. unseen. Qed.
Lemma underscore_blind : blind is_underscore. Proof. unseen. Qed.
Lemma tilde_blind : blind is_tilde. Proof. unseen. Qed.
Lemma star_blind : blind is_star. Proof. unseen. Qed.
Lemma backtick_blind : blind is_backtick. Proof. unseen. Qed.
Lemma left_paren_blind : blind is_left_paren. Proof. unseen. Qed.
Lemma star2_blind : blind is_star2. Proof. unseen. Qed.
Lemma hash_blind : blind is_hash. Proof. unseen. Qed.
Lemma bang_blind : blind is_bang. Proof. unseen. Qed.
Lemma eol_or_terminator_blind : blind is_eol_or_terminator. Proof. unseen. Qed.
Lemma dash5_blind : blind is_dash5. Proof. unseen. Qed.
Lemma two_bangs_blind : blind is_two_bangs. Proof. unseen. Qed.
Lemma one_bang_blind : blind is_one_bang. Proof. unseen. Qed.
Lemma left_curly2_blind : blind is_left_curly2. Proof. unseen. Qed.
Lemma pipe_blind : blind is_pipe. Proof. unseen. Qed.
Lemma right_curly2_blind : blind is_right_curly2. Proof. unseen. Qed.
Lemma backtick3_blind : blind is_backtick3. Proof. unseen. Qed.
Lemma coll_end_blind : blind is_collapsible_end. Proof. unseen. Qed.
Lemma space_or_eol_blind : blind is_space_or_eol. Proof. unseen. Qed.
Lemma indent_blind : forall l, blind (is_indent l). Proof. intros l. unseen. Qed.
Lemma marker_blind : forall k, blind (is_list_marker k). Proof. intros k t u F. unfold is_list_marker. rewrite (list_kind_blind t u F). reflexivity. Qed.
Lemma space1_or_eol_blind : blind (fun t => is_space_1 t || is_eol t).
Proof. intros t u S. rewrite (space_1_blind t u S), (eol_blind t u S). reflexivity. Qed.
#[local] Hint Resolve col0_blind list_kind_blind space_1_blind eol_blind terminator_blind three_dashes_blind left_bracket_blind right_bracket_blind underscore_blind tilde_blind star_blind backtick_blind left_paren_blind star2_blind hash_blind bang_blind eol_or_terminator_blind dash5_blind two_bangs_blind one_bang_blind left_curly2_blind pipe_blind right_curly2_blind backtick3_blind coll_end_blind space_or_eol_blind indent_blind marker_blind space1_or_eol_blind flip_refl : blind.

(** ** Lists of tokens and trees *)

Notation kins := (Forall2 flip).
Lemma kins_app : forall a b c d, kins a b -> kins c d -> kins (a ++ c) (b ++ d).
Proof. intros. apply Forall2_app; assumption. Qed.
Lemma nth_blind : forall p i ts us, blind p -> kins ts us -> nth_is i p ts = nth_is i p us.
Proof.
  intros p i ts us B S. unfold nth_is. revert i. induction S as [|t u ts us H S IH]; intros [|i]; cbn; auto.
Qed.
Lemma boundary_blind : forall l k ts us, kins ts us -> boundary_at l k ts = boundary_at l k us.
Proof.
  intros l k ts us S. unfold boundary_at. rewrite !(nth_blind _ _ ts us) by eauto with blind. reflexivity.
Qed.
Lemma fmatches_blind : forall c ts us, kins ts us -> fmatches c ts = fmatches c us.
Proof.
  intros c ts us S. destruct c; cbn [fmatches]; rewrite ?(nth_blind _ _ ts us) by eauto with blind; try reflexivity.
  f_equal. induction (seq 0 (Datatypes.S (level + 1))) as [|x l IHl]; [reflexivity|]. cbn [existsb]. rewrite (boundary_blind _ _ ts us S), IHl. reflexivity.
Qed.
Lemma stopped_blind : forall st ts us, kins ts us -> stopped st ts = stopped st us.
Proof.
  intros st ts us S. destruct S as [|t u ts us H S]; [reflexivity|]. unfold stopped. assert (S' : kins (t :: ts) (u :: us)) by (constructor; assumption).
  induction st as [|c st IH]; [reflexivity|]. cbn [existsb]. rewrite (fmatches_blind c _ _ S'), IH. reflexivity.
Qed.

Inductive twins : tree -> tree -> Prop :=
| twins_leaf : forall a b, kins a b -> twins (Leaf a) (Leaf b)
| twins_skip : forall a b, kins a b -> twins (Skip a) (Skip b)
| twins_node : forall n o o' k k' c c', kins o o' -> Forall2 twins k k' -> kins c c' -> twins (Node n o k c) (Node n o' k' c').
#[local] Hint Constructors twins Forall2 : blind.

Definition both_opt {A} (R : A -> A -> Prop) (a b : option A) : Prop :=
  match a, b with Some x, Some y => R x y | None, None => True | _, _ => False end.
Definition cut_rel (x y : list token * token * list token) : Prop :=
  let '(b, c, r) := x in let '(b', c', r') := y in kins b b' /\ flip c c' /\ kins r r'.
Definition tree_rel (x y : tree * list token) : Prop := twins (fst x) (fst y) /\ kins (snd x) (snd y).
Definition trees_rel (x y : list tree * list token) : Prop := Forall2 twins (fst x) (fst y) /\ kins (snd x) (snd y).
Definition toks_rel (x y : list token * list token) : Prop := kins (fst x) (fst y) /\ kins (snd x) (snd y).
Definition fair (g : fparser) : Prop := forall st ts us, kins ts us -> both_opt tree_rel (g st ts) (g st us).

Lemma until_rel : forall st m ts us, blind m -> kins ts us -> both_opt cut_rel (until st m ts) (until st m us).
Proof.
  intros st m ts us B S. induction S as [|t u ts us H S IH]; [exact I|]. cbn [until].
  rewrite (stopped_blind st (t :: ts) (u :: us)) by (constructor; assumption). destruct (stopped st (u :: us)); [exact I|]. rewrite (B t u H). destruct (m u).
  - cbn. auto 12 with blind.
  - destruct (until st m ts) as [[[b c] r]|], (until st m us) as [[[b' c'] r']|]; cbn in *; try contradiction; auto.
    destruct IH as (I1 & I2 & I3). auto 12 with blind.
Qed.
Lemma fair_orelse : forall f g, fair f -> fair g -> fair (forelse f g).
Proof.
  intros f g F G st ts us S. unfold forelse. pose proof (F st ts us S) as X. destruct (f st ts), (f st us); try contradiction; [exact X|]. apply G. exact S.
Qed.
Lemma leaf_twins : forall a b, kins a b -> Forall2 twins (leaf a) (leaf b).
Proof. intros a b S. destruct S; cbn; auto 12 with blind. Qed.

Lemma fair_delim : forall n f g, blind f -> blind g -> fair (fdelim n f g).
Proof.
  intros n f g F G st ts us S. destruct S as [|t u ts us H S]; [exact I|]. cbn. rewrite (F t u H). destruct (f u); [|exact I].
  pose proof (until_rel st g ts us G S) as X. destruct (until st g ts) as [[[b c] r]|], (until st g us) as [[[b' c'] r']|]; cbn in *; try contradiction; auto.
  destruct X as (X1 & X2 & X3). split; cbn; auto 12 with blind.
Qed.
Lemma fair_metadata : fair fmetadata. Proof. apply fair_delim; auto 12 with blind. Qed.
Lemma fair_title : fair ftitle. Proof. apply fair_delim; auto 12 with blind. Qed.
Lemma fair_italic : fair fitalic. Proof. apply fair_delim; auto 12 with blind. Qed.
Lemma fair_strike : fair fstrike. Proof. apply fair_delim; auto 12 with blind. Qed.
Lemma fair_emphasis : fair femphasis. Proof. apply fair_delim; auto 12 with blind. Qed.
Lemma fair_code_span : fair fcode_span. Proof. apply fair_delim; auto 12 with blind. Qed.

Lemma dest_scan_rel : forall st ts us n, kins ts us -> both_opt cut_rel (dest_scan st n ts) (dest_scan st n us).
Proof.
  intros st ts us n S. revert n. induction S as [|t u ts us H S IH]; intros n; [exact I|]. cbn [dest_scan].
  rewrite (stopped_blind st (t :: ts) (u :: us)) by (constructor; assumption). destruct (stopped st (u :: us)); [exact I|]. 
  assert (M : forall n, both_opt cut_rel match dest_scan st n ts with Some (b, c, rest) => Some (t :: b, c, rest) | None => None end
                                         match dest_scan st n us with Some (b, c, rest) => Some (u :: b, c, rest) | None => None end).
  { intros m. specialize (IH m). destruct (dest_scan st m ts) as [[[b c] r]|], (dest_scan st m us) as [[[b' c'] r']|]; cbn in *; try contradiction; auto.
    destruct IH as (I1 & I2 & I3). auto 12 with blind. }
  assert (P : kind t = kind u \/ (kind t = CollapsibleStart /\ kind u = Literal)).
  { destruct H as [->|[K ->]]; [left; reflexivity|right]. unfold is_collapsible_start in K. apply andb_true_iff in K. destruct K as [K _]. apply kind_eqb_eq in K. auto. }
  destruct P as [P|[P1 P2]]; [rewrite P|rewrite P1, P2; apply M].
  destruct (kind u); try apply M. destruct (n - 1 =? 0); [cbn; auto 12 with blind|]. specialize (M (n - 1)).
  destruct (dest_scan st (n - 1) ts) as [[[b c] r]|], (dest_scan st (n - 1) us) as [[[b' c'] r']|]; cbn in *; try contradiction; auto 12 with blind.
Qed.
Lemma fair_dest : fair fdest.
Proof.
  intros st ts us S. destruct S as [|t u ts us H S]; [exact I|]. cbn [fdest]. rewrite (left_paren_blind t u H). destruct (is_left_paren u); [|exact I].
  pose proof (dest_scan_rel st ts us 1 S) as X. destruct (dest_scan st 1 ts) as [[[b c] r]|], (dest_scan st 1 us) as [[[b' c'] r']|]; cbn in *; try contradiction; auto.
  destruct X as (X1 & X2 & X3). split; cbn; auto 12 with blind.
Qed.

(** The result of a parser on both sides. *)
Ltac fstep F S := let X := fresh "X" in pose proof (F _ _ _ S) as X;
  match type of X with both_opt _ ?a ?b => destruct a as [[? ?]|], b as [[? ?]|]; cbn in X; try contradiction; try (exact I); try (destruct X as [? ?]; cbn [fst snd] in * ) end.

Lemma fair_anchor : fair fanchor.
Proof.
  intros st ts us S. unfold fanchor. pose proof (fair_title st ts us S) as X. destruct (ftitle st ts) as [[t1 r1]|], (ftitle st us) as [[u1 q1]|]; cbn in X; try contradiction; [|exact I].
  destruct X as [X1 X2]. cbn in X1, X2. pose proof (fair_dest st r1 q1 X2) as Y. destruct (fdest st r1) as [[t2 r2]|], (fdest st q1) as [[u2 q2]|]; cbn in Y; try contradiction; [|exact I].
  destruct Y as [Y1 Y2]. split; cbn in *; auto 12 with blind.
Qed.

Lemma fair_strike_italic : fair (forelse fstrike fitalic).
Proof. apply fair_orelse; [apply fair_strike|apply fair_italic]. Qed.

Definition close_rel (x y : list tree * token * list token) : Prop :=
  let '(k, c, r) := x in let '(k', c', r') := y in Forall2 twins k k' /\ flip c c' /\ kins r r'.
Lemma bold_loop_rel : forall n st acc acc' ts us, kins acc acc' -> kins ts us -> both_opt close_rel (fbold_loop n st acc ts) (fbold_loop n st acc' us).
Proof.
  induction n; intros st acc acc' ts us A S; [exact I|]. pose proof S as S0. destruct S as [|t u ts us H S]; [exact I|]. cbn [fbold_loop].
  rewrite (stopped_blind st _ _ S0). destruct (stopped st (u :: us)); [exact I|]. rewrite (star2_blind t u H). destruct (is_star2 u).
  - cbn. auto 12 using leaf_twins with blind.
  - pose proof (fair_strike_italic st _ _ S0) as X. destruct (forelse fstrike fitalic st (t :: ts)) as [[x r]|], (forelse fstrike fitalic st (u :: us)) as [[x' r']|]; cbn in X; try contradiction.
    + destruct X as [X1 X2]. cbn in X1, X2. specialize (IHn st [] [] r r' (Forall2_nil _) X2).
      destruct (fbold_loop n st [] r) as [[[k c] q]|], (fbold_loop n st [] r') as [[[k' c'] q']|]; cbn in *; try contradiction; auto.
      destruct IHn as (I1 & I2 & I3). split; [|auto]. apply Forall2_app; auto 12 using leaf_twins with blind.
    + apply IHn; [apply kins_app; auto 12 with blind|exact S].
Qed.
Lemma fair_bold : fair fbold.
Proof.
  intros st ts us S. destruct S as [|t u ts us H S]; [exact I|]. cbn [fbold]. rewrite (star2_blind t u H). destruct (is_star2 u); [|exact I].
  rewrite (flips_length _ _ S). pose proof (bold_loop_rel (Datatypes.S (length us)) st [] [] ts us (Forall2_nil _) S) as X.
  destruct (fbold_loop _ st [] ts) as [[[k c] q]|], (fbold_loop _ st [] us) as [[[k' c'] q']|]; cbn in *; try contradiction; auto.
  destruct X as (X1 & X2 & X3). split; cbn; auto 12 with blind.
Qed.
Lemma fair_inline : fair finline.
Proof. repeat (apply fair_orelse; [auto using fair_strike, fair_italic, fair_bold, fair_anchor, fair_code_span|]). apply fair_emphasis. Qed.

Lemma items_rel : forall g n st acc acc' ts us, fair g -> kins acc acc' -> kins ts us -> trees_rel (fitems g n st acc ts) (fitems g n st acc' us).
Proof.
  intros g n. induction n; intros st acc acc' ts us G A S; [split; cbn; auto 12 with blind|]. cbn [fitems]. rewrite (stopped_blind st _ _ S).
  destruct (stopped st us); [split; cbn; auto using leaf_twins|]. pose proof (G st _ _ S) as X. destruct (g st ts) as [[x r]|], (g st us) as [[x' r']|]; cbn in X; try contradiction.
  - destruct X as [X1 X2]. cbn in X1, X2. specialize (IHn st [] [] r r' G (Forall2_nil _) X2). destruct (fitems g n st [] r) as [k q], (fitems g n st [] r') as [k' q'].
    destruct IHn as [I1 I2]. split; cbn in *; [|exact I2]. apply Forall2_app; auto 12 using leaf_twins with blind.
  - destruct S as [|t u ts us H S]; [split; cbn; auto 12 using leaf_twins with blind|]. apply IHn; auto. apply kins_app; auto 12 with blind.
Qed.
Lemma paragraph_rel : forall st ts us, kins ts us -> tree_rel (fparagraph st ts) (fparagraph st us).
Proof.
  intros st ts us S. unfold fparagraph. rewrite (flips_length _ _ S). pose proof (items_rel finline (Datatypes.S (length us)) st [] [] ts us fair_inline (Forall2_nil _) S) as X.
  destruct (fitems finline _ st [] ts) as [k r], (fitems finline _ st [] us) as [k' r']. destruct X as [X1 X2]. split; cbn in *; auto 12 with blind.
Qed.

(** ** Blocks *)

Lemma fair_heading : fair fheading.
Proof.
  intros st ts us S. destruct S as [|t u ts us H S]; [exact I|]. destruct S as [|t2 u2 ts us H2 S]; [exact I|]. cbn [fheading].
  rewrite (hash_blind t u H), (space_1_blind t2 u2 H2). destruct (is_hash u && is_space_1 u2); [|exact I].
  rewrite (flips_length _ _ S). pose proof (items_rel fanchor (Datatypes.S (length us)) st [] [] ts us fair_anchor (Forall2_nil _) S) as X.
  destruct (fitems fanchor _ st [] ts) as [k r], (fitems fanchor _ st [] us) as [k' r']. destruct X as [X1 X2]. split; cbn in *; auto 12 with blind.
Qed.
Lemma fair_image : fair fimage.
Proof.
  intros st ts us S. destruct S as [|t u ts us H S]; [exact I|]. cbn [fimage]. rewrite (bang_blind t u H). destruct (is_bang u); [|exact I].
  pose proof (fair_title st ts us S) as X. destruct (ftitle st ts) as [[t1 r1]|], (ftitle st us) as [[u1 q1]|]; cbn in X; try contradiction; [|exact I].
  destruct X as [X1 X2]. cbn in X1, X2. pose proof (fair_dest st r1 q1 X2) as Y. destruct (fdest st r1) as [[t2 r2]|], (fdest st q1) as [[u2 q2]|]; cbn in Y; try contradiction; [|exact I].
  destruct Y as [Y1 Y2]. cbn in Y1, Y2. pose proof Y2 as Y0. destruct Y2 as [|e e' r3 q3 He Y2]; [split; cbn; auto 12 with blind|].
  rewrite (eol_blind e e' He). destruct (is_eol e'); [split; cbn; auto 12 with blind|]. rewrite (stopped_blind st _ _ Y0). destruct (stopped st (e' :: q3)); [split; cbn; auto 12 with blind|exact I].
Qed.
Lemma images_loop_rel : forall n st ts us, kins ts us -> both_opt trees_rel (fimages_loop n st ts) (fimages_loop n st us).
Proof.
  induction n; intros st ts us S; [exact I|]. pose proof S as S0. destruct S as [|t u ts us H S]; [split; cbn; auto 12 with blind|]. cbn [fimages_loop].
  pose proof (fair_image st _ _ S0) as X. destruct (fimage st (t :: ts)) as [[x r]|], (fimage st (u :: us)) as [[x' r']|]; cbn in X; try contradiction.
  - destruct X as [X1 X2]. cbn in X1, X2. specialize (IHn st r r' X2). destruct (fimages_loop n st r) as [[k q]|], (fimages_loop n st r') as [[k' q']|]; cbn in *; try contradiction; auto.
    destruct IHn as [I1 I2]. split; cbn in *; auto 12 with blind.
  - rewrite (stopped_blind st _ _ S0). destruct (stopped st (u :: us)); [split; cbn; auto 12 with blind|exact I].
Qed.
Lemma fair_images : fair fimages.
Proof.
  intros st ts us S. unfold fimages. rewrite (flips_length _ _ S). pose proof (images_loop_rel (Datatypes.S (length us)) st ts us S) as X.
  destruct (fimages_loop _ st ts) as [[k q]|], (fimages_loop _ st us) as [[k' q']|]; cbn in X; try contradiction; [|exact I].
  destruct X as [X1 X2]. cbn in X1, X2. destruct X1 as [|x x' k k' Hx X1]; [exact I|]. destruct X1 as [|y y' k k' Hy X1]; [split; cbn; auto|].
  split; cbn; auto 12 with blind.
Qed.
Lemma fair_modifier : fair fmodifier.
Proof.
  intros st ts us S. unfold fmodifier. rewrite (nth_blind col0 0 ts us) by auto 12 with blind. destruct (nth_is 0 col0 us); [exact I|].
  pose proof (until_rel st is_eol_or_terminator ts us eol_or_terminator_blind S) as X.
  destruct (until st is_eol_or_terminator ts) as [[[b c] r]|], (until st is_eol_or_terminator us) as [[[b' c'] r']|]; cbn in *; try contradiction; auto.
  destruct X as (X1 & X2 & X3). split; cbn; auto 12 with blind.
Qed.
Lemma fair_break : fair fbreak.
Proof.
  intros st ts us S. destruct S as [|t u ts us H S]; [exact I|]. cbn [fbreak]. rewrite (dash5_blind t u H). destruct (is_dash5 u); [split; cbn; auto 12 with blind|exact I].
Qed.
Lemma seq_rel : forall preds ts us, Forall blind preds -> kins ts us -> both_opt toks_rel (fseq preds ts) (fseq preds us).
Proof.
  intros preds. induction preds as [|f preds IH]; intros ts us B S; [split; cbn; auto 12 with blind|]. inversion B as [|? ? Bf B']; subst. cbn [fseq].
  destruct S as [|t u ts us H S]; [exact I|]. rewrite (Bf t u H). destruct (f u); [|exact I]. specialize (IH ts us B' S).
  destruct (fseq preds ts) as [[a b]|], (fseq preds us) as [[a' b']|]; cbn in *; try contradiction; auto. destruct IH as [I1 I2]. split; cbn in *; auto 12 with blind.
Qed.
Lemma marker_preds_blind : forall l k, Forall blind (marker_preds l k).
Proof. intros l k. unfold marker_preds. destruct (l =? 0); auto 12 with blind. Qed.

Definition item_rel (x y : list_kind * tree * list token) : Prop :=
  let '(a, t, r) := x in let '(a', t', r') := y in a = a' /\ twins t t' /\ kins r r'.
Lemma lists_rel : forall n,
  (forall l k st ts us, kins ts us -> both_opt item_rel (fitem n l k st ts) (fitem n l k st us))
  /\ (forall l st ts us, kins ts us -> both_opt item_rel (flist n l st ts) (flist n l st us))
  /\ (forall l lk st ts us, kins ts us -> trees_rel (flist_items n l lk st ts) (flist_items n l lk st us)).
Proof.
  induction n as [|n (IH1 & IH2 & IH3)].
  - split; [|split]; intros; try exact I. split; cbn; auto 12 with blind.
  - split; [|split].
    + intros l k st ts us S. cbn [fitem]. rewrite (nth_blind col0 0 ts us) by auto 12 with blind. destruct (negb (nth_is 0 col0 us)); [exact I|].
      assert (N : both_opt flip (nth_error ts (if l =? 0 then 0 else 1)) (nth_error us (if l =? 0 then 0 else 1))).
      { generalize (if l =? 0 then 0 else 1). clear - S. induction S as [|t u ts us H S IH]; intros [|i]; cbn; auto. }
      destruct (nth_error ts (if l =? 0 then 0 else 1)) as [m|], (nth_error us (if l =? 0 then 0 else 1)) as [m'|]; cbn in N; try contradiction; [|exact I].
      rewrite (list_kind_blind m m' N). destruct (list_kind_of m') as [mk|]; [|exact I].
      pose proof (seq_rel (marker_preds l k) ts us (marker_preds_blind l k) S) as X. destruct (fseq (marker_preds l k) ts) as [[o r]|], (fseq (marker_preds l k) us) as [[o' r']|]; cbn in X; try contradiction; [|exact I].
      destruct X as [X1 X2]. cbn in X1, X2. pose proof (paragraph_rel (StopListBoundary l mk :: st) r r' X2) as Y.
      destruct (fparagraph (StopListBoundary l mk :: st) r) as [par r1], (fparagraph (StopListBoundary l mk :: st) r') as [par' r1']. destruct Y as [Y1 Y2]. cbn in Y1, Y2.
      rewrite (stopped_blind st _ _ Y2). destruct (negb (stopped st r1')); [|cbn; auto 12 with blind].
      specialize (IH2 (l + 1) st r1 r1' Y2). destruct (flist n (l + 1) st r1) as [[[a x] r2]|], (flist n (l + 1) st r1') as [[[a' x'] r2']|]; cbn in *; try contradiction; auto 12 with blind.
      destruct IH2 as (I1 & I2 & I3). auto 12 with blind.
    + intros l st ts us S. cbn [flist]. specialize (IH1 l None st ts us S). destruct (fitem n l None st ts) as [[[a x] r]|], (fitem n l None st us) as [[[a' x'] r']|]; cbn in IH1; try contradiction; [|exact I].
      destruct IH1 as (-> & I2 & I3). specialize (IH3 l a' st r r' I3). destruct (flist_items n l a' st r) as [k q], (flist_items n l a' st r') as [k' q']. destruct IH3 as [J1 J2].
      cbn in *. auto 12 with blind.
    + intros l lk st ts us S. cbn [flist_items]. specialize (IH1 l (Some lk) st ts us S). destruct (fitem n l (Some lk) st ts) as [[[a x] r]|], (fitem n l (Some lk) st us) as [[[a' x'] r']|]; cbn in IH1; try contradiction; [|split; cbn; auto 12 with blind].
      destruct IH1 as (-> & I2 & I3). specialize (IH3 l lk st r r' I3). destruct (flist_items n l lk st r) as [k q], (flist_items n l lk st r') as [k' q']. destruct IH3 as [J1 J2].
      split; cbn in *; auto 12 with blind.
Qed.
Lemma fair_list : fair flist0.
Proof.
  intros st ts us S. unfold flist0. rewrite (flips_length _ _ S). pose proof (proj1 (proj2 (lists_rel (2 * length us + 3))) 0 st ts us S) as X.
  destruct (flist _ 0 st ts) as [[[a x] r]|], (flist _ 0 st us) as [[[a' x'] r']|]; cbn in X; try contradiction; [|exact I]. destruct X as (_ & X2 & X3). split; assumption.
Qed.
Lemma fair_icon : fair ficon.
Proof.
  intros st ts us S. unfold ficon. pose proof (seq_rel [is_one_bang; is_space_1] ts us ltac:(auto 12 with blind) S) as X.
  destruct (fseq _ ts) as [[o r]|], (fseq _ us) as [[o' r']|]; cbn in X; try contradiction; [|exact I]. destruct X as [X1 X2]. cbn in X1, X2.
  pose proof (until_rel st is_eol r r' eol_blind X2) as Y. destruct (until st is_eol r) as [[[b c] q]|], (until st is_eol r') as [[[b' c'] q']|]; cbn in Y; try contradiction; [|exact I].
  destruct Y as (Y1 & Y2 & Y3). split; cbn; auto 12 with blind.
Qed.
Lemma with_eol_rel : forall c c' ts us, flip c c' -> kins ts us -> toks_rel (with_eol c ts) (with_eol c' us).
Proof.
  intros c c' ts us H S. destruct S as [|t u ts us Ht S]; [split; cbn; auto 12 with blind|]. cbn. rewrite (eol_blind t u Ht). destruct (is_eol u); split; cbn; auto 12 with blind.
Qed.
Definition hl_rel (x y : list tree * list token * list token) : Prop :=
  let '(k, c, r) := x in let '(k', c', r') := y in Forall2 twins k k' /\ kins c c' /\ kins r r'.
Lemma highlight_loop_rel : forall n st ts us, kins ts us -> both_opt hl_rel (fhighlight_loop n st ts) (fhighlight_loop n st us).
Proof.
  induction n; intros st ts us S; [exact I|]. pose proof S as S0. destruct S as [|t u ts us H S]; [exact I|]. cbn [fhighlight_loop].
  rewrite (stopped_blind st _ _ S0). destruct (stopped st (u :: us)); [exact I|]. rewrite (two_bangs_blind t u H). destruct (is_two_bangs u).
  - pose proof (with_eol_rel t u ts us H S) as X. destruct (with_eol t ts) as [c r], (with_eol u us) as [c' r']. destruct X as [X1 X2]. cbn in *. auto 12 with blind.
  - rewrite (terminator_blind t u H).
    assert (X : exists l l' r r', Forall2 twins l l' /\ kins r r' /\ (if is_terminator u then ([Leaf [t]], ts) else ([], t :: ts)) = (l, r) /\ (if is_terminator u then ([Leaf [u]], us) else ([], u :: us)) = (l', r')).
    { destruct (is_terminator u); repeat eexists; auto 12 with blind. }
    destruct X as (l & l' & r & r' & X1 & X2 & -> & ->). pose proof (paragraph_rel (StopTerminator :: StopHighlightEnd :: st) r r' X2) as Y.
    destruct (fparagraph _ r) as [par q], (fparagraph _ r') as [par' q']. destruct Y as [Y1 Y2]. cbn in Y1, Y2. specialize (IHn st q q' Y2).
    destruct (fhighlight_loop n st q) as [[[k c] z]|], (fhighlight_loop n st q') as [[[k' c'] z']|]; cbn in *; try contradiction; auto.
    destruct IHn as (I1 & I2 & I3). split; [apply Forall2_app; auto 12 with blind|auto].
Qed.
Lemma opt_tree_rel : forall o o' ts us, both_opt tree_rel o o' -> kins ts us -> trees_rel (opt_tree o ts) (opt_tree o' us).
Proof.
  intros [[x r]|] [[x' r']|] ts us H S; cbn in H; try contradiction; [destruct H as [H1 H2]|]; split; cbn in *; auto 12 with blind.
Qed.
Lemma last_rel : forall a b d, kins a b -> flip (last a d) (last b d).
Proof.
  intros a b d S. induction S as [|t u ts us H S IH]; [apply flip_refl|]. cbn. destruct S; [exact H|exact IH].
Qed.
Lemma fair_highlight : fair fhighlight.
Proof.
  intros st ts us S. unfold fhighlight. pose proof (seq_rel [is_two_bangs; fun t => is_space_1 t || is_eol t] ts us ltac:(auto 12 with blind) S) as X.
  destruct (fseq _ ts) as [[o r]|], (fseq _ us) as [[o' r']|]; cbn in X; try contradiction; [|exact I]. destruct X as [X1 X2]. cbn in X1, X2.
  cbv zeta. rewrite (eol_blind _ _ (last_rel o o' (mk_token Literal 0 0 (mk_pos 0 0 0) false) X1)).
  set (b := negb (is_eol (last o' (mk_token Literal 0 0 (mk_pos 0 0 0) false)))).
  assert (Y : trees_rel (if b then opt_tree (fmodifier st r) r else ([], r)) (if b then opt_tree (fmodifier st r') r' else ([], r'))).
  { destruct b; [apply opt_tree_rel; [apply fair_modifier; exact X2|exact X2]|split; cbn; auto 12 with blind]. }
  destruct (if b then opt_tree (fmodifier st r) r else ([], r)) as [k1 r1], (if b then opt_tree (fmodifier st r') r' else ([], r')) as [k1' r1']. destruct Y as [Y1 Y2]. cbn in Y1, Y2.
  pose proof (opt_tree_rel _ _ _ _ (fair_icon (StopTerminator :: st) r1 r1' Y2) Y2) as Z. destruct (opt_tree (ficon _ r1) r1) as [k2 r2], (opt_tree (ficon _ r1') r1') as [k2' r2'].
  destruct Z as [Z1 Z2]. cbn in Z1, Z2. rewrite (nth_blind col0 0 r2 r2') by auto 12 with blind. destruct (nth_is 0 col0 r2'); [|exact I]. rewrite (flips_length _ _ Z2).
  pose proof (highlight_loop_rel (Datatypes.S (length r2')) st r2 r2' Z2) as V. destruct (fhighlight_loop _ st r2) as [[[k c] q]|], (fhighlight_loop _ st r2') as [[[k' c'] q']|]; cbn in V; try contradiction; [|exact I].
  destruct V as (V1 & V2 & V3). split; cbn; [|exact V3]. constructor; auto. repeat apply Forall2_app; assumption.
Qed.
Lemma close_line_rel : forall st c c' ts us, flip c c' -> kins ts us -> both_opt toks_rel (fclose_line st c ts) (fclose_line st c' us).
Proof.
  intros st c c' ts us H S. pose proof S as S0. destruct S as [|t u ts us Ht S]; [split; cbn; auto 12 with blind|]. cbn [fclose_line].
  rewrite (eol_blind t u Ht), (terminator_blind t u Ht), (stopped_blind st _ _ S0). destruct (is_eol u); [split; cbn; auto 12 with blind|].
  destruct (stopped st (u :: us) || is_terminator u); [split; cbn; auto 12 with blind|exact I].
Qed.
Lemma fair_embed : fair fembed.
Proof.
  intros st ts us S. destruct S as [|t u ts us H S]; [exact I|]. cbn [fembed]. rewrite (left_curly2_blind t u H). destruct (is_left_curly2 u); [|exact I].
  pose proof (until_rel st is_pipe ts us pipe_blind S) as X. destruct (until st is_pipe ts) as [[[b c] r]|], (until st is_pipe us) as [[[b' c'] r']|]; cbn in X; try contradiction; [|exact I].
  destruct X as (X1 & X2 & X3). pose proof (until_rel st is_right_curly2 r r' right_curly2_blind X3) as Y.
  destruct (until st is_right_curly2 r) as [[[d e] q]|], (until st is_right_curly2 r') as [[[d' e'] q']|]; cbn in Y; try contradiction; [|exact I].
  destruct Y as (Y1 & Y2 & Y3). pose proof (close_line_rel st e e' q q' Y2 Y3) as Z. destruct (fclose_line st e q) as [[cl z]|], (fclose_line st e' q') as [[cl' z']|]; cbn in Z; try contradiction; [|exact I].
  destruct Z as [Z1 Z2]. split; cbn in *; auto 12 with blind.
Qed.
Lemma fence_rel : forall ts us, kins ts us -> both_opt toks_rel (ffence ts) (ffence us).
Proof.
  intros ts us S. unfold ffence. pose proof (seq_rel [is_backtick3; is_eol] ts us ltac:(auto 12 with blind) S) as X.
  destruct (fseq [is_backtick3; is_eol] ts), (fseq [is_backtick3; is_eol] us); cbn in X; try contradiction; [exact X|]. apply seq_rel; auto 12 with blind.
Qed.
Lemma fair_code : fair fcode.
Proof.
  intros st ts us S. unfold fcode. pose proof (fence_rel ts us S) as X. destruct (ffence ts) as [[o r]|], (ffence us) as [[o' r']|]; cbn in X; try contradiction; [|exact I].
  destruct X as [X1 X2]. cbn in X1, X2. cbv zeta. rewrite (eol_blind _ _ (last_rel o o' (mk_token Literal 0 0 (mk_pos 0 0 0) false) X1)).
  set (b := negb (is_eol (last o' (mk_token Literal 0 0 (mk_pos 0 0 0) false)))).
  assert (Y : trees_rel (if b then opt_tree (fmodifier [] r) r else ([], r)) (if b then opt_tree (fmodifier [] r') r' else ([], r'))).
  { destruct b; [apply opt_tree_rel; [apply fair_modifier; exact X2|exact X2]|split; cbn; auto 12 with blind]. }
  destruct (if b then opt_tree (fmodifier [] r) r else ([], r)) as [k1 r1], (if b then opt_tree (fmodifier [] r') r' else ([], r')) as [k1' r1']. destruct Y as [Y1 Y2]. cbn in Y1, Y2.
  pose proof (until_rel [] is_backtick3 r1 r1' backtick3_blind Y2) as Z. destruct (until [] is_backtick3 r1) as [[[d e] q]|], (until [] is_backtick3 r1') as [[[d' e'] q']|]; cbn in Z; try contradiction; [|exact I].
  destruct Z as (Z1 & Z2 & Z3). pose proof (close_line_rel st e e' q q' Z2 Z3) as V. destruct (fclose_line st e q) as [[cl z]|], (fclose_line st e' q') as [[cl' z']|]; cbn in V; try contradiction; [|exact I].
  destruct V as [V1 V2]. split; cbn in *; [|exact V2]. constructor; auto. apply Forall2_app; auto 12 with blind.
Qed.
Lemma collapsible_end_rel : forall ts us, kins ts us -> both_opt toks_rel (fcollapsible_end ts) (fcollapsible_end us).
Proof.
  intros ts us S. unfold fcollapsible_end. pose proof (seq_rel [is_collapsible_end; is_eol] ts us ltac:(auto 12 with blind) S) as X.
  destruct (fseq [is_collapsible_end; is_eol] ts), (fseq [is_collapsible_end; is_eol] us); cbn in X; try contradiction; [exact X|]. apply seq_rel; auto 12 with blind.
Qed.
Lemma simple_rel : forall st ts us, kins ts us -> tree_rel (fsimple st ts) (fsimple st us).
Proof.
  intros st ts us S. unfold fsimple. cbv zeta.
  assert (F : fair (forelse flist0 (forelse fimages (forelse fbreak fheading)))) by (repeat apply fair_orelse; auto using fair_list, fair_images, fair_break, fair_heading).
  pose proof (F (StopTerminator :: st) ts us S) as X. destruct (forelse _ _ _ ts), (forelse _ _ _ us); cbn in X; try contradiction; [exact X|]. apply paragraph_rel. exact S.
Qed.
Lemma twins_yield : forall t u, twins t u -> kins (yield t) (yield u).
Proof.
  fix IH 3. intros t u T. destruct T as [a b S|a b S|n o o' k k' c c' So Sk Sc]; [exact S|exact S|]. cbn. apply kins_app; [exact So|]. apply kins_app; [|exact Sc].
  induction Sk as [|x y k k' H Sk IHk]; [constructor|]. cbn. apply kins_app; [apply IH; exact H|exact IHk].
Qed.
Lemma twins_yields : forall k k', Forall2 twins k k' -> kins (yields k) (yields k').
Proof. intros k k' S. induction S; [constructor|]. cbn. apply kins_app; [apply twins_yield; assumption|assumption]. Qed.

