(** The parser looks only at the shape of the tokens: kind, start of line, length of runs. *)
From Verif Require Import Base Lexer LexSpec LexProofs LexFacts Ops Parser FParser Refine Refine2 Refine3 Wf TokFacts StreamSpec StreamProofs ShapeSpec.

(** ** Predicates *)

Definition blind {A} (p : token -> A) : Prop := forall t u, alike t u -> p t = p u.

Lemma len_blind : forall k n, sized k = true -> forall t u, alike t u -> kind_eqb (kind t) k && (tlen t =? n) = kind_eqb (kind u) k && (tlen u =? n).
Proof.
  intros k n Sk t u (K & _ & L). rewrite <- K. destruct (kind_eqb (kind t) k) eqn:E; [|reflexivity]. cbn. apply kind_eqb_eq in E. rewrite L by congruence. reflexivity.
Qed.
Lemma col_len_blind : forall k n, sized k = true -> forall t u, alike t u -> kind_eqb (kind t) k && col0 t && (tlen t =? n) = kind_eqb (kind u) k && col0 u && (tlen u =? n).
Proof.
  intros k n Sk t u (K & C & L). rewrite <- K, <- C. destruct (kind_eqb (kind t) k) eqn:E; [|reflexivity]. cbn. apply kind_eqb_eq in E. rewrite L by congruence. reflexivity.
Qed.
Lemma col0_blind : blind col0. Proof. intros t u (_ & C & _). exact C. Qed.
Lemma kind_blind : blind kind. Proof. intros t u (K & _ & _). exact K. Qed.
Lemma kindb_blind : forall k, blind (fun t => kind_eqb (kind t) k). Proof. intros k t u (K & _ & _). rewrite K. reflexivity. Qed.
Lemma list_kind_blind : blind list_kind_of.
Proof.
  intros t u S. unfold list_kind_of. rewrite (len_blind Minus 1 eq_refl t u S), (len_blind Plus 1 eq_refl t u S). reflexivity.
Qed.
Lemma marker_blind : forall k, blind (is_list_marker k).
Proof. intros k t u S. unfold is_list_marker. rewrite (list_kind_blind t u S). reflexivity. Qed.
Lemma space_1_blind : blind is_space_1. Proof. intros t u. apply len_blind. reflexivity. Qed.
Lemma eol_blind : blind is_eol. Proof. apply kindb_blind. Qed.
Lemma terminator_blind : blind is_terminator. Proof. apply kindb_blind. Qed.
Lemma three_dashes_blind : blind is_three_dashes. Proof. intros t u. apply col_len_blind. reflexivity. Qed.
Lemma left_bracket_blind : blind is_left_bracket. Proof. intros t u. apply len_blind. reflexivity. Qed.
Lemma right_bracket_blind : blind is_right_bracket. Proof. intros t u. apply len_blind. reflexivity. Qed.
Lemma underscore_blind : blind is_underscore. Proof. intros t u. apply len_blind. reflexivity. Qed.
Lemma tilde_blind : blind is_tilde. Proof. intros t u. apply len_blind. reflexivity. Qed.
Lemma star_blind : blind is_star. Proof. intros t u. apply len_blind. reflexivity. Qed.
Lemma backtick_blind : blind is_backtick. Proof. intros t u. apply len_blind. reflexivity. Qed.
Lemma left_paren_blind : blind is_left_paren. Proof. intros t u. apply len_blind. reflexivity. Qed.
Lemma star2_blind : blind is_star2. Proof. intros t u. apply len_blind. reflexivity. Qed.
Lemma hash_blind : blind is_hash.
Proof.
  intros t u (K & C & L). unfold is_hash. rewrite <- K, <- C. destruct (kind_eqb (kind t) Hash) eqn:E; [|reflexivity]. apply kind_eqb_eq in E.
  rewrite L by (rewrite E; reflexivity). reflexivity.
Qed.
Lemma bang_blind : blind is_bang. Proof. intros t u. apply len_blind. reflexivity. Qed.
Lemma eol_or_terminator_blind : blind is_eol_or_terminator.
Proof. intros t u (K & _ & _). unfold is_eol_or_terminator. rewrite K. reflexivity. Qed.
Lemma dash5_blind : blind is_dash5. Proof. intros t u. apply col_len_blind. reflexivity. Qed.
Lemma indent_blind : forall l, blind (is_indent l). Proof. intros l t u. apply len_blind. reflexivity. Qed.
Lemma two_bangs_blind : blind is_two_bangs. Proof. intros t u. apply col_len_blind. reflexivity. Qed.
Lemma one_bang_blind : blind is_one_bang. Proof. intros t u. apply col_len_blind. reflexivity. Qed.
Lemma left_curly2_blind : blind is_left_curly2. Proof. intros t u. apply col_len_blind. reflexivity. Qed.
Lemma pipe_blind : blind is_pipe. Proof. intros t u. apply len_blind. reflexivity. Qed.
Lemma right_curly2_blind : blind is_right_curly2. Proof. intros t u. apply len_blind. reflexivity. Qed.
Lemma backtick3_blind : blind is_backtick3. Proof. intros t u. apply col_len_blind. reflexivity. Qed.
Lemma coll_start_blind : blind is_collapsible_start.
Proof. intros t u (K & C & _). unfold is_collapsible_start. rewrite K, C. reflexivity. Qed.
Lemma coll_end_blind : blind is_collapsible_end.
Proof. intros t u (K & C & _). unfold is_collapsible_end. rewrite K, C. reflexivity. Qed.
Lemma space_or_eol_blind : blind is_space_or_eol.
Proof. intros t u (K & _ & _). unfold is_space_or_eol. rewrite K. reflexivity. Qed.
Lemma space1_or_eol_blind : blind (fun t => is_space_1 t || is_eol t).
Proof. intros t u S. rewrite (space_1_blind t u S), (eol_blind t u S). reflexivity. Qed.
Lemma literal_alike : forall t u, alike t u -> alike (literal_of t) (literal_of u).
Proof. intros t u (_ & C & _). split; [reflexivity|]. split; [exact C|discriminate]. Qed.
#[local] Hint Resolve col0_blind kind_blind marker_blind space_1_blind eol_blind terminator_blind three_dashes_blind left_bracket_blind right_bracket_blind
  underscore_blind tilde_blind star_blind backtick_blind left_paren_blind star2_blind hash_blind bang_blind eol_or_terminator_blind dash5_blind indent_blind
  two_bangs_blind one_bang_blind left_curly2_blind pipe_blind right_curly2_blind backtick3_blind coll_start_blind coll_end_blind space_or_eol_blind space1_or_eol_blind literal_alike : blind.

(** ** Lists of tokens and trees *)

Notation alikes := (Forall2 alike).
Lemma alikes_app : forall a b c d, alikes a b -> alikes c d -> alikes (a ++ c) (b ++ d).
Proof. intros. apply Forall2_app; assumption. Qed.
Lemma nth_blind : forall p i ts us, blind p -> alikes ts us -> nth_is i p ts = nth_is i p us.
Proof.
  intros p i ts us B S. unfold nth_is. revert i. induction S as [|t u ts us H S IH]; intros [|i]; cbn; auto.
Qed.
Lemma boundary_blind : forall l k ts us, alikes ts us -> boundary_at l k ts = boundary_at l k us.
Proof.
  intros l k ts us S. unfold boundary_at. rewrite !(nth_blind _ _ ts us) by eauto with blind. reflexivity.
Qed.
Lemma fmatches_blind : forall c ts us, alikes ts us -> fmatches c ts = fmatches c us.
Proof.
  intros c ts us S. destruct c; cbn [fmatches]; rewrite ?(nth_blind _ _ ts us) by eauto with blind; try reflexivity.
  f_equal. induction (seq 0 (Datatypes.S (level + 1))) as [|x l IHl]; [reflexivity|]. cbn [existsb]. rewrite (boundary_blind _ _ ts us S), IHl. reflexivity.
Qed.
Lemma stopped_blind : forall st ts us, alikes ts us -> stopped st ts = stopped st us.
Proof.
  intros st ts us S. destruct S as [|t u ts us H S]; [reflexivity|]. unfold stopped. assert (S' : alikes (t :: ts) (u :: us)) by (constructor; assumption).
  induction st as [|c st IH]; [reflexivity|]. cbn [existsb]. rewrite (fmatches_blind c _ _ S'), IH. reflexivity.
Qed.

Inductive twins : tree -> tree -> Prop :=
| twins_leaf : forall a b, alikes a b -> twins (Leaf a) (Leaf b)
| twins_skip : forall a b, alikes a b -> twins (Skip a) (Skip b)
| twins_node : forall n o o' k k' c c', alikes o o' -> Forall2 twins k k' -> alikes c c' -> twins (Node n o k c) (Node n o' k' c').
#[local] Hint Constructors twins Forall2 : blind.

Definition both_opt {A} (R : A -> A -> Prop) (a b : option A) : Prop :=
  match a, b with Some x, Some y => R x y | None, None => True | _, _ => False end.
Definition cut_rel (x y : list token * token * list token) : Prop :=
  let '(b, c, r) := x in let '(b', c', r') := y in alikes b b' /\ alike c c' /\ alikes r r'.
Definition tree_rel (x y : tree * list token) : Prop := twins (fst x) (fst y) /\ alikes (snd x) (snd y).
Definition trees_rel (x y : list tree * list token) : Prop := Forall2 twins (fst x) (fst y) /\ alikes (snd x) (snd y).
Definition toks_rel (x y : list token * list token) : Prop := alikes (fst x) (fst y) /\ alikes (snd x) (snd y).
Definition fair (g : fparser) : Prop := forall st ts us, alikes ts us -> both_opt tree_rel (g st ts) (g st us).

Lemma until_rel : forall st m ts us, blind m -> alikes ts us -> both_opt cut_rel (until st m ts) (until st m us).
Proof.
  intros st m ts us B S. induction S as [|t u ts us H S IH]; [exact I|]. cbn [until].
  rewrite (stopped_blind st (t :: ts) (u :: us)) by (constructor; assumption). destruct (stopped st (u :: us)); [exact I|]. rewrite (B t u H). destruct (m u).
  - cbn. auto 12 with blind.
  - destruct (until st m ts) as [[[b c] r]|], (until st m us) as [[[b' c'] r']|]; cbn in *; try contradiction; auto.
    destruct IH as (I1 & I2 & I3). auto 12 with blind.
Qed.
Lemma fair_orelse : forall f g, fair f -> fair g -> fair (forelse f g).
Proof.
  intros f g F G st ts us S. unfold forelse. pose proof (F st ts us S) as X. destruct (f st ts), (f st us); try contradiction; [exact X|]. apply G. exact S.
Qed.
Lemma leaf_twins : forall a b, alikes a b -> Forall2 twins (leaf a) (leaf b).
Proof. intros a b S. destruct S; cbn; auto 12 with blind. Qed.

Lemma fair_delim : forall n f g, blind f -> blind g -> fair (fdelim n f g).
Proof.
  intros n f g F G st ts us S. destruct S as [|t u ts us H S]; [exact I|]. cbn. rewrite (F t u H). destruct (f u); [|exact I].
  pose proof (until_rel st g ts us G S) as X. destruct (until st g ts) as [[[b c] r]|], (until st g us) as [[[b' c'] r']|]; cbn in *; try contradiction; auto.
  destruct X as (X1 & X2 & X3). split; cbn; auto 12 with blind.
Qed.
Lemma fair_metadata : fair fmetadata. Proof. apply fair_delim; auto 12 with blind. Qed.
Lemma fair_title : fair ftitle. Proof. apply fair_delim; auto 12 with blind. Qed.
Lemma fair_italic : fair fitalic. Proof. apply fair_delim; auto 12 with blind. Qed.
Lemma fair_strike : fair fstrike. Proof. apply fair_delim; auto 12 with blind. Qed.
Lemma fair_emphasis : fair femphasis. Proof. apply fair_delim; auto 12 with blind. Qed.
Lemma fair_code_span : fair fcode_span. Proof. apply fair_delim; auto 12 with blind. Qed.

Lemma dest_scan_rel : forall st ts us n, alikes ts us -> both_opt cut_rel (dest_scan st n ts) (dest_scan st n us).
Proof.
  intros st ts us n S. revert n. induction S as [|t u ts us H S IH]; intros n; [exact I|]. cbn [dest_scan].
  rewrite (stopped_blind st (t :: ts) (u :: us)) by (constructor; assumption). destruct (stopped st (u :: us)); [exact I|]. rewrite (kind_blind t u H).
  assert (M : forall n, both_opt cut_rel match dest_scan st n ts with Some (b, c, rest) => Some (t :: b, c, rest) | None => None end
                                         match dest_scan st n us with Some (b, c, rest) => Some (u :: b, c, rest) | None => None end).
  { intros m. specialize (IH m). destruct (dest_scan st m ts) as [[[b c] r]|], (dest_scan st m us) as [[[b' c'] r']|]; cbn in *; try contradiction; auto.
    destruct IH as (I1 & I2 & I3). auto 12 with blind. }
  destruct (kind u); try apply M. destruct (n - 1 =? 0); [cbn; auto 12 with blind|]. specialize (M (n - 1)).
  destruct (dest_scan st (n - 1) ts) as [[[b c] r]|], (dest_scan st (n - 1) us) as [[[b' c'] r']|]; cbn in *; try contradiction; auto 12 with blind.
Qed.
Lemma fair_dest : fair fdest.
Proof.
  intros st ts us S. destruct S as [|t u ts us H S]; [exact I|]. cbn [fdest]. rewrite (left_paren_blind t u H). destruct (is_left_paren u); [|exact I].
  pose proof (dest_scan_rel st ts us 1 S) as X. destruct (dest_scan st 1 ts) as [[[b c] r]|], (dest_scan st 1 us) as [[[b' c'] r']|]; cbn in *; try contradiction; auto.
  destruct X as (X1 & X2 & X3). split; cbn; auto 12 with blind.
Qed.

(** The result of a parser on both sides. *)
Ltac fstep F S := let X := fresh "X" in pose proof (F _ _ _ S) as X;
  match type of X with both_opt _ ?a ?b => destruct a as [[? ?]|], b as [[? ?]|]; cbn in X; try contradiction; try (exact I); try (destruct X as [? ?]; cbn [fst snd] in * ) end.

Lemma fair_anchor : fair fanchor.
Proof.
  intros st ts us S. unfold fanchor. pose proof (fair_title st ts us S) as X. destruct (ftitle st ts) as [[t1 r1]|], (ftitle st us) as [[u1 q1]|]; cbn in X; try contradiction; [|exact I].
  destruct X as [X1 X2]. cbn in X1, X2. pose proof (fair_dest st r1 q1 X2) as Y. destruct (fdest st r1) as [[t2 r2]|], (fdest st q1) as [[u2 q2]|]; cbn in Y; try contradiction; [|exact I].
  destruct Y as [Y1 Y2]. split; cbn in *; auto 12 with blind.
Qed.

Lemma fair_strike_italic : fair (forelse fstrike fitalic).
Proof. apply fair_orelse; [apply fair_strike|apply fair_italic]. Qed.

Definition close_rel (x y : list tree * token * list token) : Prop :=
  let '(k, c, r) := x in let '(k', c', r') := y in Forall2 twins k k' /\ alike c c' /\ alikes r r'.
Lemma bold_loop_rel : forall n st acc acc' ts us, alikes acc acc' -> alikes ts us -> both_opt close_rel (fbold_loop n st acc ts) (fbold_loop n st acc' us).
Proof.
  induction n; intros st acc acc' ts us A S; [exact I|]. pose proof S as S0. destruct S as [|t u ts us H S]; [exact I|]. cbn [fbold_loop].
  rewrite (stopped_blind st _ _ S0). destruct (stopped st (u :: us)); [exact I|]. rewrite (star2_blind t u H). destruct (is_star2 u).
  - cbn. auto 12 using leaf_twins with blind.
  - pose proof (fair_strike_italic st _ _ S0) as X. destruct (forelse fstrike fitalic st (t :: ts)) as [[x r]|], (forelse fstrike fitalic st (u :: us)) as [[x' r']|]; cbn in X; try contradiction.
    + destruct X as [X1 X2]. cbn in X1, X2. specialize (IHn st [] [] r r' (Forall2_nil _) X2).
      destruct (fbold_loop n st [] r) as [[[k c] q]|], (fbold_loop n st [] r') as [[[k' c'] q']|]; cbn in *; try contradiction; auto.
      destruct IHn as (I1 & I2 & I3). split; [|auto]. apply Forall2_app; auto 12 using leaf_twins with blind.
    + apply IHn; [apply alikes_app; auto 12 with blind|exact S].
Qed.
Lemma alikes_length : forall ts us, alikes ts us -> length ts = length us.
Proof. intros ts us S. induction S; cbn; congruence. Qed.
Lemma fair_bold : fair fbold.
Proof.
  intros st ts us S. destruct S as [|t u ts us H S]; [exact I|]. cbn [fbold]. rewrite (star2_blind t u H). destruct (is_star2 u); [|exact I].
  rewrite (alikes_length _ _ S). pose proof (bold_loop_rel (Datatypes.S (length us)) st [] [] ts us (Forall2_nil _) S) as X.
  destruct (fbold_loop _ st [] ts) as [[[k c] q]|], (fbold_loop _ st [] us) as [[[k' c'] q']|]; cbn in *; try contradiction; auto.
  destruct X as (X1 & X2 & X3). split; cbn; auto 12 with blind.
Qed.
Lemma fair_inline : fair finline.
Proof. repeat (apply fair_orelse; [auto using fair_strike, fair_italic, fair_bold, fair_anchor, fair_code_span|]). apply fair_emphasis. Qed.

Lemma items_rel : forall g n st acc acc' ts us, fair g -> alikes acc acc' -> alikes ts us -> trees_rel (fitems g n st acc ts) (fitems g n st acc' us).
Proof.
  intros g n. induction n; intros st acc acc' ts us G A S; [split; cbn; auto 12 with blind|]. cbn [fitems]. rewrite (stopped_blind st _ _ S).
  destruct (stopped st us); [split; cbn; auto using leaf_twins|]. pose proof (G st _ _ S) as X. destruct (g st ts) as [[x r]|], (g st us) as [[x' r']|]; cbn in X; try contradiction.
  - destruct X as [X1 X2]. cbn in X1, X2. specialize (IHn st [] [] r r' G (Forall2_nil _) X2). destruct (fitems g n st [] r) as [k q], (fitems g n st [] r') as [k' q'].
    destruct IHn as [I1 I2]. split; cbn in *; [|exact I2]. apply Forall2_app; auto 12 using leaf_twins with blind.
  - destruct S as [|t u ts us H S]; [split; cbn; auto 12 using leaf_twins with blind|]. apply IHn; auto. apply alikes_app; auto 12 with blind.
Qed.
Lemma paragraph_rel : forall st ts us, alikes ts us -> tree_rel (fparagraph st ts) (fparagraph st us).
Proof.
  intros st ts us S. unfold fparagraph. rewrite (alikes_length _ _ S). pose proof (items_rel finline (Datatypes.S (length us)) st [] [] ts us fair_inline (Forall2_nil _) S) as X.
  destruct (fitems finline _ st [] ts) as [k r], (fitems finline _ st [] us) as [k' r']. destruct X as [X1 X2]. split; cbn in *; auto 12 with blind.
Qed.

(** ** Blocks *)

Lemma fair_heading : fair fheading.
Proof.
  intros st ts us S. destruct S as [|t u ts us H S]; [exact I|]. destruct S as [|t2 u2 ts us H2 S]; [exact I|]. cbn [fheading].
  rewrite (hash_blind t u H), (space_1_blind t2 u2 H2). destruct (is_hash u && is_space_1 u2); [|exact I].
  rewrite (alikes_length _ _ S). pose proof (items_rel fanchor (Datatypes.S (length us)) st [] [] ts us fair_anchor (Forall2_nil _) S) as X.
  destruct (fitems fanchor _ st [] ts) as [k r], (fitems fanchor _ st [] us) as [k' r']. destruct X as [X1 X2]. split; cbn in *; auto 12 with blind.
Qed.
Lemma fair_image : fair fimage.
Proof.
  intros st ts us S. destruct S as [|t u ts us H S]; [exact I|]. cbn [fimage]. rewrite (bang_blind t u H). destruct (is_bang u); [|exact I].
  pose proof (fair_title st ts us S) as X. destruct (ftitle st ts) as [[t1 r1]|], (ftitle st us) as [[u1 q1]|]; cbn in X; try contradiction; [|exact I].
  destruct X as [X1 X2]. cbn in X1, X2. pose proof (fair_dest st r1 q1 X2) as Y. destruct (fdest st r1) as [[t2 r2]|], (fdest st q1) as [[u2 q2]|]; cbn in Y; try contradiction; [|exact I].
  destruct Y as [Y1 Y2]. cbn in Y1, Y2. pose proof Y2 as Y0. destruct Y2 as [|e e' r3 q3 He Y2]; [split; cbn; auto 12 with blind|].
  rewrite (eol_blind e e' He). destruct (is_eol e'); [split; cbn; auto 12 with blind|]. rewrite (stopped_blind st _ _ Y0). destruct (stopped st (e' :: q3)); [split; cbn; auto 12 with blind|exact I].
Qed.
Lemma images_loop_rel : forall n st ts us, alikes ts us -> both_opt trees_rel (fimages_loop n st ts) (fimages_loop n st us).
Proof.
  induction n; intros st ts us S; [exact I|]. pose proof S as S0. destruct S as [|t u ts us H S]; [split; cbn; auto 12 with blind|]. cbn [fimages_loop].
  pose proof (fair_image st _ _ S0) as X. destruct (fimage st (t :: ts)) as [[x r]|], (fimage st (u :: us)) as [[x' r']|]; cbn in X; try contradiction.
  - destruct X as [X1 X2]. cbn in X1, X2. specialize (IHn st r r' X2). destruct (fimages_loop n st r) as [[k q]|], (fimages_loop n st r') as [[k' q']|]; cbn in *; try contradiction; auto.
    destruct IHn as [I1 I2]. split; cbn in *; auto 12 with blind.
  - rewrite (stopped_blind st _ _ S0). destruct (stopped st (u :: us)); [split; cbn; auto 12 with blind|exact I].
Qed.
Lemma fair_images : fair fimages.
Proof.
  intros st ts us S. unfold fimages. rewrite (alikes_length _ _ S). pose proof (images_loop_rel (Datatypes.S (length us)) st ts us S) as X.
  destruct (fimages_loop _ st ts) as [[k q]|], (fimages_loop _ st us) as [[k' q']|]; cbn in X; try contradiction; [|exact I].
  destruct X as [X1 X2]. cbn in X1, X2. destruct X1 as [|x x' k k' Hx X1]; [exact I|]. destruct X1 as [|y y' k k' Hy X1]; [split; cbn; auto|].
  split; cbn; auto 12 with blind.
Qed.
Lemma fair_modifier : fair fmodifier.
Proof.
  intros st ts us S. unfold fmodifier. rewrite (nth_blind col0 0 ts us) by auto 12 with blind. destruct (nth_is 0 col0 us); [exact I|].
  pose proof (until_rel st is_eol_or_terminator ts us eol_or_terminator_blind S) as X.
  destruct (until st is_eol_or_terminator ts) as [[[b c] r]|], (until st is_eol_or_terminator us) as [[[b' c'] r']|]; cbn in *; try contradiction; auto.
  destruct X as (X1 & X2 & X3). split; cbn; auto 12 with blind.
Qed.
Lemma fair_break : fair fbreak.
Proof.
  intros st ts us S. destruct S as [|t u ts us H S]; [exact I|]. cbn [fbreak]. rewrite (dash5_blind t u H). destruct (is_dash5 u); [split; cbn; auto 12 with blind|exact I].
Qed.
Lemma seq_rel : forall preds ts us, Forall blind preds -> alikes ts us -> both_opt toks_rel (fseq preds ts) (fseq preds us).
Proof.
  intros preds. induction preds as [|f preds IH]; intros ts us B S; [split; cbn; auto 12 with blind|]. inversion B as [|? ? Bf B']; subst. cbn [fseq].
  destruct S as [|t u ts us H S]; [exact I|]. rewrite (Bf t u H). destruct (f u); [|exact I]. specialize (IH ts us B' S).
  destruct (fseq preds ts) as [[a b]|], (fseq preds us) as [[a' b']|]; cbn in *; try contradiction; auto. destruct IH as [I1 I2]. split; cbn in *; auto 12 with blind.
Qed.
Lemma marker_preds_blind : forall l k, Forall blind (marker_preds l k).
Proof. intros l k. unfold marker_preds. destruct (l =? 0); auto 12 with blind. Qed.

Definition item_rel (x y : list_kind * tree * list token) : Prop :=
  let '(a, t, r) := x in let '(a', t', r') := y in a = a' /\ twins t t' /\ alikes r r'.
Lemma lists_rel : forall n,
  (forall l k st ts us, alikes ts us -> both_opt item_rel (fitem n l k st ts) (fitem n l k st us))
  /\ (forall l st ts us, alikes ts us -> both_opt item_rel (flist n l st ts) (flist n l st us))
  /\ (forall l lk st ts us, alikes ts us -> trees_rel (flist_items n l lk st ts) (flist_items n l lk st us)).
Proof.
  induction n as [|n (IH1 & IH2 & IH3)].
  - split; [|split]; intros; try exact I. split; cbn; auto 12 with blind.
  - split; [|split].
    + intros l k st ts us S. cbn [fitem]. rewrite (nth_blind col0 0 ts us) by auto 12 with blind. destruct (negb (nth_is 0 col0 us)); [exact I|].
      assert (N : both_opt alike (nth_error ts (if l =? 0 then 0 else 1)) (nth_error us (if l =? 0 then 0 else 1))).
      { generalize (if l =? 0 then 0 else 1). clear - S. induction S as [|t u ts us H S IH]; intros [|i]; cbn; auto. }
      destruct (nth_error ts (if l =? 0 then 0 else 1)) as [m|], (nth_error us (if l =? 0 then 0 else 1)) as [m'|]; cbn in N; try contradiction; [|exact I].
      rewrite (list_kind_blind m m' N). destruct (list_kind_of m') as [mk|]; [|exact I].
      pose proof (seq_rel (marker_preds l k) ts us (marker_preds_blind l k) S) as X. destruct (fseq (marker_preds l k) ts) as [[o r]|], (fseq (marker_preds l k) us) as [[o' r']|]; cbn in X; try contradiction; [|exact I].
      destruct X as [X1 X2]. cbn in X1, X2. pose proof (paragraph_rel (StopListBoundary l mk :: st) r r' X2) as Y.
      destruct (fparagraph (StopListBoundary l mk :: st) r) as [par r1], (fparagraph (StopListBoundary l mk :: st) r') as [par' r1']. destruct Y as [Y1 Y2]. cbn in Y1, Y2.
      rewrite (stopped_blind st _ _ Y2). destruct (negb (stopped st r1')); [|cbn; auto 12 with blind].
      specialize (IH2 (l + 1) st r1 r1' Y2). destruct (flist n (l + 1) st r1) as [[[a x] r2]|], (flist n (l + 1) st r1') as [[[a' x'] r2']|]; cbn in *; try contradiction; auto 12 with blind.
      destruct IH2 as (I1 & I2 & I3). auto 12 with blind.
    + intros l st ts us S. cbn [flist]. specialize (IH1 l None st ts us S). destruct (fitem n l None st ts) as [[[a x] r]|], (fitem n l None st us) as [[[a' x'] r']|]; cbn in IH1; try contradiction; [|exact I].
      destruct IH1 as (-> & I2 & I3). specialize (IH3 l a' st r r' I3). destruct (flist_items n l a' st r) as [k q], (flist_items n l a' st r') as [k' q']. destruct IH3 as [J1 J2].
      cbn in *. auto 12 with blind.
    + intros l lk st ts us S. cbn [flist_items]. specialize (IH1 l (Some lk) st ts us S). destruct (fitem n l (Some lk) st ts) as [[[a x] r]|], (fitem n l (Some lk) st us) as [[[a' x'] r']|]; cbn in IH1; try contradiction; [|split; cbn; auto 12 with blind].
      destruct IH1 as (-> & I2 & I3). specialize (IH3 l lk st r r' I3). destruct (flist_items n l lk st r) as [k q], (flist_items n l lk st r') as [k' q']. destruct IH3 as [J1 J2].
      split; cbn in *; auto 12 with blind.
Qed.
Lemma fair_list : fair flist0.
Proof.
  intros st ts us S. unfold flist0. rewrite (alikes_length _ _ S). pose proof (proj1 (proj2 (lists_rel (2 * length us + 3))) 0 st ts us S) as X.
  destruct (flist _ 0 st ts) as [[[a x] r]|], (flist _ 0 st us) as [[[a' x'] r']|]; cbn in X; try contradiction; [|exact I]. destruct X as (_ & X2 & X3). split; assumption.
Qed.
Lemma fair_icon : fair ficon.
Proof.
  intros st ts us S. unfold ficon. pose proof (seq_rel [is_one_bang; is_space_1] ts us ltac:(auto 12 with blind) S) as X.
  destruct (fseq _ ts) as [[o r]|], (fseq _ us) as [[o' r']|]; cbn in X; try contradiction; [|exact I]. destruct X as [X1 X2]. cbn in X1, X2.
  pose proof (until_rel st is_eol r r' eol_blind X2) as Y. destruct (until st is_eol r) as [[[b c] q]|], (until st is_eol r') as [[[b' c'] q']|]; cbn in Y; try contradiction; [|exact I].
  destruct Y as (Y1 & Y2 & Y3). split; cbn; auto 12 with blind.
Qed.
Lemma with_eol_rel : forall c c' ts us, alike c c' -> alikes ts us -> toks_rel (with_eol c ts) (with_eol c' us).
Proof.
  intros c c' ts us H S. destruct S as [|t u ts us Ht S]; [split; cbn; auto 12 with blind|]. cbn. rewrite (eol_blind t u Ht). destruct (is_eol u); split; cbn; auto 12 with blind.
Qed.
Definition hl_rel (x y : list tree * list token * list token) : Prop :=
  let '(k, c, r) := x in let '(k', c', r') := y in Forall2 twins k k' /\ alikes c c' /\ alikes r r'.
Lemma highlight_loop_rel : forall n st ts us, alikes ts us -> both_opt hl_rel (fhighlight_loop n st ts) (fhighlight_loop n st us).
Proof.
  induction n; intros st ts us S; [exact I|]. pose proof S as S0. destruct S as [|t u ts us H S]; [exact I|]. cbn [fhighlight_loop].
  rewrite (stopped_blind st _ _ S0). destruct (stopped st (u :: us)); [exact I|]. rewrite (two_bangs_blind t u H). destruct (is_two_bangs u).
  - pose proof (with_eol_rel t u ts us H S) as X. destruct (with_eol t ts) as [c r], (with_eol u us) as [c' r']. destruct X as [X1 X2]. cbn in *. auto 12 with blind.
  - rewrite (terminator_blind t u H).
    assert (X : exists l l' r r', Forall2 twins l l' /\ alikes r r' /\ (if is_terminator u then ([Leaf [t]], ts) else ([], t :: ts)) = (l, r) /\ (if is_terminator u then ([Leaf [u]], us) else ([], u :: us)) = (l', r')).
    { destruct (is_terminator u); repeat eexists; auto 12 with blind. }
    destruct X as (l & l' & r & r' & X1 & X2 & -> & ->). pose proof (paragraph_rel (StopTerminator :: StopHighlightEnd :: st) r r' X2) as Y.
    destruct (fparagraph _ r) as [par q], (fparagraph _ r') as [par' q']. destruct Y as [Y1 Y2]. cbn in Y1, Y2. specialize (IHn st q q' Y2).
    destruct (fhighlight_loop n st q) as [[[k c] z]|], (fhighlight_loop n st q') as [[[k' c'] z']|]; cbn in *; try contradiction; auto.
    destruct IHn as (I1 & I2 & I3). split; [apply Forall2_app; auto 12 with blind|auto].
Qed.
Lemma opt_tree_rel : forall o o' ts us, both_opt tree_rel o o' -> alikes ts us -> trees_rel (opt_tree o ts) (opt_tree o' us).
Proof.
  intros [[x r]|] [[x' r']|] ts us H S; cbn in H; try contradiction; [destruct H as [H1 H2]|]; split; cbn in *; auto 12 with blind.
Qed.
Lemma last_rel : forall a b d, alikes a b -> alike (last a d) (last b d).
Proof.
  intros a b d S. induction S as [|t u ts us H S IH]; [split; [reflexivity|split; [reflexivity|reflexivity]]|]. cbn. destruct S; [exact H|exact IH].
Qed.
Lemma fair_highlight : fair fhighlight.
Proof.
  intros st ts us S. unfold fhighlight. pose proof (seq_rel [is_two_bangs; fun t => is_space_1 t || is_eol t] ts us ltac:(auto 12 with blind) S) as X.
  destruct (fseq _ ts) as [[o r]|], (fseq _ us) as [[o' r']|]; cbn in X; try contradiction; [|exact I]. destruct X as [X1 X2]. cbn in X1, X2.
  cbv zeta. rewrite (eol_blind _ _ (last_rel o o' (mk_token Literal 0 0 (mk_pos 0 0 0) false) X1)).
  set (b := negb (is_eol (last o' (mk_token Literal 0 0 (mk_pos 0 0 0) false)))).
  assert (Y : trees_rel (if b then opt_tree (fmodifier st r) r else ([], r)) (if b then opt_tree (fmodifier st r') r' else ([], r'))).
  { destruct b; [apply opt_tree_rel; [apply fair_modifier; exact X2|exact X2]|split; cbn; auto 12 with blind]. }
  destruct (if b then opt_tree (fmodifier st r) r else ([], r)) as [k1 r1], (if b then opt_tree (fmodifier st r') r' else ([], r')) as [k1' r1']. destruct Y as [Y1 Y2]. cbn in Y1, Y2.
  pose proof (opt_tree_rel _ _ _ _ (fair_icon (StopTerminator :: st) r1 r1' Y2) Y2) as Z. destruct (opt_tree (ficon _ r1) r1) as [k2 r2], (opt_tree (ficon _ r1') r1') as [k2' r2'].
  destruct Z as [Z1 Z2]. cbn in Z1, Z2. rewrite (nth_blind col0 0 r2 r2') by auto 12 with blind. destruct (nth_is 0 col0 r2'); [|exact I]. rewrite (alikes_length _ _ Z2).
  pose proof (highlight_loop_rel (Datatypes.S (length r2')) st r2 r2' Z2) as V. destruct (fhighlight_loop _ st r2) as [[[k c] q]|], (fhighlight_loop _ st r2') as [[[k' c'] q']|]; cbn in V; try contradiction; [|exact I].
  destruct V as (V1 & V2 & V3). split; cbn; [|exact V3]. constructor; auto. repeat apply Forall2_app; assumption.
Qed.
Lemma close_line_rel : forall st c c' ts us, alike c c' -> alikes ts us -> both_opt toks_rel (fclose_line st c ts) (fclose_line st c' us).
Proof.
  intros st c c' ts us H S. pose proof S as S0. destruct S as [|t u ts us Ht S]; [split; cbn; auto 12 with blind|]. cbn [fclose_line].
  rewrite (eol_blind t u Ht), (terminator_blind t u Ht), (stopped_blind st _ _ S0). destruct (is_eol u); [split; cbn; auto 12 with blind|].
  destruct (stopped st (u :: us) || is_terminator u); [split; cbn; auto 12 with blind|exact I].
Qed.
Lemma fair_embed : fair fembed.
Proof.
  intros st ts us S. destruct S as [|t u ts us H S]; [exact I|]. cbn [fembed]. rewrite (left_curly2_blind t u H). destruct (is_left_curly2 u); [|exact I].
  pose proof (until_rel st is_pipe ts us pipe_blind S) as X. destruct (until st is_pipe ts) as [[[b c] r]|], (until st is_pipe us) as [[[b' c'] r']|]; cbn in X; try contradiction; [|exact I].
  destruct X as (X1 & X2 & X3). pose proof (until_rel st is_right_curly2 r r' right_curly2_blind X3) as Y.
  destruct (until st is_right_curly2 r) as [[[d e] q]|], (until st is_right_curly2 r') as [[[d' e'] q']|]; cbn in Y; try contradiction; [|exact I].
  destruct Y as (Y1 & Y2 & Y3). pose proof (close_line_rel st e e' q q' Y2 Y3) as Z. destruct (fclose_line st e q) as [[cl z]|], (fclose_line st e' q') as [[cl' z']|]; cbn in Z; try contradiction; [|exact I].
  destruct Z as [Z1 Z2]. split; cbn in *; auto 12 with blind.
Qed.
Lemma fence_rel : forall ts us, alikes ts us -> both_opt toks_rel (ffence ts) (ffence us).
Proof.
  intros ts us S. unfold ffence. pose proof (seq_rel [is_backtick3; is_eol] ts us ltac:(auto 12 with blind) S) as X.
  destruct (fseq [is_backtick3; is_eol] ts), (fseq [is_backtick3; is_eol] us); cbn in X; try contradiction; [exact X|]. apply seq_rel; auto 12 with blind.
Qed.
Lemma fair_code : fair fcode.
Proof.
  intros st ts us S. unfold fcode. pose proof (fence_rel ts us S) as X. destruct (ffence ts) as [[o r]|], (ffence us) as [[o' r']|]; cbn in X; try contradiction; [|exact I].
  destruct X as [X1 X2]. cbn in X1, X2. cbv zeta. rewrite (eol_blind _ _ (last_rel o o' (mk_token Literal 0 0 (mk_pos 0 0 0) false) X1)).
  set (b := negb (is_eol (last o' (mk_token Literal 0 0 (mk_pos 0 0 0) false)))).
  assert (Y : trees_rel (if b then opt_tree (fmodifier [] r) r else ([], r)) (if b then opt_tree (fmodifier [] r') r' else ([], r'))).
  { destruct b; [apply opt_tree_rel; [apply fair_modifier; exact X2|exact X2]|split; cbn; auto 12 with blind]. }
  destruct (if b then opt_tree (fmodifier [] r) r else ([], r)) as [k1 r1], (if b then opt_tree (fmodifier [] r') r' else ([], r')) as [k1' r1']. destruct Y as [Y1 Y2]. cbn in Y1, Y2.
  pose proof (until_rel [] is_backtick3 r1 r1' backtick3_blind Y2) as Z. destruct (until [] is_backtick3 r1) as [[[d e] q]|], (until [] is_backtick3 r1') as [[[d' e'] q']|]; cbn in Z; try contradiction; [|exact I].
  destruct Z as (Z1 & Z2 & Z3). pose proof (close_line_rel st e e' q q' Z2 Z3) as V. destruct (fclose_line st e q) as [[cl z]|], (fclose_line st e' q') as [[cl' z']|]; cbn in V; try contradiction; [|exact I].
  destruct V as [V1 V2]. split; cbn in *; [|exact V2]. constructor; auto. apply Forall2_app; auto 12 with blind.
Qed.
Lemma collapsible_end_rel : forall ts us, alikes ts us -> both_opt toks_rel (fcollapsible_end ts) (fcollapsible_end us).
Proof.
  intros ts us S. unfold fcollapsible_end. pose proof (seq_rel [is_collapsible_end; is_eol] ts us ltac:(auto 12 with blind) S) as X.
  destruct (fseq [is_collapsible_end; is_eol] ts), (fseq [is_collapsible_end; is_eol] us); cbn in X; try contradiction; [exact X|]. apply seq_rel; auto 12 with blind.
Qed.
Lemma simple_rel : forall st ts us, alikes ts us -> tree_rel (fsimple st ts) (fsimple st us).
Proof.
  intros st ts us S. unfold fsimple. cbv zeta.
  assert (F : fair (forelse flist0 (forelse fimages (forelse fbreak fheading)))) by (repeat apply fair_orelse; auto using fair_list, fair_images, fair_break, fair_heading).
  pose proof (F (StopTerminator :: st) ts us S) as X. destruct (forelse _ _ _ ts), (forelse _ _ _ us); cbn in X; try contradiction; [exact X|]. apply paragraph_rel. exact S.
Qed.
Lemma flip_head_rel : forall ts us, alikes ts us -> alikes (flip_head ts) (flip_head us).
Proof. intros ts us S. destruct S; cbn; auto 12 with blind. Qed.

Lemma twins_yield : forall t u, twins t u -> alikes (yield t) (yield u).
Proof.
  fix IH 3. intros t u T. destruct T as [a b S|a b S|n o o' k k' c c' So Sk Sc]; [exact S|exact S|]. cbn. apply alikes_app; [exact So|]. apply alikes_app; [|exact Sc].
  induction Sk as [|x y k k' H Sk IHk]; [constructor|]. cbn. apply alikes_app; [apply IH; exact H|exact IHk].
Qed.
Lemma twins_yields : forall k k', Forall2 twins k k' -> alikes (yields k) (yields k').
Proof. intros k k' S. induction S; [constructor|]. cbn. apply alikes_app; [apply twins_yield; assumption|assumption]. Qed.

Definition cres_rel (x y : cres) : Prop :=
  match x, y with CMatch t r, CMatch t' r' => twins t t' /\ alikes r r' | CFail ts, CFail us => alikes ts us | _, _ => False end.
Lemma docs_rel : forall n,
  (forall st ts us, alikes ts us -> trees_rel (fdoc n st ts) (fdoc n st us))
  /\ (forall st ts us, alikes ts us -> cres_rel (fcollapsible n st ts) (fcollapsible n st us)).
Proof.
  induction n as [|n (IH1 & IH2)]; [split; intros; [split; cbn; auto 12 with blind|assumption]|]. split.
  - intros st ts us S. pose proof S as S0. destruct S as [|t u ts us H S]; [split; cbn; auto 12 with blind|]. cbn [fdoc]. rewrite (stopped_blind st _ _ S0).
    destruct (stopped st (u :: us)); [split; cbn; auto 12 with blind|]. rewrite (terminator_blind t u H).
    set (a := if is_terminator u then (Leaf [t], ts) else _). set (b := if is_terminator u then (Leaf [u], us) else _).
    assert (X : tree_rel a b).
    { unfold a, b. destruct (is_terminator u); [split; cbn; auto 12 with blind|]. pose proof (fair_code st _ _ S0) as C.
      destruct (fcode st (t :: ts)), (fcode st (u :: us)); cbn in C; try contradiction; [exact C|]. specialize (IH2 st _ _ S0).
      destruct (fcollapsible n st (t :: ts)) as [y r|ts'], (fcollapsible n st (u :: us)) as [y' r'|us']; cbn in IH2; try contradiction; [exact IH2|].
      pose proof (fair_orelse _ _ fair_embed fair_highlight st _ _ IH2) as E. destruct (forelse fembed fhighlight st ts'), (forelse fembed fhighlight st us'); cbn in E; try contradiction; [exact E|].
      apply simple_rel. exact IH2. }
    clearbody a b. destruct a as [x r1], b as [x' r1']. destruct X as [X1 X2]. cbn in X1, X2. specialize (IH1 st r1 r1' X2). destruct (fdoc n st r1) as [k r2], (fdoc n st r1') as [k' r2'].
    destruct IH1 as [I1 I2]. split; cbn in *; auto 12 with blind.
  - intros st ts us S. cbn [fcollapsible]. pose proof (seq_rel [is_collapsible_start; is_space_or_eol] ts us ltac:(auto 12 with blind) S) as X.
    destruct (fseq _ ts) as [[o r]|], (fseq _ us) as [[o' r']|]; cbn in X; try contradiction; [|exact S]. destruct X as [X1 X2]. cbn in X1, X2.
    pose proof (opt_tree_rel _ _ _ _ (fair_modifier st r r' X2) X2) as Y. destruct (opt_tree (fmodifier st r) r) as [k1 r1], (opt_tree (fmodifier st r') r') as [k1' r1']. destruct Y as [Y1 Y2]. cbn in Y1, Y2.
    rewrite (nth_blind col0 0 r1 r1') by auto 12 with blind. destruct (nth_is 0 col0 r1'); [|apply flip_head_rel; exact S].
    specialize (IH1 (StopCollapsibleEnd :: st) r1 r1' Y2). destruct (fdoc n (StopCollapsibleEnd :: st) r1) as [k2 r2], (fdoc n (StopCollapsibleEnd :: st) r1') as [k2' r2']. destruct IH1 as [I1 I2]. cbn in I1, I2.
    set (a := match r2 with e :: r3 => if is_eol e then ([Skip [e]], r3) else ([], r2) | [] => ([], r2) end).
    set (b := match r2' with e :: r3 => if is_eol e then ([Skip [e]], r3) else ([], r2') | [] => ([], r2') end).
    assert (Z : trees_rel a b).
    { unfold a, b. destruct I2 as [|e e' q q' He I2]; [split; cbn; auto 12 with blind|]. rewrite (eol_blind e e' He). destruct (is_eol e'); split; cbn; auto 12 with blind. }
    clearbody a b. destruct a as [k3 r3], b as [k3' r3']. destruct Z as [Z1 Z2]. cbn in Z1, Z2. pose proof (collapsible_end_rel r3 r3' Z2) as V.
    destruct (fcollapsible_end r3) as [[c q]|], (fcollapsible_end r3') as [[c' q']|]; cbn in V; try contradiction.
    + destruct V as [V1 V2]. cbn in V1, V2. split; [|exact V2]. constructor; [exact X1| |exact V1]. apply Forall2_app; [exact Y1|]. cbn. constructor; [constructor; auto 12 with blind|exact Z1].
    + cbn. apply flip_head_rel. repeat apply alikes_app; auto using twins_yields.
Qed.

Lemma parse_rel : forall ts us, alikes ts us -> Forall2 twins (fparse ts) (fparse us).
Proof.
  intros ts us S. unfold fparse. pose proof (opt_tree_rel _ _ _ _ (fair_metadata [] ts us S) S) as X. destruct (opt_tree (fmetadata [] ts) ts) as [k1 r1], (opt_tree (fmetadata [] us) us) as [k1' r1'].
  destruct X as [X1 X2]. cbn in X1, X2. rewrite (alikes_length _ _ X2). pose proof (proj1 (docs_rel (3 * length r1' + 5)) [] r1 r1' X2) as Y.
  destruct (fdoc _ [] r1) as [k2 r2], (fdoc _ [] r1') as [k2' r2']. destruct Y as [Y1 Y2]. cbn in Y1, Y2. apply Forall2_app; [exact X1|]. constructor; [constructor; auto 12 with blind|constructor].
Qed.

(** ** Ranges of tokens *)

Fixpoint cut (i : nat) (t : tree) : list (nat * nat) :=
  match t with
  | Leaf ts => [(i, length ts)]
  | Skip _ => []
  | Node _ o k c =>
      (i, length o)
      :: (fix go (i : nat) (k : list tree) : list (nat * nat) :=
            match k with [] => [] | x :: k' => cut i x ++ go (i + length (yield x)) k' end) (i + length o) k
      ++ [(i + length o + length (yields k), length c)]
  end.
Fixpoint cuts (i : nat) (k : list tree) : list (nat * nat) :=
  match k with [] => [] | x :: k' => cut i x ++ cuts (i + length (yield x)) k' end.
Lemma cut_node : forall i n o k c, cut i (Node n o k c) = (i, length o) :: cuts (i + length o) k ++ [(i + length o + length (yields k), length c)].
Proof.
  reflexivity.
Qed.

Lemma cuts_twins : forall k k', Forall2 (fun t u => twins t u /\ forall i, cut i t = cut i u) k k' -> forall i, cuts i k = cuts i k'.
Proof.
  intros k k' S. induction S as [|x y k k' [T H] S IH]; intros i; [reflexivity|]. cbn. rewrite H, IH, (alikes_length _ _ (twins_yield _ _ T)). reflexivity.
Qed.
Lemma cut_twins : forall t u, twins t u -> forall i, cut i t = cut i u.
Proof.
  fix IH 3. intros t u T. destruct T as [a b S|a b S|n o o' k k' c c' So Sk Sc]; intros i.
  - cbn. rewrite (alikes_length _ _ S). reflexivity.
  - reflexivity.
  - rewrite !cut_node, (alikes_length _ _ So), (alikes_length _ _ Sc), (alikes_length _ _ (twins_yields _ _ Sk)). do 2 f_equal. apply cuts_twins.
    clear So Sc. induction Sk as [|x y k k' H Sk IHk]; constructor; [split; [exact H|apply IH; exact H]|exact IHk].
Qed.
Lemma parse_cuts : forall ts us i, alikes ts us -> cuts i (fparse ts) = cuts i (fparse us).
Proof.
  intros ts us i S. apply cuts_twins. pose proof (parse_rel ts us S) as P. induction P; constructor; [|assumption]. split; [assumption|apply cut_twins; assumption].
Qed.

Lemma flatten_kinds : forall s s' t u, twins t u -> map op_kind_of (flatten s t) = map op_kind_of (flatten s' u).
Proof.
  intros s s'. fix IH 3. intros t u T. destruct T as [a b S|a b S|n o o' k k' c c' So Sk Sc]; [reflexivity|reflexivity|].
  cbn [flatten map]. rewrite !map_app. cbn [map]. f_equal. apply (f_equal (fun l => l ++ [End n])). clear So Sc.
  induction Sk as [|x y k k' H Sk IHk]; [reflexivity|]. cbn [flat_map]. rewrite !map_app, IHk, (IH x y H). reflexivity.
Qed.
Lemma flattens_kinds : forall s s' k k', Forall2 twins k k' -> map op_kind_of (flattens s k) = map op_kind_of (flattens s' k').
Proof.
  intros s s' k k' S. induction S as [|x y k k' H S IH]; [reflexivity|]. cbn. rewrite !map_app. f_equal; [apply flatten_kinds; exact H|exact IH].
Qed.

Lemma in_order_le : forall cs i j, in_order i cs j -> i <= j.
Proof. induction cs as [|[a n] cs IH]; intros i j H; cbn in *; [exact H|]. destruct H as [H1 H2]. apply IH in H2. lia. Qed.
Lemma in_order_app : forall a i j b k, in_order i a j -> in_order j b k -> in_order i (a ++ b) k.
Proof.
  induction a as [|[x n] a IH]; intros i j b k H1 H2; cbn in *.
  - destruct b as [|[y m] b]; cbn in *; [lia|]. destruct H2. split; [lia|assumption].
  - destruct H1 as [H1 H3]. split; [exact H1|]. eapply IH; eauto.
Qed.
Lemma cut_order : forall t i, in_order i (cut i t) (i + length (yield t)).
Proof.
  induction t as [ts|ts|n o k c IH] using tree_ind'; intros i; [cbn; lia|cbn; lia|]. rewrite cut_node. cbn [yield]. rewrite !app_length. cbn [in_order fst snd]. split; [lia|].
  apply in_order_app with (j := i + length o + length (yields k)); [|cbn [in_order fst snd]; unfold yields; lia].
  generalize (i + length o). clear - IH. induction k as [|x k IHk]; intros j; [cbn; lia|]. inversion IH as [|? ? Hx Hk]; subst. cbn [cuts].
  eapply in_order_app; [apply Hx|]. unfold yields. cbn [flat_map]. rewrite app_length, Nat.add_assoc. apply IHk. exact Hk.
Qed.
Lemma cuts_order : forall k i, in_order i (cuts i k) (i + length (yields k)).
Proof.
  induction k as [|x k IH]; intros i; [cbn; lia|]. cbn [cuts]. eapply in_order_app; [apply cut_order|]. unfold yields. cbn [flat_map]. rewrite app_length, Nat.add_assoc. apply IH.
Qed.

Lemma concat_ok : forall s ts, Forall (tok_ok s) ts -> concat_texts s ts = Ok (ttexts s ts).
Proof.
  intros s ts F. induction F as [|t ts H F IH]; [reflexivity|]. cbn. unfold token_text. rewrite (tok_ok_ttext s t H), IH. reflexivity.
Qed.
Lemma stands_at : forall s a b c k, linked s b -> stands s (a ++ b ++ c) (mk_op k (content_of s b)) (length a, length b).
Proof.
  intros s a b c k L. unfold stands. cbn [op_content fst snd]. rewrite content_text by exact L. rewrite skipn_app, skipn_all, Nat.sub_diag. cbn [skipn app].
  rewrite firstn_app, Nat.sub_diag, firstn_all. cbn [firstn]. rewrite app_nil_r. symmetry. apply concat_ok. apply L.
Qed.
Lemma stands_kids : forall s k,
  Forall (fun t => forall a b, linked s (yield t) -> Forall2 (stands s (a ++ yield t ++ b)) (flatten s t) (cut (length a) t)) k ->
  forall a b, linked s (yields k) -> Forall2 (stands s (a ++ yields k ++ b)) (flattens s k) (cuts (length a) k).
Proof.
  intros s k F. induction F as [|x k Hx F IH]; intros a b L; [constructor|]. unfold yields in *. cbn [flat_map flattens cuts] in *. fold (flattens s k).
  apply linked_app in L. destruct L as [L1 L2]. rewrite <- app_assoc. apply Forall2_app; [apply Hx; exact L1|]. specialize (IH (a ++ yield x) b L2). rewrite app_length, <- app_assoc in IH. exact IH.
Qed.
Lemma stands_tree : forall s t a b, linked s (yield t) -> Forall2 (stands s (a ++ yield t ++ b)) (flatten s t) (cut (length a) t).
Proof.
  intros s. induction t as [ts|ts|n o k c IH] using tree_ind'; intros a b L; [constructor; [|constructor]; apply stands_at; exact L|constructor|].
  cbn [yield] in *. apply linked_app in L. destruct L as [Lo L]. apply linked_app in L. destruct L as [Lk Lc]. rewrite cut_node. cbn [flatten]. constructor.
  - rewrite <- app_assoc. apply stands_at. exact Lo.
  - apply Forall2_app.
    + pose proof (stands_kids s k IH (a ++ o) (c ++ b) Lk) as H. rewrite app_length in H. unfold yields in H. rewrite <- !app_assoc in *. exact H.
    + constructor; [|constructor]. pose proof (stands_at s (a ++ o ++ yields k) c b (End n) Lc) as H. rewrite !app_length, Nat.add_assoc in H. unfold yields in *. rewrite <- !app_assoc in *. exact H.
Qed.
Lemma stands_trees : forall s k, linked s (yields k) -> Forall2 (stands s (yields k)) (flattens s k) (cuts 0 k).
Proof.
  intros s k L. pose proof (stands_kids s k) as H. specialize (H ltac:(apply Forall_forall; intros; apply stands_tree; assumption) [] [] L). rewrite app_nil_r in H. exact H.
Qed.

Lemma flips_cut : forall (R : token -> token -> Prop) i n a b, Forall2 R a b -> Forall2 R (firstn n (skipn i a)) (firstn n (skipn i b)).
Proof.
  intros R i n a b F. revert i n. induction F as [|x y a b H F IH]; intros i n; [destruct i, n; constructor|].
  destruct i as [|i]; cbn [skipn]; [|apply IH]. destruct n as [|n]; constructor; [exact H|]. apply (IH 0 n).
Qed.
Lemma flips_concat : forall s a b, flips a b -> concat_texts s a = concat_texts s b.
Proof.
  intros s a b F. induction F as [|x y a b H F IH]; [reflexivity|]. cbn. rewrite IH. destruct (flip_slice _ _ H) as (E1 & E2 & _). unfold token_text. rewrite E1, E2. reflexivity.
Qed.

Lemma parse_stands : forall s ops, parse s = Ok ops -> Forall2 (stands s (spec_tokens s)) ops (cuts 0 (fparse (spec_tokens s))).
Proof.
  intros s ops P. destruct (parse_refines s) as [E F]. rewrite P in E. injection E as ->. pose proof (stands_trees s _ (fparse_linked s)) as S.
  clear P. induction S as [|o c os cs H S IH]; [constructor|]. constructor; [|exact IH]. unfold stands in *. rewrite H. symmetry. apply flips_concat. apply flips_cut. exact F.
Qed.
Lemma parse_in_order : forall s, in_order 0 (cuts 0 (fparse (spec_tokens s))) (length (spec_tokens s)).
Proof.
  intros s. destruct (parse_refines s) as [_ F]. rewrite (flips_length _ _ F). exact (cuts_order _ 0).
Qed.

Lemma same_kinds : forall s s' ts ts' ops ops', lex s = Ok ts -> lex s' = Ok ts' -> Forall2 alike ts ts' -> parse s = Ok ops -> parse s' = Ok ops' ->
  map op_kind_of ops = map op_kind_of ops'.
Proof.
  intros s s' ts ts' ops ops' L L' S P P'. rewrite lex_correct in L, L'. injection L as <-. injection L' as <-.
  destruct (parse_refines s) as [E _]. destruct (parse_refines s') as [E' _]. rewrite P in E. rewrite P' in E'. injection E as ->. injection E' as ->.
  apply flattens_kinds, parse_rel, S.
Qed.
Lemma same_cuts : forall s s' ts ts' ops ops', lex s = Ok ts -> lex s' = Ok ts' -> Forall2 alike ts ts' -> parse s = Ok ops -> parse s' = Ok ops' ->
  exists cs, in_order 0 cs (length ts) /\ Forall2 (stands s ts) ops cs /\ Forall2 (stands s' ts') ops' cs.
Proof.
  intros s s' ts ts' ops ops' L L' S P P'. rewrite lex_correct in L, L'. injection L as <-. injection L' as <-.
  exists (cuts 0 (fparse (spec_tokens s))). split; [apply parse_in_order|]. split; [apply parse_stands; exact P|]. rewrite (parse_cuts _ _ 0 S). apply parse_stands. exact P'.
Qed.
