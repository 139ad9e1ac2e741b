(** Where nodes start and end: the first closing token closes, titles stay on their line, blocks
    end their line.  Facts about the syntax trees of FParser.v together with the tokens after them. *)
From Verif Require Import Base Lexer LexSpec LexProofs LexFacts Ops Parser FParser Refine Refine2 Refine3 Wf TokFacts StreamSpec StreamProofs.

(** ** A property of every node and the tokens after it *)

Fixpoint every (P : node -> list token -> list tree -> list token -> list token -> Prop) (t : tree) (rest : list token) : Prop :=
  match t with
  | Node n o k c =>
      P n o k c rest
      /\ (fix go k := match k with [] => True | u :: r => every P u (flat_map yield r ++ c ++ rest) /\ go r end) k
  | _ => True
  end.
Fixpoint everys P (k : list tree) (rest : list token) : Prop :=
  match k with [] => True | t :: r => every P t (yields r ++ rest) /\ everys P r rest end.

Lemma every_node : forall P n o k c rest, every P (Node n o k c) rest <-> P n o k c rest /\ everys P k (c ++ rest).
Proof.
  intros P n o k c rest. cbn [every]. apply and_iff_compat_l. induction k as [|u k IH]; [reflexivity|]. cbn [everys].
  apply and_iff_compat_l. exact IH.
Qed.
Lemma everys_app : forall P a b rest, everys P (a ++ b) rest <-> everys P a (yields b ++ rest) /\ everys P b rest.
Proof.
  intros P a b rest. induction a as [|t a IH]; cbn; [tauto|]. rewrite IH. rewrite yields_app, <- app_assoc. tauto.
Qed.
Lemma everys_leaf : forall P acc rest, everys P (leaf acc) rest.
Proof. intros P [|] rest; cbn; auto. Qed.

(** ** Tokens that are no stop *)

(** Nothing in [a] is a stop, with the tokens [rest] after it. *)
Fixpoint awake (st : list stop_condition) (a rest : list token) : Prop :=
  match a with [] => True | t :: r => stopped st (t :: r ++ rest) = false /\ awake st r rest end.

Lemma awake_app : forall st a b rest, awake st (a ++ b) rest <-> awake st a (b ++ rest) /\ awake st b rest.
Proof. intros st a b rest. induction a as [|t a IH]; cbn; [tauto|]. rewrite IH, <- app_assoc. tauto. Qed.

Lemma until_awake : forall st m ts b c rest, until st m ts = Some (b, c, rest) ->
  awake st (b ++ [c]) rest /\ Forall (fun t => m t = false) b.
Proof.
  intros st m. induction ts as [|t r IH]; intros b c rest H; cbn [until] in H; [discriminate|].
  destruct (stopped st (t :: r)) eqn:S0; [discriminate|]. destruct (m t) eqn:M.
  - injection H as <- <- <-. cbn. auto.
  - destruct (until st m r) as [[[b' c'] r']|] eqn:U; [|discriminate]. injection H as <- <- <-.
    destruct (IH _ _ _ eq_refl) as [A F]. pose proof (until_app _ _ _ _ _ _ U) as [-> _]. split; [|constructor; assumption].
    cbn [app awake]. split; [|exact A]. rewrite <- app_assoc. exact S0.
Qed.

(** Nesting of parentheses; [None]: more are closed than open. *)
Fixpoint nesting (d : nat) (ts : list token) : option nat :=
  match ts with
  | [] => Some d
  | t :: r =>
      match kind t with
      | LeftParenthesis => nesting (S d) r
      | RightParenthesis => match d with 0 => None | S d' => nesting d' r end
      | _ => nesting d r
      end
  end.

(** No token with [f] before the next stop. *)
Fixpoint none_until_stop (st : list stop_condition) (f : token -> bool) (ts : list token) : Prop :=
  match ts with
  | [] => True
  | t :: r => stopped st ts = true \/ (f t = false /\ none_until_stop st f r)
  end.

Lemma dest_scan_none : forall st ts n, 1 <= n -> dest_scan st n ts = None -> none_until_stop st is_right_paren ts.
Proof.
  intros st. induction ts as [|t r IH]; intros n Hn H; cbn [dest_scan none_until_stop] in *; [exact I|].
  destruct (stopped st (t :: r)); [left; reflexivity|]. right.
  assert (G : forall m, 1 <= m -> match dest_scan st m r with Some (b, c, rest) => Some (t :: b, c, rest) | None => None end = None ->
             none_until_stop st is_right_paren r).
  { intros m Hm E. apply (IH m Hm). destruct (dest_scan st m r) as [[[b c] rest]|]; [discriminate|reflexivity]. }
  unfold is_right_paren. destruct (kind t) eqn:K; cbn in *; try (split; [reflexivity|]); try (apply (G n); assumption).
  - apply (G (n + 1)); [lia|assumption].
  - destruct (n - 1 =? 0); [discriminate|]. destruct (dest_scan st (n - 1) r) as [[[b c] rest]|]; discriminate.
Qed.

Lemma dest_scan_awake : forall st ts n b c rest, 1 <= n -> dest_scan st n ts = Some (b, c, rest) ->
  awake st (b ++ [c]) rest
  /\ exists d, nesting (n - 1) b = Some d /\ (d = 0 \/ none_until_stop st is_right_paren rest).
Proof.
  intros st. induction ts as [|t r IH]; intros n b c rest Hn H; cbn [dest_scan] in H; [discriminate|].
  destruct (stopped st (t :: r)) eqn:S0; [discriminate|].
  assert (M : forall m, 1 <= m -> match dest_scan st m r with Some (b, c, rest) => Some (t :: b, c, rest) | None => None end
              = Some (b, c, rest) -> exists b', b = t :: b' /\ awake st (b ++ [c]) rest
                /\ exists d, nesting (m - 1) b' = Some d /\ (d = 0 \/ none_until_stop st is_right_paren rest)).
  { intros m Hm E. destruct (dest_scan st m r) as [[[b' c'] r']|] eqn:D; [|discriminate]. injection E as <- <- <-.
    destruct (IH _ _ _ _ Hm D) as [A N]. exists b'. split; [reflexivity|]. split; [|exact N].
    pose proof (dest_scan_app _ _ _ _ _ _ D) as [-> _]. cbn [app awake]. split; [|exact A]. rewrite <- app_assoc. exact S0. }
  destruct (kind t) eqn:K;
    try (destruct (M n Hn H) as (b' & -> & A & d & N); split; [exact A|]; exists d; cbn [nesting]; rewrite K; exact N).
  - destruct (M (n + 1) ltac:(lia) H) as (b' & -> & A & d & N). split; [exact A|]. exists d. cbn [nesting]. rewrite K.
    replace (S (n - 1)) with (n + 1 - 1) by lia. exact N.
  - destruct (n - 1 =? 0) eqn:Z.
    + injection H as <- <- <-. split; [cbn; auto|]. exists 0. cbn. apply Nat.eqb_eq in Z. rewrite Z. auto.
    + apply Nat.eqb_neq in Z. destruct (dest_scan st (n - 1) r) as [[[b0 c0] r0]|] eqn:D.
      * destruct (M (n - 1) ltac:(lia)) as (b' & -> & A & d & N); [rewrite D; exact H|]. split; [exact A|]. exists d. cbn [nesting]. rewrite K.
        destruct (n - 1) as [|m] eqn:Em; [lia|]. replace m with (S m - 1) by lia. exact N.
      * injection H as <- <- <-. split; [cbn; auto|]. exists (n - 1). split; [reflexivity|]. right. apply (dest_scan_none st r (n - 1)); [lia|exact D].
Qed.

(** No stop starts with such a token. *)
Lemma paren_awake : forall st t r, is_left_paren t = true -> stopped st (t :: r) = false.
Proof.
  intros st t r H. unfold is_left_paren in H. apply andb_true_iff in H. destruct H as [H _]. apply kind_eqb_eq in H. unfold stopped.
  apply not_true_is_false. intros X. apply existsb_exists in X. destruct X as (c & _ & X).
  destruct c as [| | |cur lk]; cbn [fmatches] in X; unfold nth_is in X; cbn [nth_error is_some_and] in X.
  - unfold is_terminator in X. rewrite H in X. discriminate.
  - unfold is_collapsible_end, is_eol in X. rewrite H in X. discriminate.
  - unfold is_two_bangs in X. rewrite H in X. discriminate.
  - apply andb_true_iff in X. destruct X as [_ X]. apply existsb_exists in X. destruct X as (l & _ & X). unfold boundary_at, nth_is in X. cbn [nth_error is_some_and] in X.
    destruct (l =? 0); apply andb_true_iff in X; destruct X as [_ X]; apply andb_true_iff in X; destruct X as [X _].
    + unfold is_list_marker, list_kind_of in X. rewrite H in X. discriminate.
    + unfold is_indent in X. rewrite H in X. discriminate.
Qed.

(** ** The property *)

Definition free (f : token -> bool) (ts : list token) : Prop := Forall (fun t => f t = false) ts.
Definition leaf_free (f : token -> bool) (k : list tree) : Prop := exists b, k = [Leaf b] /\ free f b.

(** The line ends with [c], or directly after it. *)
Definition line_over (c rest : list token) : Prop :=
  (exists c' e, c = c' ++ [e] /\ is_eol e = true)
  \/ match rest with [] => True | t :: _ => is_terminator t = true \/ is_eol t = true \/ col0 t = true end.

(** An anchor whose destination has unclosed parentheses. *)
Definition unbalanced (t : tree) : Prop :=
  exists a o b c d, t = Node NAnchor [] [a; Node NDestination o [Leaf b] c] [] /\ nesting 0 b = Some (S d).
Fixpoint closed_late (k : list tree) : Prop :=
  match k with [] => True | t :: r => (unbalanced t -> free is_right_paren (yields r)) /\ closed_late r end.

(** A node could be read here. *)
Definition opens_delim (f g : token -> bool) (ts : list token) : Prop :=
  exists o b c r, ts = o :: b ++ c :: r /\ f o = true /\ g c = true.
Definition opens_anchor (ts : list token) : Prop :=
  exists o b c p d q r, ts = o :: b ++ c :: p :: d ++ q :: r /\ is_left_bracket o = true /\ free is_right_bracket b
    /\ is_right_bracket c = true /\ is_left_paren p = true /\ kind q = RightParenthesis.
Definition opens_bold (ts : list token) : Prop :=
  exists o b c r, ts = o :: b ++ c :: r /\ is_star2 o = true /\ free is_tilde b /\ free is_underscore b /\ is_star2 c = true.
Definition opens_inline (ts : list token) : Prop :=
  opens_anchor ts \/ opens_bold ts \/ opens_delim is_tilde is_tilde ts \/ opens_delim is_underscore is_underscore ts
  \/ opens_delim is_backtick is_backtick ts \/ opens_delim is_star is_star ts.
Definition opens_in_bold (ts : list token) : Prop :=
  opens_delim is_tilde is_tilde ts \/ opens_delim is_underscore is_underscore ts.
(** No text among the children holds the start of such a node. *)
Fixpoint none_missed (P : list token -> Prop) (k : list tree) : Prop :=
  match k with
  | [] => True
  | Leaf b :: r => (forall x y, b = x ++ y -> y <> [] -> ~ P (y ++ yields r)) /\ none_missed P r
  | _ :: r => none_missed P r
  end.

(** A block could be read from these tokens of a paragraph. *)
Definition opens_heading (p : list token) : Prop := exists t u r, p = t :: u :: r /\ is_hash t = true /\ is_space_1 u = true.
Definition opens_break (p : list token) : Prop := exists t r, p = t :: r /\ is_dash5 t = true.
Definition opens_list (p : list token) : Prop := exists t u r, p = t :: u :: r /\ col0 t = true /\ list_kind_of t <> None /\ is_space_1 u = true.
Definition ends_block (r : list token) : Prop := match r with [] => True | e :: _ => is_eol_or_terminator e = true end.
Definition quiet (ts : list token) : Prop := free is_collapsible_end ts.
Definition opens_code (p : list token) : Prop :=
  exists o b1 e b2 c r, p = o :: b1 ++ e :: b2 ++ c :: r /\ is_backtick3 o = true /\ free is_eol_or_terminator b1 /\ free is_backtick3 b1
    /\ is_eol_or_terminator e = true /\ free is_backtick3 b2 /\ is_backtick3 c = true /\ ends_block r.
Definition opens_embed (p : list token) : Prop :=
  exists o b1 s b2 c r, p = o :: b1 ++ s :: b2 ++ c :: r /\ is_left_curly2 o = true /\ free is_pipe b1 /\ quiet b1 /\ is_pipe s = true
    /\ free is_right_curly2 b2 /\ quiet b2 /\ is_right_curly2 c = true /\ ends_block r.
Definition image_tokens (p : list token) : Prop :=
  exists t o b c u d q, p = t :: o :: b ++ c :: u :: d ++ [q] /\ is_bang t = true /\ is_left_bracket o = true /\ free is_right_bracket b
    /\ is_right_bracket c = true /\ is_left_paren u = true /\ nesting 0 d = Some 0 /\ kind q = RightParenthesis.
Inductive opens_images : list token -> Prop :=
| images_last : forall i, image_tokens i -> opens_images i
| images_eol : forall i e, image_tokens i -> is_eol e = true -> opens_images (i ++ [e])
| images_more : forall i e r, image_tokens i -> is_eol e = true -> opens_images r -> opens_images (i ++ e :: r).
Definition highlight_body (w : list token) : Prop := exists b c r, w = b ++ c :: r /\ nth_is 0 col0 w = true /\ is_two_bangs c = true /\ quiet b.
Definition highlight_rest (w : list token) : Prop :=
  (fseq [is_one_bang; is_space_1] w = None /\ highlight_body w)
  \/ exists t u b e w', w = t :: u :: b ++ e :: w' /\ is_one_bang t = true /\ is_space_1 u = true /\ free is_eol_or_terminator b
       /\ ((is_eol e = true /\ quiet b /\ highlight_body w') \/ (is_terminator e = true /\ highlight_body w)).
Definition opens_highlight (p : list token) : Prop :=
  exists o u r, p = o :: u :: r /\ is_two_bangs o = true
    /\ ((is_space_1 u = true /\ exists b e w, r = b ++ e :: w /\ free is_eol_or_terminator b /\ quiet b /\ is_eol_or_terminator e = true /\ nth_is 0 col0 r = false /\ highlight_rest w)
        \/ (is_eol u = true /\ highlight_rest r)).
(** Blocks that end with the paragraph, and blocks that can reach beyond it. *)
Definition opens_block (p : list token) : Prop := opens_heading p \/ opens_break p \/ opens_list p \/ opens_images p.
Definition opens_ahead (w : list token) : Prop := opens_code w \/ opens_embed w \/ opens_highlight w.
Definition is_no_block (t : tree) (rest : list token) : Prop :=
  match t with Node NParagraph _ k _ => ~ opens_block (yields k) /\ ~ opens_ahead (yields k ++ rest) | _ => True end.
Fixpoint no_blocks (k : list tree) (rest : list token) : Prop :=
  match k with [] => True | t :: r => is_no_block t (yields r ++ rest) /\ no_blocks r rest end.
Definition tight (n : node) (o : list token) (k : list tree) (c rest : list token) : Prop :=
  match n with
  | NMetadata => leaf_free is_three_dashes k
  | NTitle => leaf_free is_right_bracket k
  | NItalic => leaf_free is_underscore k
  | NStrikethrough => leaf_free is_tilde k
  | NEmphasis => leaf_free is_star k
  | NCodeSpan => leaf_free is_backtick k
  | NDestination => exists b d, k = [Leaf b] /\ nesting 0 b = Some d
  | NBold => Forall (fun t => match t with Leaf b => free is_star2 b | _ => True end) k /\ none_missed opens_in_bold k
  | NParagraph => closed_late k /\ none_missed opens_inline k
  | NHeading => closed_late k /\ none_missed opens_anchor k
  | NDocument => no_blocks k (c ++ rest)
  | NImage => line_over c rest
  | NModifier => leaf_free is_eol_or_terminator k /\ nth_is 0 col0 (yields k ++ c) = false
  | NIcon => leaf_free is_eol_or_terminator k
  | NEmbed => line_over c rest /\ exists a s b, k = [Leaf a; Leaf [s]; Leaf b] /\ free is_pipe a /\ free is_right_curly2 b
  | NCode => line_over c rest /\ exists k1 b, k = k1 ++ [Leaf b] /\ free is_backtick3 b
  | _ => True
  end.

(** A tree that is tight whatever follows. *)
Definition snug (t : tree) : Prop := forall rest, every tight t rest.
Lemma everys_snug : forall k rest, Forall snug k -> everys tight k rest.
Proof. intros k rest H. induction H; cbn; auto. Qed.
Lemma snug_node : forall n o k c, (forall rest, tight n o k c rest) -> Forall snug k -> snug (Node n o k c).
Proof. intros n o k c T F rest. apply every_node. split; [apply T|apply everys_snug; exact F]. Qed.
Lemma snug_leaf : forall ts, snug (Leaf ts). Proof. intros ts rest. exact I. Qed.
Lemma snug_leafs : forall acc, Forall snug (leaf acc).
Proof. intros [|]; repeat constructor; apply snug_leaf. Qed.

Definition snugs (g : fparser) : Prop := forall st ts t rest, g st ts = Some (t, rest) -> snug t.
(** What is consumed is no stop. *)
Definition wakes (g : fparser) : Prop := forall st ts t rest, g st ts = Some (t, rest) ->
  stopped st ts = false -> awake st (yield t) rest.

Lemma snugs_orelse : forall f g, snugs f -> snugs g -> snugs (forelse f g).
Proof. intros f g F G st ts t rest H. apply forelse_some in H. destruct H as [H|H]; eauto. Qed.
Lemma wakes_orelse : forall f g, wakes f -> wakes g -> wakes (forelse f g).
Proof. intros f g F G st ts t rest H S0. apply forelse_some in H. destruct H as [H|H]; eauto. Qed.

Lemma snugs_delim : forall n f g, (forall o k c rest, leaf_free g k -> tight n o k c rest) -> snugs (fdelim n f g).
Proof.
  intros n f g H st ts t rest E. unfold fdelim in E. destruct ts as [|a r]; [discriminate|].
  destruct (f a); [|discriminate]. destruct (until st g r) as [[[b c] r']|] eqn:U; [|discriminate].
  injection E as <- <-. apply until_awake in U. destruct U as [_ U]. apply snug_node; [|repeat constructor; apply snug_leaf].
  intros rest. apply H. exists b. auto.
Qed.
Lemma wakes_delim : forall n f g, wakes (fdelim n f g).
Proof.
  intros n f g st ts t rest E S0. unfold fdelim in E. destruct ts as [|a r]; [discriminate|].
  destruct (f a); [|discriminate]. destruct (until st g r) as [[[b c] r']|] eqn:U; [|discriminate].
  injection E as <- <-. pose proof (until_app _ _ _ _ _ _ U) as [-> _]. apply until_awake in U. destruct U as [U _].
  cbn. rewrite app_nil_r. split; [|exact U]. rewrite <- app_assoc. exact S0.
Qed.
Lemma snugs_title : snugs ftitle. Proof. apply snugs_delim. auto. Qed.
Lemma snugs_italic : snugs fitalic. Proof. apply snugs_delim. auto. Qed.
Lemma snugs_strike : snugs fstrike. Proof. apply snugs_delim. auto. Qed.
Lemma snugs_emphasis : snugs femphasis. Proof. apply snugs_delim. auto. Qed.
Lemma snugs_code_span : snugs fcode_span. Proof. apply snugs_delim. auto. Qed.
Lemma snugs_metadata : snugs fmetadata. Proof. apply snugs_delim. auto. Qed.

Lemma fdest_facts : forall st ts t rest, fdest st ts = Some (t, rest) ->
  snug t /\ awake st (yield t) rest
  /\ exists o b c d, t = Node NDestination o [Leaf b] c /\ nesting 0 b = Some d /\ (d = 0 \/ none_until_stop st is_right_paren rest).
Proof.
  intros st ts t rest E. unfold fdest in E. destruct ts as [|a r]; [discriminate|].
  destruct (is_left_paren a) eqn:P; [|discriminate]. destruct (dest_scan st 1 r) as [[[b c] r']|] eqn:U; [|discriminate].
  injection E as <- <-. pose proof (dest_scan_app _ _ _ _ _ _ U) as [-> _]. apply dest_scan_awake in U; [|lia].
  destruct U as (A & d & N & D). split; [|split].
  - apply snug_node; [|repeat constructor; apply snug_leaf]. intros rest. exists b, d. auto.
  - cbn. rewrite app_nil_r. split; [|exact A]. apply paren_awake. exact P.
  - exists [a], b, [c], d. auto.
Qed.

Lemma fanchor_facts : forall st ts t rest, fanchor st ts = Some (t, rest) ->
  snug t /\ (stopped st ts = false -> awake st (yield t) rest)
  /\ (unbalanced t -> none_until_stop st is_right_paren rest).
Proof.
  intros st ts t rest E. unfold fanchor in E.
  destruct (ftitle st ts) as [[t1 r1]|] eqn:E1; [|discriminate].
  destruct (fdest st r1) as [[t2 r2]|] eqn:E2; [|discriminate]. injection E as <- <-.
  destruct (fdest_facts _ _ _ _ E2) as (S2 & A2 & o & b & c & d & Et & N & D). split; [|split].
  - apply snug_node; [intros rest; exact I|]. repeat constructor; [eapply snugs_title; eauto|exact S2].
  - intros S0. cbn. rewrite !app_nil_r. apply awake_app. split; [|exact A2].
    pose proof (covers_dest _ _ _ _ E2) as [-> _]. eapply wakes_delim; eauto.
  - intros (a' & o' & b' & c' & d' & Eq & N'). injection Eq as -> ->. injection Et as <- <- <-. destruct D as [->|D]; [congruence|exact D].
Qed.
Lemma snugs_anchor : snugs fanchor. Proof. intros st ts t rest E. apply fanchor_facts in E. apply E. Qed.
Lemma wakes_anchor : wakes fanchor. Proof. intros st ts t rest E. apply fanchor_facts in E. apply E. Qed.

(** Where a node could be read, it is read. *)
Definition sees (P : list token -> Prop) (g : fparser) : Prop := forall st ts rest, P ts -> awake st ts rest -> g st (ts ++ rest) <> None.

Lemma until_sees : forall st g b c r rest, g c = true -> awake st (b ++ c :: r) rest -> until st g (b ++ c :: r ++ rest) <> None.
Proof.
  intros st g b c r rest G. induction b as [|t b IH]; intros A; cbn [app] in *.
  - destruct A as [A _]. cbn [until]. rewrite A, G. discriminate.
  - destruct A as [A0 A]. cbn [until]. rewrite <- app_assoc in A0. cbn [app] in A0. rewrite A0. destruct (g t); [discriminate|].
    specialize (IH A). destruct (until st g (b ++ c :: r ++ rest)) as [[[? ?] ?]|]; congruence.
Qed.
Lemma sees_delim : forall n f g, sees (opens_delim f g) (fdelim n f g).
Proof.
  intros n f g st ts rest (o & b & c & r & -> & F & G) A. cbn [app fdelim]. rewrite F. destruct A as [_ A].
  rewrite <- app_assoc. cbn [app]. pose proof (until_sees st g b c r rest G A) as X. destruct (until st g (b ++ c :: r ++ rest)) as [[[? ?] ?]|]; congruence.
Qed.
Lemma until_first : forall st g b c r rest, g c = true -> free g b -> awake st (b ++ c :: r) rest -> until st g (b ++ c :: r ++ rest) = Some (b, c, r ++ rest).
Proof.
  intros st g b c r rest G. induction b as [|t b IH]; intros F A; cbn [app] in *.
  - destruct A as [A _]. cbn [until]. rewrite A, G. reflexivity.
  - destruct A as [A0 A]. inversion F as [|? ? F0 F1]; subst. cbn [until]. rewrite <- app_assoc in A0. cbn [app] in A0. rewrite A0, F0, (IH F1 A). reflexivity.
Qed.
Lemma dest_sees : forall st d q r rest n, kind q = RightParenthesis -> awake st (d ++ q :: r) rest -> dest_scan st n (d ++ q :: r ++ rest) <> None.
Proof.
  intros st d q r rest n K. revert n. induction d as [|t d IH]; intros n A; cbn [app] in *.
  - destruct A as [A _]. cbn [dest_scan]. rewrite A, K. destruct (n - 1 =? 0); [discriminate|]. destruct (dest_scan st (n - 1) (r ++ rest)) as [[[? ?] ?]|]; discriminate.
  - destruct A as [A0 A]. cbn [dest_scan]. rewrite <- app_assoc in A0. cbn [app] in A0. rewrite A0.
    assert (X : forall m, match dest_scan st m (d ++ q :: r ++ rest) with Some (b, c, rest) => Some (t :: b, c, rest) | None => None end <> None).
    { intros m. specialize (IH m A). destruct (dest_scan st m (d ++ q :: r ++ rest)) as [[[? ?] ?]|]; congruence. }
    destruct (kind t); try apply X. destruct (n - 1 =? 0); [discriminate|].
    specialize (X (n - 1)). destruct (match dest_scan st (n - 1) (d ++ q :: r ++ rest) with Some (b, c, rest) => Some (t :: b, c, rest) | None => None end) as [[[? ?] ?]|]; congruence.
Qed.
Lemma sees_anchor : sees opens_anchor fanchor.
Proof.
  intros st ts rest (o & b & c & p & d & q & r & -> & Ko & Fb & Kc & Kp & Kq) A. destruct A as [_ A]. unfold fanchor, ftitle, fdelim. cbn [app]. rewrite Ko.
  rewrite <- app_assoc. cbn [app]. pose proof (until_first st is_right_bracket b c (p :: d ++ q :: r) rest Kc Fb A) as U.
  cbn [app] in U. rewrite U. unfold fdest. rewrite Kp. apply awake_app in A. destruct A as [_ [_ [_ A]]].
  pose proof (dest_sees st d q r rest 1 Kq A) as X. rewrite <- app_assoc. cbn [app].
  destruct (dest_scan st 1 (d ++ q :: r ++ rest)) as [[[? ?] ?]|]; congruence.
Qed.
Lemma bold_sees : forall st c r rest, is_star2 c = true -> forall b n acc, free is_tilde b -> free is_underscore b -> awake st (b ++ c :: r) rest ->
  length b < n -> fbold_loop n st acc (b ++ c :: r ++ rest) <> None.
Proof.
  intros st c r rest Kc. induction b as [|t b IH]; intros n acc F1 F2 A L; cbn [app] in *; (destruct n as [|n]; [inversion L|]); cbn [fbold_loop].
  - destruct A as [A _]. rewrite A, Kc. discriminate.
  - destruct A as [A0 A]. rewrite <- app_assoc in A0. cbn [app] in A0. rewrite A0. destruct (is_star2 t); [discriminate|].
    inversion F1 as [|? ? F1a F1b]; subst. inversion F2 as [|? ? F2a F2b]; subst. unfold forelse, fstrike, fitalic, fdelim. rewrite F1a, F2a.
    apply IH; try assumption. cbn in L. lia.
Qed.
Lemma sees_bold : sees opens_bold fbold.
Proof.
  intros st ts rest (o & b & c & r & -> & Ko & F1 & F2 & Kc) A. destruct A as [_ A]. cbn [app fbold]. rewrite Ko, <- app_assoc. cbn [app].
  pose proof (bold_sees st c r rest Kc b (S (length (b ++ c :: r ++ rest))) [] F1 F2 A) as X.
  destruct (fbold_loop (S (length (b ++ c :: r ++ rest))) st [] (b ++ c :: r ++ rest)) as [[[? ?] ?]|]; [discriminate|]. exfalso. apply X; [|reflexivity].
  rewrite !app_length. cbn. lia.
Qed.
Lemma sees_left : forall P f g, sees P f -> sees P (forelse f g).
Proof. intros P f g F st ts rest H A. specialize (F st ts rest H A). unfold forelse. destruct (f st (ts ++ rest)); congruence. Qed.
Lemma sees_right : forall P f g, sees P g -> sees P (forelse f g).
Proof. intros P f g F st ts rest H A. specialize (F st ts rest H A). unfold forelse. destruct (f st (ts ++ rest)); congruence. Qed.
Lemma sees_or : forall P Q g, sees P g -> sees Q g -> sees (fun ts => P ts \/ Q ts) g.
Proof. intros P Q g F G st ts rest [H|H] A; [apply F|apply G]; assumption. Qed.
Lemma sees_inline : sees opens_inline finline.
Proof.
  unfold opens_inline, finline. repeat apply sees_or;
    first [solve [repeat first [apply sees_anchor|apply sees_bold|apply sees_delim|apply sees_left; solve [first [apply sees_anchor|apply sees_bold|apply sees_delim]]|apply sees_right]]].
Qed.
Lemma sees_in_bold : sees opens_in_bold (forelse fstrike fitalic).
Proof. apply sees_or; [apply sees_left|apply sees_right]; apply sees_delim. Qed.

Lemma fbold_loop_facts : forall n st acc ts k c rest, length ts < n -> fbold_loop n st acc ts = Some (k, c, rest) ->
  free is_star2 acc -> awake st acc ts ->
  Forall snug k /\ Forall (fun t => match t with Leaf b => free is_star2 b | _ => True end) k /\ awake st (yields k ++ [c]) rest.
Proof.
  induction n; intros st acc ts k c rest Hn H FA WA; cbn [fbold_loop] in H; [discriminate|].
  assert (LF : Forall (fun t => match t with Leaf b => free is_star2 b | _ => True end) (leaf acc)).
  { destruct acc; [constructor|]. constructor; [exact FA|constructor]. }
  destruct ts as [|t r]; [discriminate|]. destruct (stopped st (t :: r)) eqn:S0; [discriminate|].
  destruct (is_star2 t) eqn:E2.
  - injection H as <- <- <-. split; [apply snug_leafs|]. split; [exact LF|]. rewrite yields_leaf. apply awake_app. cbn. auto.
  - destruct (forelse fstrike fitalic st (t :: r)) as [[x r']|] eqn:E.
    + destruct (fbold_loop n st [] r') as [[[k' c'] r2]|] eqn:F; [|discriminate]. injection H as <- <- <-.
      pose proof (covers_orelse _ _ (covers_delim _ _ _) (covers_delim _ _ _) _ _ _ _ E) as [Ex L].
      assert (LL : length (t :: r) = length (yield x) + length r') by (rewrite Ex; apply app_length).
      assert (Lr : length r' < n) by lia. pose proof (fbold_loop_app _ _ _ _ _ _ _ Lr F) as [Ey _]. cbn [app] in Ey.
      apply IHn in F; [|lia|constructor|exact I]. destruct F as (F1 & F2 & F3).
      assert (Sx : snug x) by (revert E; apply snugs_orelse; [apply snugs_strike|apply snugs_italic]).
      assert (Wx : awake st (yield x) r') by (revert E S0; apply wakes_orelse; apply wakes_delim).
      assert (NL : match x with Leaf b => free is_star2 b | _ => True end).
      { apply forelse_some in E. destruct E as [E|E]; [apply makes_strike in E|apply makes_italic in E];
          destruct E as (_ & o' & k0 & c0 & ->); exact I. }
      split; [apply Forall_app; split; [apply snug_leafs|constructor; assumption]|].
      split; [apply Forall_app; split; [exact LF|constructor; assumption]|].
      rewrite yields_app, yields_leaf. cbn [yields flat_map]. fold (yields k'). rewrite <- !app_assoc. rewrite Ey in Wx, Ex.
      apply awake_app. split.
      * rewrite <- !app_assoc. cbn [app]. rewrite <- Ex. exact WA.
      * apply awake_app. split; [|exact F3]. rewrite <- app_assoc. exact Wx.
    + apply IHn in H; [exact H|simpl in Hn; lia| |].
      * apply Forall_app. split; [exact FA|]. repeat constructor. exact E2.
      * apply awake_app. split; [exact WA|]. cbn. auto.
Qed.

Lemma none_missed_leaf : forall P acc, (forall x y, acc = x ++ y -> y <> [] -> ~ P (y ++ [])) -> none_missed P (leaf acc).
Proof. intros P [|a acc] H; cbn; auto. Qed.
Lemma fbold_none_missed : forall n st acc ts k c rest, length ts < n -> fbold_loop n st acc ts = Some (k, c, rest) ->
  free is_star2 acc -> awake st acc ts -> (forall x y, acc = x ++ y -> y <> [] -> forelse fstrike fitalic st (y ++ ts) = None) -> none_missed opens_in_bold k.
Proof.
  induction n; intros st acc ts k c rest Hn H FA WA N; [discriminate|]. pose proof (fbold_loop_facts _ _ _ _ _ _ _ Hn H FA WA) as (_ & _ & W). cbn [fbold_loop] in H.
  destruct ts as [|t r]; [discriminate|]. destruct (stopped st (t :: r)) eqn:S0; [discriminate|].
  destruct (is_star2 t) eqn:E2.
  - injection H as <- <- <-. apply none_missed_leaf. intros x y -> NE HP. rewrite app_nil_r in HP. apply awake_app in WA. destruct WA as [_ WA]. exact (sees_in_bold st y (t :: r) HP WA (N x y eq_refl NE)).
  - destruct (forelse fstrike fitalic st (t :: r)) as [[x r']|] eqn:E.
    + destruct (fbold_loop n st [] r') as [[[k' c'] r2]|] eqn:F; [|discriminate]. injection H as <- <- <-.
      pose proof (covers_orelse _ _ (covers_delim _ _ _) (covers_delim _ _ _) _ _ _ _ E) as [Ex L].
      assert (LL : length (t :: r) = length (yield x) + length r') by (rewrite Ex; apply app_length).
      assert (Lr : length r' < n) by lia. pose proof (fbold_loop_app _ _ _ _ _ _ _ Lr F) as [Ey _]. cbn [app] in Ey.
      assert (K : none_missed opens_in_bold k') by (eapply (IHn st [] r'); [exact Lr|exact F|constructor|exact I|intros [|? ?] y Ee NE; [cbn [app] in Ee; congruence|discriminate]]).
      assert (X : none_missed opens_in_bold (x :: k')).
      { apply forelse_some in E. destruct E as [E|E]; [apply makes_strike in E|apply makes_italic in E]; destruct E as (_ & o' & k0 & c0 & ->); exact K. }
      destruct acc as [|a acc]; [exact X|]. split; [|exact X]. intros p q Ep NE HP. specialize (N p q Ep NE).
      refine (sees_in_bold st (q ++ yields (x :: k')) (c' :: r2) HP _ _).
      * rewrite yields_app, yields_leaf, Ep, <- !app_assoc in W. apply awake_app in W. destruct W as [_ W]. rewrite app_assoc in W. apply awake_app in W. apply W.
      * rewrite <- app_assoc. cbn [yields flat_map]. fold (yields k'). rewrite <- app_assoc, <- Ey, <- Ex. exact N.
    + eapply IHn; [|exact H| | |]; [simpl in Hn; lia|apply Forall_app; split; [exact FA|repeat constructor; exact E2]|apply awake_app; cbn; auto|].
      intros p q Ep NE. destruct q as [|u q _] using rev_ind; [congruence|]. rewrite app_assoc in Ep. apply app_inj_tail in Ep. destruct Ep as [-> ->].
      destruct q as [|v q]; [exact E|]. rewrite <- app_assoc. apply (N p (v :: q)); [reflexivity|discriminate].
Qed.

Lemma fbold_facts : forall st ts t rest, fbold st ts = Some (t, rest) -> snug t /\ (stopped st ts = false -> awake st (yield t) rest).
Proof.
  intros st ts t rest E. unfold fbold in E. destruct ts as [|a r]; [discriminate|].
  destruct (is_star2 a) eqn:Ef; [|discriminate].
  destruct (fbold_loop (S (length r)) st [] r) as [[[k c] r']|] eqn:F; [|discriminate]. injection E as <- <-.
  pose proof (fbold_loop_app _ _ _ _ _ _ _ (Nat.lt_succ_diag_r _) F) as [Ey _]. cbn [app] in Ey. subst r.
  assert (FM : none_missed opens_in_bold k) by (eapply fbold_none_missed; [|exact F|constructor|exact I|intros [|? ?] y Ee NE; [cbn [app] in Ee; congruence|discriminate]]; lia).
  apply fbold_loop_facts in F; [|lia|constructor|exact I]. destruct F as (F1 & F2 & F3). split.
  - apply snug_node; [intros rest0; exact (conj F2 FM)|exact F1].
  - intros S0. cbn. fold (yields k). split; [|exact F3]. rewrite <- app_assoc. exact S0.
Qed.

Lemma snugs_inline : snugs finline.
Proof.
  unfold finline. repeat apply snugs_orelse; auto using snugs_strike, snugs_italic, snugs_anchor, snugs_code_span, snugs_emphasis.
  intros st ts t rest E. apply fbold_facts in E. apply E.
Qed.
Lemma wakes_inline : wakes finline.
Proof.
  unfold finline. repeat apply wakes_orelse; try apply wakes_delim; [|apply wakes_anchor].
  intros st ts t rest E. apply fbold_facts in E. apply E.
Qed.

Lemma none_free : forall st f a rest, none_until_stop st f (a ++ rest) -> awake st a rest -> free f a.
Proof.
  intros st f a rest. induction a as [|t a IH]; intros N A; [constructor|]. destruct A as [A1 A2]. destruct N as [N|[N1 N2]].
  - cbn [app] in N. congruence.
  - constructor; [exact N1|apply IH; assumption].
Qed.

(** Text and nodes. *)
Lemma fitems_facts : forall g n st acc ts k rest, covers g -> snugs g -> wakes g ->
  (forall st ts t rest, g st ts = Some (t, rest) -> unbalanced t -> none_until_stop st is_right_paren rest) ->
  length ts < n -> awake st acc ts -> fitems g n st acc ts = (k, rest) ->
  Forall snug k /\ closed_late k /\ awake st (yields k) rest.
Proof.
  intros g n. induction n; intros st acc ts k rest C SG WG UG Hn A H; [lia|]. cbn [fitems] in H.
  assert (L : Forall snug (leaf acc) /\ closed_late (leaf acc) /\ awake st (yields (leaf acc)) ts).
  { split; [apply snug_leafs|]. rewrite yields_leaf. split; [|exact A]. destruct acc; cbn; auto. split; [|exact I].
    intros (? & ? & ? & ? & ? & ? & _). discriminate. }
  destruct (stopped st ts) eqn:S0.
  { injection H as <- <-. exact L. }
  destruct (g st ts) as [[x r]|] eqn:E.
  - destruct (fitems g n st [] r) as [k' r'] eqn:F. injection H as <- <-.
    pose proof (C _ _ _ _ E) as [Ex Lx].
    assert (LL : length ts = length (yield x) + length r) by (rewrite Ex; apply app_length).
    assert (Lr : length r < n) by lia. pose proof (fitems_app g C _ _ _ _ _ _ Lr F) as Er. cbn [app] in Er.
    apply (IHn st [] r k' r' C SG WG UG Lr I) in F. destruct F as (F1 & F2 & F3). destruct L as (L1 & L2 & L3).
    pose proof (WG _ _ _ _ E S0) as Wx. split; [apply Forall_app; split; [exact L1|constructor; [eapply SG; eauto|exact F1]]|]. split.
    + assert (X : closed_late (x :: k')).
      { split; [|exact F2]. intros U. apply (UG _ _ _ _ E) in U. rewrite Er in U. eapply none_free; eauto. }
      destruct acc; [exact X|]. split; [|exact X]. intros (? & ? & ? & ? & ? & ? & _). discriminate.
    + rewrite yields_app, yields_leaf. cbn [yields flat_map]. fold (yields k'). apply awake_app.
      rewrite <- app_assoc, <- Er, <- Ex. split; [exact A|]. apply awake_app. rewrite <- Er. auto.
  - destruct ts as [|t r].
    + injection H as <- <-. exact L.
    + apply IHn in H; auto; [simpl in Hn; lia|]. apply awake_app. split; [exact A|]. cbn. auto.
Qed.

Lemma fitems_none_missed : forall P g n st acc ts k rest, sees P g -> covers g -> snugs g -> wakes g ->
  (forall st ts t rest, g st ts = Some (t, rest) -> unbalanced t -> none_until_stop st is_right_paren rest) -> length ts < n -> awake st acc ts ->
  (forall x y, acc = x ++ y -> y <> [] -> g st (y ++ ts) = None) -> (forall st ts t r, g st ts = Some (t, r) -> match t with Leaf _ => False | _ => True end) ->
  fitems g n st acc ts = (k, rest) -> none_missed P k.
Proof.
  intros P g n. induction n; intros st acc ts k rest SG C GG WG UG Hn A N NL H; [lia|]. cbn [fitems] in H.
  assert (L : none_missed P (leaf acc)).
  { apply none_missed_leaf. intros x y -> NE HP. rewrite app_nil_r in HP. apply awake_app in A. destruct A as [_ A]. exact (SG st y ts HP A (N x y eq_refl NE)). }
  destruct (stopped st ts) eqn:S0; [injection H as <- <-; exact L|].
  destruct (g st ts) as [[x r]|] eqn:E.
  - destruct (fitems g n st [] r) as [k' r'] eqn:F. injection H as <- <-. pose proof (C _ _ _ _ E) as [Ex Lx].
    assert (LL : length ts = length (yield x) + length r) by (rewrite Ex; apply app_length).
    assert (Lr : length r < n) by lia. pose proof (fitems_app g C _ _ _ _ _ _ Lr F) as Er. cbn [app] in Er.
    assert (W : awake st (yields k') r') by (apply (fitems_facts g n st [] r k' r' C GG WG UG Lr I F)).
    assert (K : none_missed P k') by (apply (IHn st [] r k' r' SG C GG WG UG Lr I); [intros [|? ?] y Ey NE; [cbn [app] in Ey; congruence|discriminate]|exact NL|exact F]).
    assert (X : none_missed P (x :: k')) by (specialize (NL _ _ _ _ E); destruct x; [contradiction|exact K|exact K]).
    destruct acc as [|a acc]; [exact X|]. split; [|exact X]. intros p q Ep NE HP. specialize (N p q Ep NE). rewrite Ep in A. apply awake_app in A. destruct A as [_ A].
    refine (SG st (q ++ yields (x :: k')) r' HP _ _).
    + apply awake_app. cbn [yields flat_map]. fold (yields k'). rewrite <- app_assoc, <- Er, <- Ex. split; [exact A|]. apply awake_app. rewrite <- Er. split; [exact (WG _ _ _ _ E S0)|exact W].
    + cbn [yields flat_map]. fold (yields k'). rewrite <- !app_assoc, <- Er, <- Ex. exact N.
  - destruct ts as [|t r]; [injection H as <- <-; exact L|].
    eapply IHn; [exact SG|exact C|exact GG|exact WG|exact UG| | | |exact NL|exact H]; [simpl in Hn; lia|apply awake_app; cbn; auto|].
    intros p q Ep NE. destruct q as [|u q _] using rev_ind; [congruence|]. rewrite app_assoc in Ep. apply app_inj_tail in Ep. destruct Ep as [-> ->].
    destruct q as [|v q]; [exact E|]. rewrite <- app_assoc. apply (N p (v :: q)); [reflexivity|discriminate].
Qed.

Lemma inline_unbalanced : forall st ts t rest, finline st ts = Some (t, rest) -> unbalanced t -> none_until_stop st is_right_paren rest.
Proof.
  intros st ts t rest E U. unfold finline in E. orelse_cases E;
    [apply makes_strike in E|apply makes_italic in E|apply makes_bold in E|eapply fanchor_facts; eassumption|apply makes_code_span in E|apply makes_emphasis in E];
    destruct E as (_ & o & k & c & ->); destruct U as (? & ? & ? & ? & ? & ? & _); discriminate.
Qed.

Lemma fparagraph_facts : forall st ts t rest, fparagraph st ts = (t, rest) -> snug t /\ awake st (yield t) rest.
Proof.
  intros st ts t rest H. unfold fparagraph in H.
  destruct (fitems finline (S (length ts)) st [] ts) as [k r] eqn:F. injection H as <- <-.
  assert (FM : none_missed opens_inline k).
  { apply (fitems_none_missed opens_inline finline (S (length ts)) st [] ts k r); [apply sees_inline|apply covers_inline|apply snugs_inline|apply wakes_inline|apply inline_unbalanced| |exact I| | |exact F];
      [lia|intros [|? ?] y Ee NE; [cbn [app] in Ee; congruence|discriminate]|].
    intros st0 ts0 t r0 E. unfold finline in E. orelse_cases E;
      [apply makes_strike in E|apply makes_italic in E|apply makes_bold in E|apply makes_anchor in E|apply makes_code_span in E|apply makes_emphasis in E];
      destruct E as (_ & o & k0 & c & ->); exact I. }
  apply fitems_facts in F; [|apply covers_inline|apply snugs_inline|apply wakes_inline|apply inline_unbalanced|lia|exact I].
  destruct F as (F1 & F2 & F3). split; [apply snug_node; [intros rest0; exact (conj F2 FM)|exact F1]|]. cbn. rewrite app_nil_r. exact F3.
Qed.
Lemma snugs_heading : snugs fheading.
Proof.
  intros st ts t rest H. rewrite fheading_eq in H.
  destruct (fseq [is_hash; is_space_1] ts) as [[o r]|] eqn:Q; [|discriminate].
  destruct (fitems fanchor (S (length r)) st [] r) as [k r'] eqn:F. injection H as <- <-.
  assert (UA : forall st ts t rest, fanchor st ts = Some (t, rest) -> unbalanced t -> none_until_stop st is_right_paren rest).
  { intros st0 ts0 t0 rest0 E. apply fanchor_facts in E. apply E. }
  assert (FM : none_missed opens_anchor k).
  { apply (fitems_none_missed opens_anchor fanchor (S (length r)) st [] r k r'); [apply sees_anchor|apply covers_anchor|apply snugs_anchor|apply wakes_anchor|exact UA| |exact I| | |exact F];
      [lia|intros [|? ?] y Ee NE; [cbn [app] in Ee; congruence|discriminate]|].
    intros st0 ts0 t r0 E. apply makes_anchor in E. destruct E as (_ & o0 & k0 & c & ->). exact I. }
  apply fitems_facts in F; [|apply covers_anchor|apply snugs_anchor|apply wakes_anchor| |lia|exact I].
  - destruct F as (F1 & F2 & F3). apply snug_node; [intros rest0; exact (conj F2 FM)|exact F1].
  - exact UA.
Qed.

(** ** Blocks *)

Lemma stopped_line : forall st c ts, stopped st ts = true -> line_over c ts.
Proof.
  intros st c [|t r] H; right; [exact I|]. unfold stopped in H. apply existsb_exists in H. destruct H as (x & _ & X).
  destruct x as [| | |cur lk]; cbn [fmatches] in X; unfold nth_is in X; cbn [nth_error is_some_and] in X.
  - auto.
  - apply orb_true_iff in X. destruct X as [X|X].
    + unfold is_collapsible_end in X. apply andb_true_iff in X. tauto.
    + apply andb_true_iff in X. tauto.
  - unfold is_two_bangs in X. apply andb_true_iff in X. destruct X as [X _]. apply andb_true_iff in X. tauto.
  - apply andb_true_iff in X. tauto.
Qed.

Definition tights (g : fparser) : Prop := forall st ts t rest, g st ts = Some (t, rest) -> every tight t rest.
Lemma tights_snugs : forall g, snugs g -> tights g.
Proof. intros g H st ts t rest E. eapply H. exact E. Qed.
Lemma tights_orelse : forall f g, tights f -> tights g -> tights (forelse f g).
Proof. intros f g F G st ts t rest H. apply forelse_some in H. destruct H as [H|H]; eauto. Qed.

Lemma tights_image : tights fimage.
Proof.
  intros st ts t rest H. unfold fimage in H. destruct ts as [|a r]; [discriminate|].
  destruct (is_bang a) eqn:Ea; [|discriminate].
  destruct (ftitle st r) as [[t1 r1]|] eqn:E1; [|discriminate].
  destruct (fdest st r1) as [[t2 r2]|] eqn:E2; [|discriminate].
  apply snugs_title in E1. apply fdest_facts in E2. destruct E2 as (E2 & _).
  assert (G : forall c rest, line_over c rest -> every tight (Node NImage [a] [t1; t2] c) rest).
  { intros c rest0 L. apply every_node. split; [exact L|]. apply everys_snug. auto. }
  destruct r2 as [|e r3].
  - injection H as <- <-. apply G. right. exact I.
  - destruct (is_eol e) eqn:Ee.
    + injection H as <- <-. apply G. left. exists [], e. auto.
    + destruct (stopped st (e :: r3)) eqn:S0; [|discriminate]. injection H as <- <-. apply G. eapply stopped_line. exact S0.
Qed.

Lemma fimages_loop_tight : forall n st ts k rest, length ts < n -> fimages_loop n st ts = Some (k, rest) -> everys tight k rest.
Proof.
  induction n; intros st ts k rest Hn H; [lia|]. cbn [fimages_loop] in H.
  destruct ts as [|t r]; [injection H as <- <-; exact I|].
  destruct (fimage st (t :: r)) as [[x r1]|] eqn:E.
  - destruct (fimages_loop n st r1) as [[k' r']|] eqn:F; [|discriminate]. injection H as <- <-.
    pose proof (covers_image _ _ _ _ E) as [Ex L].
    assert (LL : length (t :: r) = length (yield x) + length r1) by (rewrite Ex; apply app_length).
    assert (Lr : length r1 < n) by lia. pose proof (fimages_loop_app _ _ _ _ _ Lr F) as Er.
    cbn [everys]. split; [|eapply IHn; eauto]. rewrite <- Er. eapply tights_image. exact E.
  - destruct (stopped st (t :: r)); [|discriminate]. injection H as <- <-. exact I.
Qed.
Lemma tights_images : tights fimages.
Proof.
  intros st ts t rest H. unfold fimages in H.
  destruct (fimages_loop (S (length ts)) st ts) as [[k r]|] eqn:F; [|discriminate]. apply fimages_loop_tight in F; [|lia].
  destruct k as [|x [|y k]]; [discriminate| |].
  - injection H as <- <-. apply F.
  - injection H as <- <-. apply every_node. split; [exact I|exact F].
Qed.

Lemma modifier_facts : forall st ts t rest, fmodifier st ts = Some (t, rest) -> snug t.
Proof.
  intros st ts t rest H. unfold fmodifier in H. destruct (nth_is 0 col0 ts) eqn:Z; [discriminate|].
  destruct (until st is_eol_or_terminator ts) as [[[b c] r]|] eqn:U; [|discriminate]. injection H as <- <-.
  pose proof (until_app _ _ _ _ _ _ U) as [-> _]. apply until_awake in U. destruct U as [_ U].
  apply snug_node; [|repeat constructor; apply snug_leaf]. intros rest0. split; [exists b; auto|]. cbn. rewrite app_nil_r.
  destruct b as [|x b]; exact Z.
Qed.
Lemma snugs_break : snugs fbreak.
Proof.
  intros st ts t rest H. unfold fbreak in H. destruct ts as [|a r]; [discriminate|]. destruct (is_dash5 a); [|discriminate].
  injection H as <- <-. apply snug_node; [intros rest0; exact I|repeat constructor; apply snug_leaf].
Qed.

Lemma icon_facts : forall st ts t rest, In StopTerminator st -> ficon st ts = Some (t, rest) -> snug t.
Proof.
  intros st ts t rest HS H. unfold ficon in H. destruct (fseq [is_one_bang; is_space_1] ts) as [[o r]|]; [|discriminate].
  destruct (until st is_eol r) as [[[b c] r']|] eqn:U; [|discriminate]. injection H as <- <-.
  pose proof (until_no_term _ _ _ _ _ _ HS U) as N. apply no_term_app in N. destruct N as [N _]. apply until_awake in U. destruct U as [_ U].
  apply snug_node; [|repeat constructor; apply snug_leaf]. intros rest0. exists b. split; [reflexivity|].
  clear - N U. induction b as [|x b IH]; [constructor|]. inversion N; inversion U; subst. constructor; [|apply IH; assumption].
  unfold is_eol_or_terminator, is_eol, is_terminator in *. rewrite H1, H5. reflexivity.
Qed.

Lemma lists_snug : forall n,
  (forall level k ts st mk x rest, fitem n level k st ts = Some (mk, x, rest) -> snug x)
  /\ (forall level ts st mk x rest, flist n level st ts = Some (mk, x, rest) -> snug x)
  /\ (forall level lk ts st k rest, flist_items n level lk st ts = (k, rest) -> Forall snug k).
Proof.
  induction n; [repeat split; intros; cbn in *; try discriminate; injection H as <- <-; constructor|].
  destruct IHn as (II & IN & IS). split; [|split].
  - intros level k ts st mk x rest H. cbn [fitem] in H.
    destruct (negb (nth_is 0 col0 ts)); [discriminate|].
    destruct (nth_error ts (if level =? 0 then 0 else 1)) as [m|]; [|discriminate].
    destruct (list_kind_of m) as [mk0|]; [|discriminate].
    destruct (fseq (marker_preds level k) ts) as [[o r]|] eqn:Q; [|discriminate].
    destruct (fparagraph (StopListBoundary level mk0 :: st) r) as [par r1] eqn:P.
    apply fparagraph_facts in P. destruct P as [P _].
    assert (G : forall kk, Forall snug kk -> snug (Node NListItem o kk [])) by (intros kk F; apply snug_node; [intros rest0; exact I|exact F]).
    destruct (negb (stopped st r1)).
    + destruct (flist n (level + 1) st r1) as [[[mk' y] r2]|] eqn:F; injection H as <- <- <-; apply G; auto.
      apply IN in F. auto.
    + injection H as <- <- <-. apply G. auto.
  - intros level ts st mk x rest H. cbn [flist] in H.
    destruct (fitem n level None st ts) as [[[lk y] r]|] eqn:E; [|discriminate].
    destruct (flist_items n level lk st r) as [k r1] eqn:F. injection H as <- <- <-. apply II in E. apply IS in F.
    apply snug_node; [|auto]. intros rest0. destruct lk; exact I.
  - intros level lk ts st k rest H. cbn [flist_items] in H.
    destruct (fitem n level (Some lk) st ts) as [[[mk x] r]|] eqn:E; [|injection H as <- <-; constructor].
    destruct (flist_items n level lk st r) as [k' r1] eqn:F. injection H as <- <-. apply II in E. apply IS in F. auto.
Qed.
Lemma snugs_list : snugs flist0.
Proof.
  intros st ts t rest H. unfold flist0 in H. destruct (flist (2 * length ts + 3) 0 st ts) as [[[mk x] r]|] eqn:F; [|discriminate].
  injection H as <- <-. apply lists_snug in F. exact F.
Qed.

Lemma fhighlight_loop_snug : forall n st ts k c rest, fhighlight_loop n st ts = Some (k, c, rest) -> Forall snug k.
Proof.
  induction n; intros st ts k c rest H; cbn [fhighlight_loop] in H; [discriminate|].
  destruct ts as [|t r]; [discriminate|]. destruct (stopped st (t :: r)) eqn:S0; [discriminate|].
  destruct (is_two_bangs t) eqn:E2.
  - destruct (with_eol t r) as [x r'] eqn:W. injection H as <- <- <-. constructor.
  - destruct (if is_terminator t then ([Leaf [t]], r) else ([], t :: r)) as [l r1] eqn:HL.
    destruct (fparagraph (StopTerminator :: StopHighlightEnd :: st) r1) as [par r2] eqn:P.
    destruct (fhighlight_loop n st r2) as [[[k' c'] r3]|] eqn:F; [|discriminate]. injection H as <- <- <-.
    apply fparagraph_facts in P. destruct P as [P _]. apply IHn in F. apply Forall_app. split; [|auto].
    destruct (is_terminator t); injection HL as <- <-; repeat constructor; apply snug_leaf.
Qed.
Lemma snugs_highlight : snugs fhighlight.
Proof.
  intros st ts t rest H. unfold fhighlight in H.
  destruct (fseq [is_two_bangs; fun t => is_space_1 t || is_eol t] ts) as [[o r]|] eqn:Q; [|discriminate].
  set (skip := is_eol (last o (mk_token Literal 0 0 (mk_pos 0 0 0) false))) in *.
  destruct (if negb skip then opt_tree (fmodifier st r) r else ([], r)) as [k1 r1] eqn:K1.
  destruct (opt_tree (ficon (StopTerminator :: st) r1) r1) as [k2 r2] eqn:K2.
  destruct (nth_is 0 col0 r2); [|discriminate].
  destruct (fhighlight_loop (S (length r2)) st r2) as [[[k3 c] r3]|] eqn:F; [|discriminate].
  injection H as <- <-. apply fhighlight_loop_snug in F. apply snug_node; [intros rest0; exact I|].
  apply Forall_app. split; [|apply Forall_app; split; [|exact F]].
  - destruct (negb skip); [|injection K1 as <- <-; constructor]. destruct (fmodifier st r) as [[x y]|] eqn:E; injection K1 as <- <-; [|constructor].
    apply modifier_facts in E. auto.
  - destruct (ficon (StopTerminator :: st) r1) as [[x y]|] eqn:E; injection K2 as <- <-; [|constructor].
    apply icon_facts in E; [auto|left; reflexivity].
Qed.

Lemma close_line_over : forall st c r x rest, fclose_line st c r = Some (x, rest) -> line_over x rest.
Proof.
  intros st c r x rest H. unfold fclose_line in H. destruct r as [|e r'].
  - injection H as <- <-. right. exact I.
  - destruct (is_eol e) eqn:Ee.
    + injection H as <- <-. left. exists [c], e. auto.
    + destruct (stopped st (e :: r')) eqn:S0; cbn [orb] in H.
      * injection H as <- <-. eapply stopped_line. exact S0.
      * destruct (is_terminator e) eqn:Et; [|discriminate]. injection H as <- <-. right. auto.
Qed.

Lemma tights_embed : tights fembed.
Proof.
  intros st ts t rest H. unfold fembed in H. destruct ts as [|a r]; [discriminate|]. destruct (is_left_curly2 a); [|discriminate].
  destruct (until st is_pipe r) as [[[b1 p] r1]|] eqn:U1; [|discriminate].
  destruct (until st is_right_curly2 r1) as [[[b2 c] r2]|] eqn:U2; [|discriminate].
  destruct (fclose_line st c r2) as [[cl rest']|] eqn:C; [|discriminate]. injection H as <- <-.
  apply until_awake in U1. apply until_awake in U2. apply close_line_over in C. apply every_node. split; [|cbn; auto].
  split; [exact C|]. exists b1, p, b2. split; [reflexivity|]. split; [apply U1|apply U2].
Qed.
Lemma tights_code : tights fcode.
Proof.
  intros st ts t rest H. unfold fcode in H. destruct (ffence ts) as [[o r]|]; [|discriminate].
  set (w := negb (is_eol (last o (mk_token Literal 0 0 (mk_pos 0 0 0) false)))) in *.
  destruct (if w then opt_tree (fmodifier [] r) r else ([], r)) as [k1 r1] eqn:K1.
  destruct (until [] is_backtick3 r1) as [[[b c] r2]|] eqn:U; [|discriminate].
  destruct (fclose_line st c r2) as [[cl rest']|] eqn:C; [|discriminate]. injection H as <- <-.
  apply until_awake in U. apply close_line_over in C. apply every_node. split.
  - split; [exact C|]. exists k1, b. split; [reflexivity|apply U].
  - apply everys_snug. apply Forall_app. split; [|repeat constructor; apply snug_leaf].
    destruct w; [|injection K1 as <- <-; constructor]. destruct (fmodifier [] r) as [[x y]|] eqn:E; injection K1 as <- <-; [|constructor].
    apply modifier_facts in E. auto.
Qed.
Lemma fsimple_tight : forall st ts t rest, fsimple st ts = (t, rest) -> every tight t rest.
Proof.
  intros st ts t rest H. unfold fsimple in H.
  destruct (forelse flist0 (forelse fimages (forelse fbreak fheading)) (StopTerminator :: st) ts) as [[y r]|] eqn:E.
  - injection H as -> ->. revert E. repeat apply tights_orelse; [apply tights_snugs, snugs_list|apply tights_images|apply tights_snugs, snugs_break|apply tights_snugs, snugs_heading].
  - apply fparagraph_facts in H. apply H.
Qed.

Lemma fitems_stopped : forall g n st acc ts k rest, covers g -> length ts < n -> fitems g n st acc ts = (k, rest) -> stopped st rest = true.
Proof.
  intros g n. induction n; intros st acc ts k rest C Hn H; [lia|]. cbn [fitems] in H.
  destruct (stopped st ts) eqn:S0; [injection H as <- <-; exact S0|].
  destruct (g st ts) as [[x r]|] eqn:E.
  - destruct (fitems g n st [] r) as [k' r'] eqn:F. injection H as <- <-. pose proof (C _ _ _ _ E) as [Ex Lx].
    apply IHn in F; [exact F|exact C|]. apply (f_equal (@length _)) in Ex. rewrite app_length in Ex. lia.
  - destruct ts as [|t r]; [discriminate|]. apply IHn in H; [exact H|exact C|cbn in Hn; lia].
Qed.

(** ** Blocks *)

Lemma awake_tail : forall c st a rest, awake (c :: st) a rest -> awake st a rest.
Proof.
  intros c st a rest. induction a as [|t a IH]; intros H; [exact I|]. destruct H as [H0 H]. split; [|auto]. cbn [stopped existsb] in *. apply orb_false_iff in H0. apply H0.
Qed.
Lemma close_line_sees : forall st c r, ends_block r -> fclose_line st c r <> None.
Proof.
  intros st c [|e r] H; cbn [fclose_line]; [discriminate|]. cbn in H. unfold is_eol_or_terminator in H. unfold is_eol, is_terminator.
  destruct (kind_eqb (kind e) Eol); [discriminate|]. cbn [orb] in H. rewrite H, orb_true_r. discriminate.
Qed.
Lemma until_none_first : forall g b c r, g c = true -> free g b -> until [] g (b ++ c :: r) = Some (b, c, r).
Proof.
  intros g b c r G. induction b as [|t b IH]; intros F; cbn [app until stopped existsb]; [rewrite G; reflexivity|].
  inversion F as [|? ? F0 F1]; subst. rewrite F0, (IH F1). reflexivity.
Qed.
Lemma eol_or : forall e, is_eol e = true -> is_eol_or_terminator e = true.
Proof. intros e H. unfold is_eol_or_terminator, is_eol in *. rewrite H. reflexivity. Qed.
Lemma eot_not_backtick3 : forall e, is_eol_or_terminator e = true -> is_backtick3 e = false.
Proof. intros e H. unfold is_eol_or_terminator in H. unfold is_backtick3. destruct (kind e); try discriminate; reflexivity. Qed.
Lemma code_sees : forall st p, opens_code p -> fcode st p <> None.
Proof.
  intros st p (o & b1 & e & b2 & c & r & -> & Ko & F1 & F2 & Ke & F3 & Kc & Hr).
  pose proof (close_line_sees st c r Hr) as CL.
  assert (G : forall x, match until [] is_backtick3 (b2 ++ c :: r) with
    | Some (b, c, r2) => match fclose_line st c r2 with Some (cl, rest) => Some (Node NCode (fst x) (snd x ++ [Leaf b]) cl, rest) | None => None end | None => None end <> None).
  { intros x. rewrite (until_none_first _ b2 c r Kc F3). destruct (fclose_line st c r) as [[? ?]|]; congruence. }
  assert (Eo : is_eol o = false) by (unfold is_backtick3 in Ko; apply andb_true_iff in Ko; destruct Ko as [Ko _]; apply andb_true_iff in Ko; destruct Ko as [Ko _]; apply kind_eqb_eq in Ko; unfold is_eol; rewrite Ko; reflexivity).
  unfold fcode, ffence. cbn [app].
  assert (H : forall t w, b1 ++ e :: b2 ++ c :: r = t :: w -> is_eol t = false ->
    (let with_modifier := negb (is_eol (last [o] (mk_token Literal 0 0 (mk_pos 0 0 0) false))) in
     let (k1, r1) := if with_modifier then opt_tree (fmodifier [] (t :: w)) (t :: w) else ([], t :: w) in
     match until [] is_backtick3 r1 with
     | None => None
     | Some (b, c, r2) => match fclose_line st c r2 with None => None | Some (cl, rest) => Some (Node NCode [o] (k1 ++ [Leaf b]) cl, rest) end
     end) <> None).
  { intros t w E Kt. cbn [last]. rewrite Eo. cbn [negb]. unfold fmodifier. destruct (nth_is 0 col0 (t :: w)); rewrite <- E.
    - cbn [opt_tree].
      assert (X : b1 ++ e :: b2 ++ c :: r = (b1 ++ e :: b2) ++ c :: r) by (rewrite <- app_assoc; reflexivity).
      rewrite X, (until_none_first is_backtick3 (b1 ++ e :: b2) c r Kc).
      + destruct (fclose_line st c r) as [[? ?]|]; congruence.
      + apply Forall_app. split; [exact F2|]. constructor; [apply eot_not_backtick3; exact Ke|exact F3].
    - rewrite (until_none_first is_eol_or_terminator b1 e (b2 ++ c :: r) Ke F1). cbn [opt_tree]. exact (G ([o], [_])). }
  destruct b1 as [|t b1]; cbn [app fseq]; rewrite Ko.
  - destruct (is_eol e) eqn:Ee.
    + cbn [last]. rewrite Ee. cbn [negb]. exact (G ([o; e], [])).
    + exact (H e (b2 ++ c :: r) eq_refl Ee).
  - inversion F1 as [|? ? F1a F1b]; subst. assert (Kt : is_eol t = false) by (unfold is_eol_or_terminator in F1a; apply orb_false_iff in F1a; apply F1a). rewrite Kt.
    exact (H t (b1 ++ e :: b2 ++ c :: r) eq_refl Kt).
Qed.

(** Only the end of a collapsible stops a block in a document. *)
Definition calm (st : list stop_condition) : Prop := Forall (eq StopCollapsibleEnd) st.
Lemma calm_stopped : forall st t r, calm st -> is_collapsible_end t = false -> is_eol t = false \/ nth_is 0 is_collapsible_end r = false -> stopped st (t :: r) = false.
Proof.
  intros st t r C K H. destruct (stopped st (t :: r)) eqn:S0; [|reflexivity]. exfalso. cbn [stopped] in S0. apply existsb_exists in S0. destruct S0 as (c & I0 & M).
  pose proof (proj1 (Forall_forall _ _) C c I0) as <-. cbn [fmatches] in M. change (nth_is 0 is_collapsible_end (t :: r)) with (is_collapsible_end t) in M. change (nth_is 0 is_eol (t :: r)) with (is_eol t) in M.
  change (nth_is 1 is_collapsible_end (t :: r)) with (nth_is 0 is_collapsible_end r) in M. rewrite K in M. cbn [orb] in M. apply andb_true_iff in M. destruct M as [M1 M2]. destruct H; congruence.
Qed.
Lemma calm_awake : forall st c r, calm st -> is_collapsible_end c = false -> is_eol c = false \/ nth_is 0 is_collapsible_end r = false -> forall b, quiet b -> awake st (b ++ [c]) r.
Proof.
  intros st c r C K H. induction b as [|t b IH]; intros Q; cbn [app awake].
  - split; [apply calm_stopped; assumption|exact I].
  - inversion Q as [|? ? Q1 Q2]; subst. split; [|auto]. apply calm_stopped; [exact C|exact Q1|]. right. destruct b as [|u b]; [exact K|]. inversion Q2; subst. assumption.
Qed.
Lemma calm_until : forall st g b c r, calm st -> g c = true -> free g b -> quiet b -> is_collapsible_end c = false -> is_eol c = false \/ nth_is 0 is_collapsible_end r = false ->
  until st g (b ++ c :: r) = Some (b, c, r).
Proof. intros st g b c r C G F Q K H. exact (until_first st g b c [] r G F (calm_awake st c r C K H b Q)). Qed.

Lemma embed_sees : forall st p, calm st -> opens_embed p -> fembed st p <> None.
Proof.
  intros st p C (o & b1 & s & b2 & c & r & -> & Ko & F1 & Q1 & Ks & F2 & Q2 & Kc & Hr). cbn [app fembed]. rewrite Ko.
  assert (Ns : kind s = Pipe) by (unfold is_pipe in Ks; apply andb_true_iff in Ks; destruct Ks as [Ks _]; apply kind_eqb_eq in Ks; exact Ks).
  assert (Nc : kind c = RightCurlyBrace) by (unfold is_right_curly2 in Kc; apply andb_true_iff in Kc; destruct Kc as [Kc _]; apply kind_eqb_eq in Kc; exact Kc).
  rewrite (calm_until st is_pipe b1 s (b2 ++ c :: r) C Ks F1 Q1); [|unfold is_collapsible_end; rewrite Ns; reflexivity|left; unfold is_eol; rewrite Ns; reflexivity].
  rewrite (calm_until st is_right_curly2 b2 c r C Kc F2 Q2); [|unfold is_collapsible_end; rewrite Nc; reflexivity|left; unfold is_eol; rewrite Nc; reflexivity].
  pose proof (close_line_sees st c r Hr) as CL. destruct (fclose_line st c r) as [[? ?]|]; congruence.
Qed.
Lemma dest_balanced : forall st d q r rest n, nesting n d = Some 0 -> kind q = RightParenthesis -> awake st (d ++ q :: r) rest ->
  dest_scan st (S n) (d ++ q :: r ++ rest) = Some (d, q, r ++ rest).
Proof.
  intros st d q r rest n N K. revert n N. induction d as [|t d IH]; intros n N A; cbn [app] in *.
  - destruct A as [A _]. injection N as ->. cbn [dest_scan]. rewrite A, K. reflexivity.
  - destruct A as [A0 A]. cbn [dest_scan]. rewrite <- app_assoc in A0. cbn [app] in A0. rewrite A0. cbn [nesting] in N.
    destruct (kind t) eqn:Kt; try (rewrite (IH n N A); reflexivity).
    + replace (S n + 1) with (S (S n)) by lia. rewrite (IH (S n) N A). reflexivity.
    + destruct n as [|n]; [discriminate|]. replace (S (S n) - 1) with (S n) by lia. cbn [Nat.eqb]. rewrite (IH n N A). reflexivity.
Qed.
Lemma image_sees : forall st p r rest, image_tokens p -> awake st (p ++ r) rest ->
  exists x, fimage st (p ++ r ++ rest) = match r ++ rest with
    | e :: r3 => if is_eol e then Some (x [e], r3) else if stopped st (r ++ rest) then Some (x [], r ++ rest) else None
    | [] => Some (x [], []) end.
Proof.
  intros st p r rest (t & o & b & c & u & d & q & -> & Kt & Ko & Fb & Kc & Ku & N & Kq) A.
  cbn [app] in A. destruct A as [_ [_ A]]. exists (Node NImage [t] [Node NTitle [o] [Leaf b] [c]; Node NDestination [u] [Leaf d] [q]]).
  cbn [app fimage]. rewrite Kt. unfold ftitle, fdelim. rewrite Ko.
  repeat (rewrite <- app_assoc in A; cbn [app] in A). rewrite <- app_assoc. cbn [app].
  pose proof (until_first st is_right_bracket b c (u :: d ++ q :: r) rest Kc Fb A) as U.
  assert (X : b ++ c :: u :: (d ++ [q]) ++ r ++ rest = b ++ c :: (u :: d ++ q :: r) ++ rest) by (cbn [app]; rewrite <- !app_assoc; reflexivity).
  rewrite X, U. cbn [app fdest]. rewrite Ku. apply awake_app in A. destruct A as [_ [_ [_ A]]]. rewrite <- app_assoc. cbn [app]. rewrite (dest_balanced st d q r rest 0 N Kq A). reflexivity.
Qed.
Lemma stopped_eol : forall st e r, stopped st (e :: r) = true -> is_eol e = true -> stopped st r = true.
Proof.
  intros st e r H Ke. apply kind_eqb_eq in Ke. cbn [stopped] in H. apply existsb_exists in H. destruct H as (c & Ic & H).
  assert (c = StopCollapsibleEnd /\ nth_is 0 is_collapsible_end r = true) as [-> N].
  { destruct c; cbn [fmatches] in H.
    - unfold nth_is in H; cbn in H. unfold is_terminator in H. rewrite Ke in H. discriminate.
    - split; [reflexivity|]. unfold nth_is in *; cbn in *. unfold is_collapsible_end at 1 in H. rewrite Ke in H. cbn in H. apply andb_true_iff in H. apply H.
    - unfold nth_is in H; cbn in H. unfold is_two_bangs in H. rewrite Ke in H. discriminate.
    - apply andb_true_iff in H. destruct H as [_ H]. apply existsb_exists in H. destruct H as (l & _ & H). unfold boundary_at, nth_is in H. cbn in H.
      unfold is_list_marker, list_kind_of, is_indent in H. rewrite Ke in H. destruct (l =? 0); cbn in H; rewrite andb_false_r in H; discriminate. }
  destruct r as [|u r]; [reflexivity|]. cbn [stopped]. apply existsb_exists. exists StopCollapsibleEnd. split; [exact Ic|]. cbn [fmatches]. rewrite N. reflexivity.
Qed.
Lemma stopped_bang : forall st t r, stopped st (t :: r) = true -> is_bang t = false.
Proof.
  intros st t r H. destruct (is_bang t) eqn:K; [|reflexivity]. exfalso. unfold is_bang in K. apply andb_true_iff in K. destruct K as [K L]. apply kind_eqb_eq in K. apply Nat.eqb_eq in L.
  cbn [stopped] in H. apply existsb_exists in H. destruct H as (c & _ & H). destruct c; cbn [fmatches] in H.
  - unfold nth_is in H; cbn in H. unfold is_terminator in H. rewrite K in H. discriminate.
  - unfold nth_is in H; cbn in H. unfold is_collapsible_end at 1, is_eol in H. rewrite K in H. discriminate.
  - unfold nth_is in H; cbn in H. unfold is_two_bangs in H. rewrite K, L in H. cbn in H. rewrite andb_false_r in H. discriminate.
  - apply andb_true_iff in H. destruct H as [_ H]. apply existsb_exists in H. destruct H as (l & _ & H). unfold boundary_at, nth_is in H. cbn in H.
    unfold is_list_marker at 1, list_kind_of, is_indent in H. rewrite K in H. destruct (l =? 0); cbn in H; rewrite andb_false_r in H; discriminate.
Qed.
Lemma images_stop : forall st ts n, stopped st ts = true -> fimages_loop (S n) st ts = Some ([], ts).
Proof.
  intros st [|t r] n H; [reflexivity|]. cbn [fimages_loop]. unfold fimage. rewrite (stopped_bang _ _ _ H), H. reflexivity.
Qed.
Lemma images_loop_sees : forall st rest p, opens_images p -> awake st p rest -> stopped st rest = true -> forall n, length (p ++ rest) < n ->
  exists x k r, fimages_loop n st (p ++ rest) = Some (x :: k, r).
Proof.
  intros st rest p H. induction H as [i Hi|i e Hi He|i e r Hi He Hr IH]; intros A Hs n L.
  - assert (NE : i ++ rest <> []) by (destruct Hi as (? & ? & ? & ? & ? & ? & ? & -> & _); discriminate).
    assert (Ai : awake st (i ++ []) rest) by (rewrite app_nil_r; exact A). destruct (image_sees st i [] rest Hi Ai) as (x & E). cbn [app] in E.
    assert (Li : 1 <= length i) by (destruct Hi as (? & ? & ? & ? & ? & ? & ? & -> & _); cbn; lia).
    destruct n as [|n]; [lia|]. cbn [fimages_loop]. destruct (i ++ rest) as [|t ts] eqn:Et; [congruence|]. rewrite E, <- Et in *. rewrite app_length in L. clear NE E.
    destruct rest as [|e r3].
    + destruct n as [|n]; [lia|]. cbn. eauto.
    + destruct (is_eol e) eqn:Ke.
      * apply stopped_eol in Hs; [|exact Ke]. destruct n as [|n]; [cbn in L; lia|]. rewrite (images_stop _ _ _ Hs). eauto.
      * rewrite Hs. destruct n as [|n]; [cbn in L; lia|]. rewrite (images_stop _ _ _ Hs). eauto.
  - destruct (image_sees st i [e] rest Hi A) as (x & E). cbn [app] in E. rewrite He in E. rewrite <- app_assoc in *. cbn [app] in *. 
    assert (NE : i ++ e :: rest <> []) by (destruct i; discriminate).
    destruct n as [|n]; [lia|]. cbn [fimages_loop]. destruct (i ++ e :: rest) as [|t ts] eqn:Et; [congruence|]. rewrite E, <- Et in *. rewrite app_length in L. cbn in L.
    destruct n as [|n]; [lia|]. rewrite (images_stop _ _ _ Hs). eauto.
  - destruct (image_sees st i (e :: r) rest Hi A) as (x & E). cbn [app] in E. rewrite He in E. rewrite <- app_assoc in *. cbn [app] in *.
    assert (NE : i ++ e :: r ++ rest <> []) by (destruct i; discriminate).
    destruct n as [|n]; [lia|]. cbn [fimages_loop]. destruct (i ++ e :: r ++ rest) as [|t ts] eqn:Et; [congruence|]. rewrite E, <- Et in *. rewrite app_length in L. cbn [length] in L.
    apply awake_app in A. destruct A as [_ [_ A]]. destruct (IH A Hs n ltac:(lia)) as (x2 & k2 & r2 & E2). rewrite E2. eauto.
Qed.
Lemma images_see : forall st p rest, opens_images p -> awake st p rest -> stopped st rest = true -> fimages st (p ++ rest) <> None.
Proof.
  intros st p rest H A Hs. destruct (images_loop_sees st rest p H A Hs (S (length (p ++ rest))) ltac:(lia)) as (x & k & r & E).
  unfold fimages. rewrite E. destruct k; discriminate.
Qed.

Lemma heading_sees : forall st p rest, opens_heading p -> fheading st (p ++ rest) <> None.
Proof.
  intros st p rest (t & u & r & -> & Kt & Ku). cbn [app fheading]. rewrite Kt, Ku. cbn [andb]. destruct (fitems fanchor (S (length (r ++ rest))) st [] (r ++ rest)). discriminate.
Qed.
Lemma break_sees : forall st p rest, opens_break p -> fbreak st (p ++ rest) <> None.
Proof. intros st p rest (t & r & -> & K). cbn [app fbreak]. rewrite K. discriminate. Qed.
Lemma list_sees : forall st p rest, opens_list p -> flist0 st (p ++ rest) <> None.
Proof.
  intros st p rest (t & u & r & -> & C & Kt & Ku). unfold flist0. cbn [app]. replace (2 * length (t :: u :: r ++ rest) + 3) with (S (S (2 * length (t :: u :: r ++ rest) + 1))) by lia.
  cbn [flist fitem]. unfold nth_is at 1. cbn [nth_error is_some_and]. rewrite C. cbn [negb Nat.eqb nth_error]. destruct (list_kind_of t) as [mk|] eqn:E; [|congruence].
  cbn [marker_preds Nat.eqb fseq]. unfold is_list_marker. rewrite E, Ku.
  destruct (fparagraph (StopListBoundary 0 mk :: st) (r ++ rest)) as [par r1].
  set (n := 2 * length (t :: u :: r ++ rest) + 1). destruct (negb (stopped st r1)).
  - destruct (flist n (0 + 1) st r1) as [[[? ?] r2]|].
    + destruct (flist_items (S n) 0 mk st r2). discriminate.
    + destruct (flist_items (S n) 0 mk st r1). discriminate.
  - destruct (flist_items (S n) 0 mk st r1). discriminate.
Qed.

(** Nothing is read beyond a stop. *)
Lemma awake_before : forall st a rest p q, awake st a rest -> a ++ rest = p ++ q -> stopped st q = true -> exists r, p = a ++ r.
Proof.
  intros st. induction a as [|t a IH]; intros rest p q H E Hq; [exists p; reflexivity|]. destruct H as [H0 H]. destruct p as [|t' p].
  - cbn [app] in E. subst q. cbn [app] in Hq. congruence.
  - cbn [app] in E. injection E as <- E. destruct (IH rest p q H E Hq) as (r & ->). exists r. reflexivity.
Qed.
Lemma fparagraph_stopped : forall st ts t rest, fparagraph st ts = (t, rest) -> stopped st rest = true.
Proof.
  intros st ts t rest H. unfold fparagraph in H. destruct (fitems finline (S (length ts)) st [] ts) as [k r] eqn:F. injection H as _ <-.
  apply fitems_stopped in F; [exact F|apply covers_inline|lia].
Qed.
Lemma two_bangs_kind : forall c, is_two_bangs c = true -> kind c = Bang.
Proof. intros c K. unfold is_two_bangs in K. apply andb_true_iff in K. destruct K as [K _]. apply andb_true_iff in K. destruct K as [K _]. apply kind_eqb_eq in K. exact K. Qed.
Lemma hl_loop_sees : forall st c rest, is_two_bangs c = true -> forall n b, length b + 1 < n -> awake st (b ++ [c]) rest -> fhighlight_loop n st (b ++ c :: rest) <> None.
Proof.
  intros st c rest Kc n. induction n as [|n IH]; intros b L A; [lia|]. destruct b as [|t b].
  - cbn [app fhighlight_loop]. destruct A as [A _]. cbn [app] in A. rewrite A, Kc. destruct (with_eol c rest). discriminate.
  - cbn [app fhighlight_loop]. pose proof A as A'. destruct A as [A0 A]. rewrite <- app_assoc in A0. cbn [app] in A0. rewrite A0. destruct (is_two_bangs t) eqn:Kt; [destruct (with_eol t (b ++ c :: rest)); discriminate|].
    assert (P : forall b0 par r2, fparagraph (StopTerminator :: StopHighlightEnd :: st) (b0 ++ c :: rest) = (par, r2) -> awake st (b0 ++ [c]) rest -> exists b', b0 = yield par ++ b' /\ r2 = b' ++ c :: rest /\ awake st (b' ++ [c]) rest).
    { intros b0 par r2 F Ab. pose proof (fparagraph_app _ _ _ _ F) as E. pose proof (proj2 (fparagraph_facts _ _ _ _ F)) as W.
      destruct (awake_before _ _ _ b0 (c :: rest) W) as (b' & Eb); [symmetry; exact E|cbn [stopped existsb fmatches nth_is nth_error is_some_and]; rewrite Kc; rewrite orb_true_r; reflexivity|].
      exists b'. split; [exact Eb|]. split.
      - apply (app_inv_head (yield par)). rewrite <- E, Eb, <- app_assoc. reflexivity.
      - rewrite Eb, <- app_assoc in Ab. apply awake_app in Ab. apply Ab. }
    destruct (is_terminator t) eqn:Tt.
    + destruct (fparagraph (StopTerminator :: StopHighlightEnd :: st) (b ++ c :: rest)) as [par r2] eqn:F.
      destruct (P b par r2 F A) as (b' & Eb & -> & Ab). assert (L2 : length b' + 1 < n) by (apply (f_equal (@length _)) in Eb; rewrite app_length in Eb; cbn in L; lia).
      specialize (IH b' L2 Ab). destruct (fhighlight_loop n st (b' ++ c :: rest)) as [[[? ?] ?]|]; [discriminate|congruence].
    + destruct (fparagraph (StopTerminator :: StopHighlightEnd :: st) (t :: b ++ c :: rest)) as [par r2] eqn:F.
      destruct (P (t :: b) par r2 F A') as (b' & Eb & E2 & Ab). pose proof (fparagraph_stopped _ _ _ _ F) as S2.
      assert (NP : yield par <> []).
      { intros Y. rewrite Y in Eb. cbn [app] in Eb. rewrite E2, <- Eb in S2. cbn [app stopped existsb fmatches nth_is nth_error is_some_and] in S2. rewrite Tt, Kt in S2. cbn [orb] in S2.
        cbn [stopped] in A0. congruence. }
      subst r2. assert (L2 : length b' + 1 < n).
      { apply (f_equal (@length _)) in Eb. rewrite app_length in Eb. cbn in Eb, L. destruct (yield par); [congruence|]. cbn in Eb. lia. }
      specialize (IH b' L2 Ab). destruct (fhighlight_loop n st (b' ++ c :: rest)) as [[[? ?] ?]|]; [discriminate|congruence].
Qed.
Lemma hl_body_sees : forall st w o (k : list tree -> list tree), calm st -> highlight_body w ->
  (if nth_is 0 col0 w then
     match fhighlight_loop (S (length w)) st w with Some (k3, c, rest) => Some (Node NHighlight o (k k3) c, rest) | None => None end
   else None) <> None.
Proof.
  intros st w o k C (b & c & r & -> & C0 & Kc & Q). rewrite C0.
  pose proof (two_bangs_kind c Kc) as K.
  assert (A : awake st (b ++ [c]) r) by (apply calm_awake; [exact C|unfold is_collapsible_end; rewrite K; reflexivity|left; unfold is_eol; rewrite K; reflexivity|exact Q]).
  pose proof (hl_loop_sees st c r Kc (S (length (b ++ c :: r))) b) as X.
  destruct (fhighlight_loop (S (length (b ++ c :: r))) st (b ++ c :: r)) as [[[? ?] ?]|]; [discriminate|]. exfalso. apply X; [|exact A|reflexivity].
  rewrite !app_length. cbn. lia.
Qed.
Lemma body_head : forall w, highlight_body w -> nth_is 0 is_collapsible_end w = false.
Proof.
  intros w (b & c & r & -> & _ & K & Q). destruct b as [|t b]; cbn; [|inversion Q; assumption]. unfold is_collapsible_end. rewrite (two_bangs_kind c K). reflexivity.
Qed.
Lemma rest_head : forall w, highlight_rest w -> nth_is 0 is_collapsible_end w = false.
Proof.
  intros w [[_ B]|(t & u & b & e & w' & -> & Kt & _)]; [apply body_head; exact B|]. cbn. unfold is_one_bang in Kt. apply andb_true_iff in Kt. destruct Kt as [Kt _]. apply andb_true_iff in Kt. destruct Kt as [Kt _].
  apply kind_eqb_eq in Kt. unfold is_collapsible_end. rewrite Kt. reflexivity.
Qed.
Lemma until_stop : forall st b e r, free is_eol_or_terminator b -> is_terminator e = true -> until (StopTerminator :: st) is_eol (b ++ e :: r) = None.
Proof.
  intros st b e r F K. induction F as [|t b Ft F IH]; cbn [app until].
  - cbn [stopped existsb fmatches nth_is nth_error is_some_and]. rewrite K. reflexivity.
  - destruct (stopped (StopTerminator :: st) (t :: b ++ e :: r)); [reflexivity|]. assert (is_eol t = false) as -> by (unfold is_eol_or_terminator in Ft; apply orb_false_iff in Ft; apply Ft). rewrite IH. reflexivity.
Qed.
Lemma calm_line : forall st b e r, calm st -> free is_eol_or_terminator b -> quiet b -> is_eol e = true -> nth_is 0 is_collapsible_end r = false -> until (StopTerminator :: st) is_eol (b ++ e :: r) = Some (b, e, r).
Proof.
  intros st b e r C F Q K H. assert (Ke : kind e = Eol) by (apply kind_eqb_eq; exact K).
  assert (N1 : is_collapsible_end e = false) by (unfold is_collapsible_end; rewrite Ke; reflexivity).
  induction F as [|t b Ft F IH]; cbn [app until].
  - replace (stopped (StopTerminator :: st) (e :: r)) with (is_terminator e || stopped st (e :: r)) by reflexivity. unfold is_terminator. rewrite Ke. rewrite (calm_stopped st e r C N1 (or_intror H)). cbn [kind_eqb orb]. rewrite K. reflexivity.
  - inversion Q as [|? ? Q1 Q2]; subst. unfold is_eol_or_terminator in Ft. apply orb_false_iff in Ft. destruct Ft as [Ft1 Ft2].
    replace (stopped (StopTerminator :: st) (t :: b ++ e :: r)) with (is_terminator t || stopped st (t :: b ++ e :: r)) by reflexivity. unfold is_terminator. rewrite Ft2.
    rewrite (calm_stopped st t _ C Q1 (or_introl Ft1)). unfold is_eol at 1. cbn [orb]. rewrite Ft1, (IH Q2). reflexivity.
Qed.
Lemma hl_rest_sees : forall st w o k, calm st -> highlight_rest w ->
  (let (k2, r2) := opt_tree (ficon (StopTerminator :: st) w) w in
   if nth_is 0 col0 r2 then
     match fhighlight_loop (S (length r2)) st r2 with Some (k3, c, rest) => Some (Node NHighlight o (k ++ k2 ++ k3) c, rest) | None => None end
   else None) <> None.
Proof.
  intros st w o k C [[NI B]|(t & u & b & e & w' & E & Kt & Ku & Fb & H)].
  - unfold ficon. rewrite NI. cbn [opt_tree]. exact (hl_body_sees st w o (fun x => k ++ [] ++ x) C B).
  - unfold ficon. destruct H as [(Ke & Q & B)|[Ke B]].
    + subst w. cbn [fseq]. rewrite Kt, Ku. rewrite (calm_line st b e w' C Fb Q Ke (body_head w' B)). cbn [opt_tree]. exact (hl_body_sees st w' o (fun x => k ++ [_] ++ x) C B).
    + assert (X : match fseq [is_one_bang; is_space_1] w with Some (o, r) => match until (StopTerminator :: st) is_eol r with Some (b, c, rest) => Some (Node NIcon o [Leaf b] [c], rest) | None => None end | None => None end = None).
      { rewrite E. cbn [fseq]. rewrite Kt, Ku. rewrite (until_stop st b e w' Fb Ke). reflexivity. }
      rewrite X. cbn [opt_tree]. exact (hl_body_sees st w o (fun x => k ++ [] ++ x) C B).
Qed.
Lemma highlight_sees : forall st p, calm st -> opens_highlight p -> fhighlight st p <> None.
Proof.
  intros st p C (o & u & r & -> & Ko & H). unfold fhighlight. cbn [fseq]. rewrite Ko.
  destruct H as [(Ku & b & e & w & -> & Fb & Q & Ke & C0 & H)|[Ku H]].
  - rewrite Ku. cbn [orb last].
    assert (Eu : is_eol u = false) by (unfold is_space_1 in Ku; apply andb_true_iff in Ku; destruct Ku as [Ku _]; apply kind_eqb_eq in Ku; unfold is_eol; rewrite Ku; reflexivity).
    rewrite Eu. cbn [negb]. unfold fmodifier. rewrite C0.
    assert (Ne : is_collapsible_end e = false).
    { unfold is_eol_or_terminator in Ke. unfold is_collapsible_end. destruct (kind e); try reflexivity. discriminate. }
    rewrite (calm_until st is_eol_or_terminator b e w C Ke Fb Q Ne (or_intror (rest_head w H))). cbn [opt_tree]. exact (hl_rest_sees st w _ [_] C H).
  - rewrite Ku, orb_true_r. cbn [last]. rewrite Ku. cbn [negb]. exact (hl_rest_sees st r _ [] C H).
Qed.

(** A paragraph is read only where no block is. *)
Lemma par_no_block : forall st t r k rest, calm st -> fparagraph (StopTerminator :: st) (t :: r) = (Node NParagraph [] k [], rest) -> fcode st (t :: r) = None ->
  forelse fembed fhighlight st (t :: r) = None -> forelse flist0 (forelse fimages (forelse fbreak fheading)) (StopTerminator :: st) (t :: r) = None ->
  ~ opens_block (yields k) /\ ~ opens_ahead (yields k ++ rest).
Proof.
  intros st t r k rest C F EC E1 E2. pose proof (fparagraph_app _ _ _ _ F) as E. cbn [yield] in E. rewrite app_nil_r in E. cbn [app] in E. fold (yields k) in E.
  pose proof (proj2 (fparagraph_facts _ _ _ _ F)) as A. cbn [yield app] in A. rewrite app_nil_r in A. fold (yields k) in A. pose proof (fparagraph_stopped _ _ _ _ F) as Hs.
  rewrite E in EC, E1, E2. unfold forelse in E1, E2. split; intros O.
  - destruct O as [O|[O|[O|O]]].
    + pose proof (heading_sees (StopTerminator :: st) _ rest O) as X. destruct (flist0 _ _); [discriminate|]. destruct (fimages _ _); [discriminate|]. destruct (fbreak _ _); [discriminate|]. contradiction.
    + pose proof (break_sees (StopTerminator :: st) _ rest O) as X. destruct (flist0 _ _); [discriminate|]. destruct (fimages _ _); [discriminate|]. destruct (fbreak _ _); [discriminate|]. contradiction.
    + pose proof (list_sees (StopTerminator :: st) _ rest O) as X. destruct (flist0 _ _); [discriminate|]. contradiction.
    + pose proof (images_see (StopTerminator :: st) _ rest O A Hs) as X. destruct (flist0 _ _); [discriminate|]. destruct (fimages _ _); [discriminate|]. contradiction.
  - destruct O as [O|[O|O]].
    + exact (code_sees st _ O EC).
    + pose proof (embed_sees st _ C O) as X. destruct (fembed _ _); [discriminate|]. contradiction.
    + pose proof (highlight_sees st _ C O) as X. destruct (fembed _ _); [discriminate|]. contradiction.
Qed.

(** ** Documents *)

Lemma line_over_flips : forall c a b, flips a b -> line_over c a -> line_over c b.
Proof.
  intros c a b F [L|L]; [left; exact L|right]. destruct F as [|x y a b Fx F]; [exact I|].
  rewrite (flip_terminator _ _ Fx), (flip_eol _ _ Fx), (flip_col0 _ _ Fx). exact L.
Qed.
(** Blocks ahead do not depend on failed collapsibles. *)
Lemma flips_free : forall f a b, (forall x y, flip x y -> f y = f x) -> flips a b -> free f b -> free f a.
Proof. intros f a b H F. induction F as [|x y a b Fx F IH]; intros X; [constructor|]. inversion X as [|? ? X1 X2]; subst. constructor; [rewrite <- (H _ _ Fx); exact X1|exact (IH X2)]. Qed.
Lemma flip_eot : forall x y, flip x y -> is_eol_or_terminator y = is_eol_or_terminator x.
Proof. intros x y F. pose proof (flip_eol _ _ F) as E1. pose proof (flip_terminator _ _ F) as E2. unfold is_eol, is_terminator in *. unfold is_eol_or_terminator. rewrite E1, E2. reflexivity. Qed.
Lemma flip_bt3 : forall x y, flip x y -> is_backtick3 y = is_backtick3 x.
Proof. flip_tac Backtick. Qed.
Lemma flip_pipe : forall x y, flip x y -> is_pipe y = is_pipe x.
Proof. flip_tac Pipe. Qed.
Lemma flip_lc2 : forall x y, flip x y -> is_left_curly2 y = is_left_curly2 x.
Proof. flip_tac LeftCurlyBrace. Qed.
Lemma flip_rc2 : forall x y, flip x y -> is_right_curly2 y = is_right_curly2 x.
Proof. flip_tac RightCurlyBrace. Qed.
Lemma flip_one_bang : forall x y, flip x y -> is_one_bang y = is_one_bang x.
Proof. flip_tac Bang. Qed.
Lemma ends_block_flips : forall a b, flips a b -> ends_block b -> ends_block a.
Proof. intros a b F. destruct F as [|x y a b Fx F]; [auto|]. cbn. rewrite (flip_eot _ _ Fx). auto. Qed.
Ltac unsplit := repeat (match goal with
  | F : flips _ (_ :: _) |- _ => inversion F; subst; clear F
  | F : Forall2 flip _ (_ :: _) |- _ => inversion F; subst; clear F
  | F : flips _ (_ ++ _) |- _ => apply Forall2_app_inv_r in F; let F2 := fresh "F" in destruct F as (? & ? & F & F2 & ->)
  | F : Forall2 flip _ (_ ++ _) |- _ => apply Forall2_app_inv_r in F; let F2 := fresh "F" in destruct F as (? & ? & F & F2 & ->)
  end).
Ltac unflip1 := match goal with
  | |- free is_eol_or_terminator _ => eapply flips_free; [exact flip_eot|eassumption|eassumption]
  | |- free is_backtick3 _ => eapply flips_free; [exact flip_bt3|eassumption|eassumption]
  | |- free is_pipe _ => eapply flips_free; [exact flip_pipe|eassumption|eassumption]
  | |- free is_right_curly2 _ => eapply flips_free; [exact flip_rc2|eassumption|eassumption]
  | |- quiet _ => eapply flips_free; [exact flip_collapsible_end|eassumption|eassumption]
  | F : flip ?x ?y |- is_eol_or_terminator ?x = _ => rewrite <- (flip_eot _ _ F); assumption
  | F : flip ?x ?y |- is_eol ?x = _ => rewrite <- (flip_eol _ _ F); assumption
  | F : flip ?x ?y |- is_terminator ?x = _ => rewrite <- (flip_terminator _ _ F); assumption
  | F : flip ?x ?y |- is_backtick3 ?x = _ => rewrite <- (flip_bt3 _ _ F); assumption
  | F : flip ?x ?y |- is_pipe ?x = _ => rewrite <- (flip_pipe _ _ F); assumption
  | F : flip ?x ?y |- is_left_curly2 ?x = _ => rewrite <- (flip_lc2 _ _ F); assumption
  | F : flip ?x ?y |- is_right_curly2 ?x = _ => rewrite <- (flip_rc2 _ _ F); assumption
  | F : flip ?x ?y |- is_two_bangs ?x = _ => rewrite <- (flip_two_bangs _ _ F); assumption
  | F : flip ?x ?y |- is_one_bang ?x = _ => rewrite <- (flip_one_bang _ _ F); assumption
  | F : flip ?x ?y |- is_space_1 ?x = _ => rewrite <- (flip_space1 _ _ F); assumption
  | |- ends_block _ => eapply ends_block_flips; [eassumption|eassumption]
  end.
Lemma body_unflip : forall a b, flips a b -> highlight_body b -> highlight_body a.
Proof.
  intros a b F (x & c & r & -> & C & K & Q). rewrite (flips_nth col0 _ _ 0 flip_col0 F) in C. unsplit. do 3 eexists. split; [reflexivity|]. split; [exact C|]. split; unflip1.
Qed.
Lemma rest_unflip : forall a b, flips a b -> highlight_rest b -> highlight_rest a.
Proof.
  intros a b F [[N B]|(t & u & x & e & w & E & Kt & Ku & Fx & B)].
  - left. split; [|eapply body_unflip; eauto]. clear B. destruct F as [|? ? ? ? F1 F]; [reflexivity|]. destruct F as [|? ? ? ? F2 F]; cbn [fseq] in *.
    + rewrite (flip_one_bang _ _ F1) in N. destruct (is_one_bang x); reflexivity.
    + rewrite (flip_one_bang _ _ F1), (flip_space1 _ _ F2) in N. destruct (is_one_bang x); [|reflexivity]. destruct (is_space_1 x0); [discriminate|reflexivity].
  - right. pose proof (body_unflip _ _ F) as F0. rewrite E in F. unsplit. do 5 eexists. split; [reflexivity|]. split; [unflip1|]. split; [unflip1|]. split; [unflip1|].
    destruct B as [(Ke & Q & B)|[Ke B]]; [left|right].
    + split; [unflip1|]. split; [unflip1|]. eapply body_unflip; eauto.
    + split; [unflip1|]. auto.
Qed.
Lemma ahead_unflip : forall a b, flips a b -> opens_ahead b -> opens_ahead a.
Proof.
  intros a b F [H|[H|H]].
  - left. destruct H as (o & b1 & e & b2 & c & r & -> & H1 & H2 & H3 & H4 & H5 & H6 & H7). unsplit. do 6 eexists. split; [reflexivity|]. repeat split; unflip1.
  - right; left. destruct H as (o & b1 & e & b2 & c & r & -> & H1 & H2 & H3 & H4 & H5 & H6 & H7 & H8). unsplit. do 6 eexists. split; [reflexivity|]. repeat split; unflip1.
  - right; right. destruct H as (o & u & r & -> & Ko & H). unsplit. do 3 eexists. split; [reflexivity|]. split; [unflip1|]. destruct H as [(Ku & xx & e & w & -> & Y1 & Y2 & Y3 & C & Y4)|[Ku H]]; [left|right].
    + split; [unflip1|]. match goal with F : Forall2 flip ?l (xx ++ e :: w) |- _ => rewrite (flips_nth col0 _ _ 0 flip_col0 F) in C end. unsplit. do 3 eexists. split; [reflexivity|]. repeat split; try unflip1; [exact C|]. eapply rest_unflip; eauto.
    + split; [unflip1|]. eapply rest_unflip; eauto.
Qed.
Lemma no_block_flips : forall t a b, flips a b -> is_no_block t a -> is_no_block t b.
Proof.
  intros t a b F H. destruct t as [| |n o k c]; try exact I. destruct n; try exact I. destruct H as [H1 H2]. split; [exact H1|]. intros O. apply H2.
  eapply ahead_unflip; [|exact O]. apply flips_app; [apply flips_refl|exact F].
Qed.
Lemma no_blocks_flips : forall k a b, flips a b -> no_blocks k a -> no_blocks k b.
Proof.
  induction k as [|t k IH]; intros a b F H; [exact I|]. destruct H as [H1 H2]. split; [|eapply IH; eauto]. eapply no_block_flips; [|exact H1]. apply flips_app; [apply flips_refl|exact F].
Qed.
Lemma tight_flips : forall n o k c a b, flips a b -> tight n o k c a -> tight n o k c b.
Proof.
  intros n o k c a b F T. destruct n; cbn [tight] in *; try exact T; try (destruct T as [T T']; split; [|exact T']); try (eapply line_over_flips; eauto; fail).
  eapply no_blocks_flips; [|exact T]. apply flips_app; [apply flips_refl|exact F].
Qed.
Lemma every_flips : forall t a b, flips a b -> every tight t a -> every tight t b.
Proof.
  induction t as [ts|ts|n o k c IH] using tree_ind'; intros a b F T; try exact I.
  apply every_node in T. destruct T as [T K]. apply every_node. split; [eapply tight_flips; eauto|].
  clear T. induction k as [|t k IHk]; [exact I|]. inversion IH as [|? ? H1 H2]; subst. destruct K as [K1 K2]. split; [|apply IHk; assumption].
  eapply H1; [|exact K1]. apply flips_app; [apply flips_refl|]. apply flips_app; [apply flips_refl|exact F].
Qed.

Lemma no_code : forall st t r, is_backtick3 t = false -> fcode st (t :: r) = None.
Proof. intros st t r H. unfold fcode, ffence. cbn [fseq]. rewrite H. reflexivity. Qed.
Lemma coll_fail_code : forall n st ts ts', fcollapsible n st ts = CFail ts' -> fcode st ts = None -> fcode st ts' = None.
Proof.
  intros [|n] st ts ts' H E; cbn [fcollapsible] in H; [congruence|]. destruct (fseq [is_collapsible_start; is_space_or_eol] ts) as [[o r]|] eqn:Q; [|congruence].
  assert (X : forall l, fcode st (flip_head l) = None) by (intros [|t l]; [reflexivity|apply no_code; reflexivity]).
  destruct (opt_tree (fmodifier st r) r) as [k1 r1]. destruct (nth_is 0 col0 r1); [|injection H as <-; apply X].
  destruct (fdoc n (StopCollapsibleEnd :: st) r1) as [k2 r2].
  destruct (match r2 with
            | e :: r3 => if is_eol e then ([Skip [e]], r3) else ([], r2)
            | [] => ([], r2) end) as [k3 r3].
  destruct (fcollapsible_end r3) as [[c rest]|]; [discriminate|]. injection H as <-. apply X.
Qed.
Lemma fsimple_no_block : forall st t r x rest, calm st -> fsimple st (t :: r) = (x, rest) -> fcode st (t :: r) = None -> forelse fembed fhighlight st (t :: r) = None -> is_no_block x rest.
Proof.
  intros st t r x rest C H EC E1. unfold fsimple in H. destruct (forelse flist0 (forelse fimages (forelse fbreak fheading)) (StopTerminator :: st) (t :: r)) as [[y r1]|] eqn:E2.
  - injection H as -> ->. unfold forelse in E2.
    destruct (flist0 _ _) as [[? ?]|] eqn:F; [injection E2 as -> ->|clear F].
    { unfold flist0 in F. destruct (2 * length (t :: r) + 3) as [|n]; [discriminate|]. cbn [flist] in F. destruct (fitem _ _ _ _ _) as [[[lk ?] ?]|]; [|discriminate].
      destruct (flist_items _ _ _ _ _). injection F as <- <-. destruct lk; exact I. }
    destruct (fimages _ _) as [[? ?]|] eqn:F; [injection E2 as -> ->|clear F].
    { unfold fimages in F. destruct (fimages_loop _ _ _) as [[[|y [|z k]] ?]|] eqn:L; try discriminate; injection F as <- <-; [|exact I].
      cbn [fimages_loop] in L. destruct (fimage _ _) as [[z ?]|] eqn:G; [|destruct (stopped _ _); discriminate].
      destruct (fimages_loop _ _ _) as [[? ?]|]; [|discriminate]. injection L as -> _ _. unfold fimage in G. destruct (is_bang t); [|discriminate].
      destruct (ftitle _ _) as [[? ?]|]; [|discriminate]. destruct (fdest _ _) as [[? w9]|]; [|discriminate]. destruct w9 as [|e w9]; [injection G as <- <-; exact I|].
      destruct (is_eol e); [injection G as <- <-; exact I|]. destruct (stopped _ _); [injection G as <- <-; exact I|discriminate]. }
    destruct (fbreak _ _) as [[? ?]|] eqn:F; [injection E2 as -> ->|clear F].
    { unfold fbreak in F. destruct (is_dash5 t); [|discriminate]. injection F as <- <-. exact I. }
    unfold fheading in E2. destruct r as [|u r]; [discriminate|]. destruct (is_hash t && is_space_1 u); [|discriminate]. destruct (fitems _ _ _ _ _). injection E2 as <- <-. exact I.
  - assert (exists k, x = Node NParagraph [] k []) as (k & ->) by (unfold fparagraph in H; destruct (fitems _ _ _ _ _); injection H as <- <-; eauto).
    cbn [is_no_block]. eapply par_no_block; eauto.
Qed.

Lemma code_node : forall st ts x r, fcode st ts = Some (x, r) -> is_no_block x r.
Proof.
  intros st ts x r H. unfold fcode in H. destruct (ffence _) as [[? ?]|]; [|discriminate].
  match type of H with context[let (_, _) := ?X in _] => destruct X end.
  destruct (until _ _ _) as [[[? ?] ?]|]; [|discriminate]. destruct (fclose_line _ _ _) as [[? ?]|]; [|discriminate]. injection H as <- <-. exact I.
Qed.
Lemma eh_node : forall st ts x r, forelse fembed fhighlight st ts = Some (x, r) -> is_no_block x r.
Proof.
  intros st ts x r H. unfold forelse in H. destruct (fembed st ts) as [[? ?]|] eqn:E.
  - injection H as -> ->. unfold fembed in E. repeat (match type of E with context[match ?X with _ => _ end] => destruct X end; try discriminate); injection E as <- <-; exact I.
  - unfold fhighlight in H. repeat (match type of H with context[match ?X with _ => _ end] => destruct X end; try discriminate); injection H as <- <-; exact I.
Qed.
Lemma coll_node : forall n st ts x r, fcollapsible n st ts = CMatch x r -> is_no_block x r.
Proof.
  intros [|n] st ts x r H; cbn [fcollapsible] in H; [discriminate|].
  repeat (match type of H with context[match ?X with _ => _ end] => destruct X end; try discriminate); injection H as <- <-; exact I.
Qed.

Lemma docs_tight : forall n,
  (forall src st ts k rest, calm st -> 3 * length ts < n -> vtok src ts -> fdoc n st ts = (k, rest) -> everys tight k rest /\ no_blocks k rest)
  /\ (forall src st ts t rest, calm st -> ts <> [] -> 3 * length ts <= n -> vtok src ts -> fcollapsible n st ts = CMatch t rest -> every tight t rest).
Proof.
  induction n as [n IHn] using lt_wf_ind. destruct n.
  { split; intros; cbn in *; [lia|discriminate]. }
  destruct (IHn n (Nat.lt_succ_diag_r n)) as [ID IC].
  assert (DF : forall src st ts k rest, 3 * length ts < n -> vtok src ts -> fdoc n st ts = (k, rest) -> flips ts (yields k ++ rest)).
  { intros src st ts k rest Hn V H. destruct (docs_ok (S (3 * length ts)) n) as [D _].
    specialize (D src [] ts st [] ltac:(lia) Hn V). unfold doc_ok in D. rewrite H in D. apply D. }
  split.
  - intros src st ts k rest C Hn V H. cbn [fdoc] in H. destruct ts as [|t r]; [injection H as <- <-; split; exact I|].
    destruct (stopped st (t :: r)) eqn:S0; [injection H as <- <-; split; exact I|].
    assert (G : forall X, (let '(x, r1) := X in (every tight x r1 /\ is_no_block x r1) /\ flips (t :: r) (yield x ++ r1) /\ 1 <= length (yield x)) ->
              (let '(x, r1) := X in let (k, r2) := fdoc n st r1 in (x :: k, r2)) = (k, rest) -> everys tight k rest /\ no_blocks k rest).
    { intros [x r1] ([Tx Bx] & Fx & Lx) E. destruct (fdoc n st r1) as [k' r2] eqn:F. injection E as <- <-.
      pose proof (flips_length _ _ Fx) as LL. rewrite app_length in LL.
      assert (Ln : 3 * length r1 < n) by lia.
      assert (V1 : vtok src r1) by (pose proof (flips_vtok src _ _ Fx V) as V1; apply Forall_app in V1; apply V1).
      destruct (ID _ _ _ _ _ C Ln V1 F) as [I1 I2]. pose proof (DF _ _ _ _ _ Ln V1 F) as F1. split; [split; [|exact I1]; eapply every_flips; eauto|]. split; [|exact I2]. eapply no_block_flips; eauto. }
    refine (G _ _ H). clear G H.
    destruct (is_terminator t) eqn:T.
    { split; [split; exact I|]. split; [apply flips_refl|cbn; lia]. }
    destruct (fcode st (t :: r)) as [[y r1]|] eqn:E1.
    { pose proof (covers_code _ _ _ _ E1) as [Ey Ly]. pose proof (code_node _ _ _ _ E1) as By. apply tights_code in E1. split; [split; assumption|]. split; [rewrite <- Ey; apply flips_refl|exact Ly]. }
    assert (Ln : 3 * length (t :: r) <= n) by (cbn [length] in *; lia).
    destruct (docs_ok (3 * length (t :: r)) n) as [_ CO].
    specialize (CO src [] (t :: r) st [] ltac:(discriminate) ltac:(lia) Ln V). unfold coll_ok in CO.
    destruct (fcollapsible n st (t :: r)) as [y r1|ts'] eqn:E2.
    { destruct CO as (Fy & Ly & _). split; [|split; [exact Fy|exact Ly]]. split; [eapply (IC src st (t :: r)); eauto; discriminate|exact (coll_node _ _ _ _ _ E2)]. }
    destruct CO as [F2 _].
    destruct (forelse fembed fhighlight st ts') as [[y r1]|] eqn:E3.
    { pose proof (covers_orelse _ _ covers_embed covers_highlight _ _ _ _ E3) as [Ey Ly]. rewrite Ey in F2. split; [|auto]. split; [|exact (eh_node _ _ _ _ E3)].
      revert E3. apply tights_orelse; [apply tights_embed|apply tights_snugs, snugs_highlight]. }
    destruct (fsimple st ts') as [y r1] eqn:E4.
    assert (V' : vtok src ts') by (eapply flips_vtok; eauto).
    pose proof (simple_block_ST src [] ts' st [] y r1 V' E4) as [Ey _].
    pose proof (coll_fail_code _ _ _ _ E2 E1) as E1'. split; [split; [eapply fsimple_tight; eauto|]|].
    { destruct ts' as [|t' r']; [apply flips_length in F2; discriminate|]. exact (fsimple_no_block _ _ _ _ _ C E4 E1' E3). }
    split; [rewrite <- Ey; exact F2|]. eapply fsimple_progress; [exact E4|rewrite (flips_stopped st _ _ F2); exact S0|].
    rewrite (flips_nth is_terminator _ _ 0 flip_terminator F2). exact T.
  - intros src st ts t rest C NE Hn V H. cbn [fcollapsible] in H.
    destruct (fseq [is_collapsible_start; is_space_or_eol] ts) as [[o r]|] eqn:Q; [|discriminate].
    apply fseq_app in Q. destruct Q as (-> & Lo & _). simpl in Lo.
    destruct (opt_tree (fmodifier st r) r) as [k1 r1] eqn:K1.
    pose proof (opt_tree_app _ _ _ _ _ covers_modifier K1) as Er.
    destruct (nth_is 0 col0 r1); [|discriminate].
    destruct (fdoc n (StopCollapsibleEnd :: st) r1) as [k2 r2] eqn:D.
    destruct (match r2 with
              | e :: r3 => if is_eol e then ([Skip [e]], r3) else ([], r2)
              | [] => ([], r2) end) as [k3 r3] eqn:K3.
    destruct (fcollapsible_end r3) as [[c rest']|] eqn:CE; [|discriminate]. injection H as <- <-.
    apply fcollapsible_end_app in CE. destruct CE as [-> _].
    assert (L1 : 3 * length r1 < n).
    { subst r. rewrite !app_length in Hn. lia. }
    assert (V1 : vtok src r1).
    { subst r. apply Forall_app in V. destruct V as [_ V]. apply Forall_app in V. apply V. }
    pose proof (ID _ _ _ _ _ (Forall_cons _ eq_refl C) L1 V1 D) as [T2 B2].
    assert (K3' : r2 = yields k3 ++ c ++ rest' /\ Forall snug k3).
    { destruct r2 as [|e r2']; [injection K3 as <- <-; auto|].
      destruct (is_eol e); injection K3 as <- E3; [|subst; auto]. subst. split; [reflexivity|]. repeat constructor. }
    destruct K3' as [E3 S3].
    apply every_node. split; [exact I|]. apply everys_app. split.
    + apply everys_snug. destruct (fmodifier st r) as [[x y]|] eqn:E; injection K1 as <- <-; [|constructor].
      apply modifier_facts in E. auto.
    + split; [|apply everys_snug; exact S3]. apply every_node. cbn [app]. rewrite <- E3. split; [exact B2|exact T2].
Qed.

Theorem fparse_tight : forall s, everys tight (fparse (spec_tokens s)) [].
Proof.
  intros s. pose proof (vtok_lex s) as V. revert V. generalize (spec_tokens s). intros ts V. unfold fparse.
  destruct (opt_tree (fmetadata [] ts) ts) as [k1 r1] eqn:K1. pose proof (opt_tree_app _ _ _ _ _ (covers_delim _ _ _) K1) as E1.
  assert (V1 : vtok s r1) by (subst ts; apply Forall_app in V; apply V).
  destruct (fdoc (3 * length r1 + 5) [] r1) as [k2 r2] eqn:D.
  assert (r2 = []) as ->.
  { destruct (docs_ok (3 * length r1 + 5) (3 * length r1 + 5)) as [DO _]. specialize (DO s [] r1 [] [] ltac:(lia) ltac:(lia) V1).
    unfold doc_ok in DO. rewrite D in DO. destruct DO as (_ & S0 & _). destruct r2; [reflexivity|discriminate]. }
  apply (proj1 (docs_tight _)) with (src := s) in D; [|constructor|lia|exact V1]. apply everys_app. split.
  - apply everys_snug. destruct (fmetadata [] ts) as [[x y]|] eqn:E; injection K1 as <- <-; [|constructor].
    apply snugs_metadata in E. auto.
  - cbn [everys]. split; [|exact I]. apply every_node. split; apply D.
Qed.
