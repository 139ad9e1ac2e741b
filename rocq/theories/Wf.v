(** The shape of the syntax trees: which children and which delimiter tokens every node has. *)
From Verif Require Import Base Lexer LexSpec LexProofs LexFacts Ops Parser FParser Refine Refine2 Refine3.

(** ** Definitions *)

Definition one (f : token -> bool) (ts : list token) : Prop := exists t, ts = [t] /\ f t = true.
Definition one_eol (f : token -> bool) (ts : list token) : Prop :=
  exists t, f t = true /\ (ts = [t] \/ exists e, ts = [t; e] /\ is_eol e = true).
Definition two (f g : token -> bool) (ts : list token) : Prop :=
  exists t u, ts = [t; u] /\ f t = true /\ g u = true.
Definition one_leaf (k : list tree) : Prop := exists b, k = [Leaf b].
Definition root (n : node) (t : tree) : Prop := exists o k c, t = Node n o k c.
Definition no_term (ts : list token) : Prop := Forall (fun t => is_terminator t = false) ts.
Definition is_right_paren (t : token) : bool := kind_eqb (kind t) RightParenthesis.

(** Text and nodes; texts are not empty and not adjacent. *)
Fixpoint items (P : node -> bool) (k : list tree) : Prop :=
  match k with
  | [] => True
  | Leaf ts :: r => ts <> [] /\ match r with Leaf _ :: _ => False | _ => True end /\ items P r
  | Node n _ _ _ :: r => P n = true /\ items P r
  | Skip _ :: _ => False
  end.

Definition inline (n : node) : bool :=
  match n with NAnchor | NBold | NItalic | NStrikethrough | NCodeSpan | NEmphasis => true | _ => false end.
Definition in_bold (n : node) : bool := match n with NItalic | NStrikethrough => true | _ => false end.
Definition in_heading (n : node) : bool := match n with NAnchor => true | _ => false end.

(** Tokens in front of a list item of nesting level [lvl]. *)
Definition marker (lvl : nat) (lk : list_kind) (o : list token) : Prop :=
  nth_is 0 col0 o = true /\
  exists m s, list_kind_of m = Some lk /\ is_space_1 s = true /\
    match lvl with
    | 0 => o = [m; s]
    | _ => exists i, o = [i; m; s] /\ is_indent lvl i = true
    end.

Definition item_at (lvl : nat) (lk : list_kind) (t : tree) : Prop :=
  exists o k, t = Node NListItem o k [] /\ marker lvl lk o.
Definition list_at (lvl : nat) (t : tree) : Prop :=
  exists lk k, t = Node (list_kind_node lk) [] k [] /\ k <> [] /\ Forall (item_at lvl lk) k.

Definition simple_block_node (n : node) : bool :=
  match n with
  | NParagraph | NHeading | NImage | NImages | NCode | NEmbed | NHighlight | NCollapsible
  | NThematicBreak => true
  | _ => false
  end.
Definition block (t : tree) : Prop :=
  match t with
  | Leaf ts => one is_terminator ts
  | Skip _ => False
  | Node n _ _ _ => simple_block_node n = true \/ list_at 0 t
  end.

(** The paragraphs of a highlight, with blank lines. *)
Inductive hl_body : list tree -> Prop :=
| hl_nil : hl_body []
| hl_par : forall p k, root NParagraph p -> hl_body k -> hl_body (p :: k)
| hl_term : forall t p k, is_terminator t = true -> root NParagraph p -> hl_body k ->
    hl_body (Leaf [t] :: p :: k).

Definition opt_root (n : node) (k : list tree) : Prop := k = [] \/ exists t, k = [t] /\ root n t.

Definition shape (n : node) (o : list token) (k : list tree) (c : list token) : Prop :=
  match n with
  | NMetadata => one is_three_dashes o /\ one_leaf k /\ one is_three_dashes c
  | NTitle => one is_left_bracket o /\ one_leaf k /\ one is_right_bracket c
  | NItalic => one is_underscore o /\ one_leaf k /\ one is_underscore c
  | NStrikethrough => one is_tilde o /\ one_leaf k /\ one is_tilde c
  | NEmphasis => one is_star o /\ one_leaf k /\ one is_star c
  | NCodeSpan => one is_backtick o /\ one_leaf k /\ one is_backtick c
  | NDestination => one is_left_paren o /\ one_leaf k /\ one is_right_paren c
  | NAnchor => o = [] /\ c = [] /\ exists t d, k = [t; d] /\ root NTitle t /\ root NDestination d
  | NBold => one is_star2 o /\ items in_bold k /\ one is_star2 c
  | NParagraph => o = [] /\ c = [] /\ items inline k /\ no_term (yields k)
  | NHeading => two is_hash is_space_1 o /\ c = [] /\ items in_heading k /\ no_term (yields k)
  | NImage => no_term (yields k) /\ one is_bang o /\ (c = [] \/ one is_eol c)
              /\ exists t d, k = [t; d] /\ root NTitle t /\ root NDestination d
  | NImages => o = [] /\ c = [] /\ 2 <= length k /\ Forall (root NImage) k
  | NModifier => o = [] /\ one_leaf k /\ one is_eol_or_terminator c
  | NThematicBreak => o = [] /\ c = [] /\ exists t, k = [Leaf [t]] /\ is_dash5 t = true
  | NUnorderedList => o = [] /\ c = [] /\ k <> [] /\ exists lvl, Forall (item_at lvl Unordered) k
  | NOrderedList => o = [] /\ c = [] /\ k <> [] /\ exists lvl, Forall (item_at lvl Ordered) k
  | NListItem => c = [] /\ exists lvl lk p, marker lvl lk o /\ root NParagraph p
                 /\ (k = [p] \/ exists l, k = [p; l] /\ list_at (S lvl) l)
  | NIcon => two is_one_bang is_space_1 o /\ one_leaf k /\ one is_eol c
  | NHighlight =>
      one_eol is_two_bangs c /\ exists k1 k2 k3, k = k1 ++ k2 ++ k3
      /\ opt_root NIcon k2 /\ hl_body k3
      /\ ((two is_two_bangs is_space_1 o /\ opt_root NModifier k1)
          \/ (two is_two_bangs is_eol o /\ k1 = []))
  | NEmbed => one is_left_curly2 o /\ one_eol is_right_curly2 c
              /\ exists a s b, k = [Leaf a; Leaf [s]; Leaf b] /\ is_pipe s = true
  | NCode => one_eol is_backtick3 c /\ exists k1 b, k = k1 ++ [Leaf b]
             /\ ((one is_backtick3 o /\ opt_root NModifier k1) \/ (two is_backtick3 is_eol o /\ k1 = []))
  | NCollapsible => two is_collapsible_start is_space_or_eol o /\ one_eol is_collapsible_end c
             /\ exists k1 k2 k3, k = k1 ++ [Node NDocument [] k2 []] ++ k3
             /\ opt_root NModifier k1 /\ (k3 = [] \/ exists e, k3 = [Skip [e]] /\ is_eol e = true)
  | NDocument => o = [] /\ c = [] /\ Forall block k
  end.

Inductive wf : tree -> Prop :=
| wf_leaf : forall ts, wf (Leaf ts)
| wf_skip : forall ts, wf (Skip ts)
| wf_node : forall n o k c, Forall wf k -> shape n o k c -> wf (Node n o k c).

(** ** The functional parser builds such trees *)

Definition makes (n : node) (g : fparser) : Prop :=
  forall st ts t rest, g st ts = Some (t, rest) -> wf t /\ root n t.

Lemma root_node : forall n o k c, root n (Node n o k c).
Proof. intros; exists o, k, c; reflexivity. Qed.
Global Hint Resolve root_node : wf.

Lemma makes_delim : forall n f g,
  (forall o k c, one f o -> one_leaf k -> one g c -> shape n o k c) -> makes n (fdelim n f g).
Proof.
  intros n f g H st ts t rest E. unfold fdelim in E. destruct ts as [|a r]; [discriminate|].
  destruct (f a) eqn:Ef; [|discriminate]. destruct (until st g r) as [[[b c] r']|] eqn:U; [|discriminate].
  injection E as <- <-. apply until_app in U. destruct U as [_ Eg].
  split; [|auto with wf]. constructor.
  - repeat constructor.
  - apply H; [exists a; auto|exists b; reflexivity|exists c; auto].
Qed.

Lemma makes_title : makes NTitle ftitle. Proof. apply makes_delim. cbn. auto. Qed.
Lemma makes_italic : makes NItalic fitalic. Proof. apply makes_delim. cbn. auto. Qed.
Lemma makes_strike : makes NStrikethrough fstrike. Proof. apply makes_delim. cbn. auto. Qed.
Lemma makes_emphasis : makes NEmphasis femphasis. Proof. apply makes_delim. cbn. auto. Qed.
Lemma makes_code_span : makes NCodeSpan fcode_span. Proof. apply makes_delim. cbn. auto. Qed.
Lemma makes_metadata : makes NMetadata fmetadata. Proof. apply makes_delim. cbn. auto. Qed.

Lemma makes_dest : makes NDestination fdest.
Proof.
  intros st ts t rest E. unfold fdest in E. destruct ts as [|a r]; [discriminate|].
  destruct (is_left_paren a) eqn:Ef; [|discriminate].
  destruct (dest_scan st 1 r) as [[[b c] r']|] eqn:U; [|discriminate]. injection E as <- <-.
  apply dest_scan_app in U. destruct U as [_ K]. split; [|auto with wf]. constructor; [repeat constructor|].
  cbn. split; [exists a; auto|]. split; [exists b; reflexivity|]. exists c. split; [reflexivity|].
  unfold is_right_paren. rewrite K. reflexivity.
Qed.

Lemma makes_anchor : makes NAnchor fanchor.
Proof.
  intros st ts t rest E. unfold fanchor in E.
  destruct (ftitle st ts) as [[t1 r1]|] eqn:E1; [|discriminate].
  destruct (fdest st r1) as [[t2 r2]|] eqn:E2; [|discriminate]. injection E as <- <-.
  apply makes_title in E1. apply makes_dest in E2. destruct E1 as [W1 R1], E2 as [W2 R2].
  split; [|auto with wf]. constructor; [auto|]. cbn. repeat split; auto. exists t1, t2. auto.
Qed.

(** Text items. *)
Lemma items_leaf : forall P acc, items P (leaf acc).
Proof. intros P [|a acc]; cbn; auto. repeat split. discriminate. Qed.
Lemma items_cons : forall P acc n t k, root n t -> P n = true -> items P k -> items P (leaf acc ++ t :: k).
Proof.
  intros P acc n t k (o & k' & c & ->) HP HK. destruct acc as [|a acc]; cbn; auto. repeat split; auto. discriminate.
Qed.
Lemma wf_leafs : forall acc, Forall wf (leaf acc).
Proof. intros [|a acc]; repeat constructor. Qed.

Lemma fitems_wf : forall P g n st acc ts k rest,
  (forall st ts t rest, g st ts = Some (t, rest) -> wf t /\ exists n, root n t /\ P n = true) ->
  fitems g n st acc ts = (k, rest) -> Forall wf k /\ items P k.
Proof.
  intros P g n. induction n; intros st acc ts k rest G H; cbn [fitems] in H.
  { injection H as <- <-. cbn; auto. }
  destruct (stopped st ts).
  { injection H as <- <-. split; [apply wf_leafs|apply items_leaf]. }
  destruct (g st ts) as [[x r]|] eqn:E.
  - destruct (fitems g n st [] r) as [k' r'] eqn:F. injection H as <- <-.
    apply IHn in F; [|exact G]. destruct F as [F1 F2]. apply G in E. destruct E as (W & m & R & HP). split.
    + apply Forall_app. split; [apply wf_leafs|]. constructor; assumption.
    + eapply items_cons; eassumption.
  - destruct ts as [|t r].
    + injection H as <- <-. split; [apply wf_leafs|apply items_leaf].
    + eapply IHn; eassumption.
Qed.

Lemma fbold_loop_wf : forall n st acc ts k c rest,
  fbold_loop n st acc ts = Some (k, c, rest) -> Forall wf k /\ items in_bold k /\ is_star2 c = true.
Proof.
  induction n; intros st acc ts k c rest H; cbn [fbold_loop] in H; [discriminate|].
  destruct ts as [|t r]; [discriminate|]. destruct (stopped st (t :: r)); [discriminate|].
  destruct (is_star2 t) eqn:E2.
  - injection H as <- <- <-. split; [apply wf_leafs|]. split; [apply items_leaf|exact E2].
  - destruct (forelse fstrike fitalic st (t :: r)) as [[x r']|] eqn:E.
    + destruct (fbold_loop n st [] r') as [[[k' c'] r2]|] eqn:F; [|discriminate]. injection H as <- <- <-.
      apply IHn in F. destruct F as (F1 & F2 & F3).
      assert (G : wf x /\ exists m, root m x /\ in_bold m = true).
      { unfold forelse in E. destruct (fstrike st (t :: r)) as [y|] eqn:E'.
        - injection E as ->. apply makes_strike in E'. destruct E' as [W R]. split; [exact W|]. eauto.
        - apply makes_italic in E. destruct E as [W R]. split; [exact W|]. eauto. }
      destruct G as (W & m & R & HP). split; [|split; [|exact F3]].
      * apply Forall_app. split; [apply wf_leafs|]. constructor; assumption.
      * eapply items_cons; eassumption.
    + eapply IHn; eassumption.
Qed.

Lemma makes_bold : makes NBold fbold.
Proof.
  intros st ts t rest E. unfold fbold in E. destruct ts as [|a r]; [discriminate|].
  destruct (is_star2 a) eqn:Ef; [|discriminate].
  destruct (fbold_loop (S (length r)) st [] r) as [[[k c] r']|] eqn:F; [|discriminate]. injection E as <- <-.
  apply fbold_loop_wf in F. destruct F as (F1 & F2 & F3). split; [|auto with wf]. constructor; [exact F1|].
  cbn. split; [exists a; auto|]. split; [exact F2|exists c; auto].
Qed.

Lemma forelse_some : forall f g st ts r, forelse f g st ts = Some r -> f st ts = Some r \/ g st ts = Some r.
Proof. intros f g st ts r H. unfold forelse in H. destruct (f st ts); auto. Qed.

Ltac orelse_cases H :=
  repeat match type of H with
         | forelse _ _ _ _ = Some _ => apply forelse_some in H; destruct H as [H|H]
         end.

Lemma makes_inline : forall st ts t rest, finline st ts = Some (t, rest) ->
  wf t /\ exists n, root n t /\ inline n = true.
Proof.
  intros st ts t rest H. unfold finline in H.
  orelse_cases H;
  [apply makes_strike in H | apply makes_italic in H | apply makes_bold in H | apply makes_anchor in H
  | apply makes_code_span in H | apply makes_emphasis in H]; destruct H as [W R]; (split; [exact W|]); eauto.
Qed.

(** No blank line inside. *)
Lemma until_no_term : forall st m ts b c rest, In StopTerminator st ->
  until st m ts = Some (b, c, rest) -> no_term (b ++ [c]).
Proof.
  intros st m ts. induction ts as [|t r IH]; intros b c rest HS H; cbn [until] in H; [discriminate|].
  destruct (stopped st (t :: r)) eqn:S0; [discriminate|].
  assert (T : is_terminator t = false).
  { destruct (is_terminator t) eqn:T; [|reflexivity]. exfalso.
    assert (X : existsb (fun c => fmatches c (t :: r)) st = true).
    { apply existsb_exists. exists StopTerminator. split; [exact HS|exact T]. }
    cbn [stopped] in S0. congruence. }
  destruct (m t).
  - injection H as <- <- <-. constructor; [exact T|constructor].
  - destruct (until st m r) as [[[b' c'] r']|] eqn:E; [|discriminate]. injection H as <- <- <-.
    constructor; [exact T|]. eapply IH; eauto.
Qed.

Lemma stopped_term : forall st t r, In StopTerminator st -> stopped st (t :: r) = false -> is_terminator t = false.
Proof.
  intros st t r HS S0. destruct (is_terminator t) eqn:T; [|reflexivity]. exfalso.
  assert (X : existsb (fun c => fmatches c (t :: r)) st = true).
  { apply existsb_exists. exists StopTerminator. split; [exact HS|exact T]. }
  cbn [stopped] in S0. congruence.
Qed.

Lemma dest_no_term : forall st ts n b c rest, In StopTerminator st ->
  dest_scan st n ts = Some (b, c, rest) -> no_term (b ++ [c]).
Proof.
  intros st ts. induction ts as [|t r IH]; intros n b c rest HS H; cbn [dest_scan] in H; [discriminate|].
  destruct (stopped st (t :: r)) eqn:S0; [discriminate|].
  pose proof (stopped_term _ _ _ HS S0) as T.
  assert (M : forall m, match dest_scan st m r with Some (b, c, rest) => Some (t :: b, c, rest) | None => None end
              = Some (b, c, rest) -> no_term (b ++ [c])).
  { intros m Hm. destruct (dest_scan st m r) as [[[b' c'] r']|] eqn:D; [|discriminate].
    injection Hm as <- <- <-. constructor; [exact T|]. eapply IH; eauto. }
  destruct (kind t) eqn:K; try (eapply M; exact H).
  destruct (n - 1 =? 0).
  - injection H as <- <- <-. constructor; [exact T|constructor].
  - destruct (dest_scan st (n - 1) r) as [[[b' c'] r']|] eqn:D.
    + injection H as <- <- <-. constructor; [exact T|]. eapply IH; eauto.
    + injection H as <- <- <-. constructor; [exact T|constructor].
Qed.

Definition termless (g : fparser) : Prop :=
  forall st ts t rest, In StopTerminator st -> g st ts = Some (t, rest) -> no_term (yield t).

Lemma termless_delim : forall n f g, (forall t, f t = true -> is_terminator t = false) -> termless (fdelim n f g).
Proof.
  intros n f g Hf st ts t rest HS E. unfold fdelim in E. destruct ts as [|a r]; [discriminate|].
  destruct (f a) eqn:Ef; [|discriminate]. destruct (until st g r) as [[[b c] r']|] eqn:U; [|discriminate].
  injection E as <- <-. cbn. rewrite app_nil_r. constructor; [apply Hf; exact Ef|]. eapply until_no_term; eauto.
Qed.
Lemma termless_orelse : forall f g, termless f -> termless g -> termless (forelse f g).
Proof. intros f g F G st ts t rest HS H. apply forelse_some in H. destruct H as [H|H]; eauto. Qed.

Ltac not_term := let t := fresh in let H := fresh in intros t H;
  repeat (apply andb_true_iff in H; destruct H as [H ?]); apply kind_eqb_eq in H;
  unfold is_terminator; rewrite H; reflexivity.

Lemma termless_title : termless ftitle. Proof. apply termless_delim. not_term. Qed.
Lemma termless_dest : termless fdest.
Proof.
  intros st ts t rest HS E. unfold fdest in E. destruct ts as [|a r]; [discriminate|].
  destruct (is_left_paren a) eqn:Ef; [|discriminate].
  destruct (dest_scan st 1 r) as [[[b c] r']|] eqn:U; [|discriminate]. injection E as <- <-.
  cbn. rewrite app_nil_r. constructor.
  - revert Ef. revert a. not_term.
  - eapply dest_no_term; eauto.
Qed.
Lemma termless_anchor : termless fanchor.
Proof.
  intros st ts t rest HS E. unfold fanchor in E.
  destruct (ftitle st ts) as [[t1 r1]|] eqn:E1; [|discriminate].
  destruct (fdest st r1) as [[t2 r2]|] eqn:E2; [|discriminate]. injection E as <- <-.
  cbn. rewrite !app_nil_r. apply Forall_app. split; [eapply termless_title; eauto|eapply termless_dest; eauto].
Qed.
Lemma no_term_app : forall a b, no_term (a ++ b) <-> no_term a /\ no_term b.
Proof. intros. apply Forall_app. Qed.

Lemma fbold_loop_no_term : forall n st acc ts k c rest, In StopTerminator st -> no_term acc ->
  fbold_loop n st acc ts = Some (k, c, rest) -> no_term (yields k ++ [c]).
Proof.
  induction n; intros st acc ts k c rest HS HA H; cbn [fbold_loop] in H; [discriminate|].
  destruct ts as [|t r]; [discriminate|]. destruct (stopped st (t :: r)) eqn:S0; [discriminate|].
  pose proof (stopped_term _ _ _ HS S0) as T.
  destruct (is_star2 t) eqn:E2.
  - injection H as <- <- <-. rewrite yields_leaf. apply no_term_app. split; [exact HA|repeat constructor; exact T].
  - destruct (forelse fstrike fitalic st (t :: r)) as [[x r']|] eqn:E.
    + destruct (fbold_loop n st [] r') as [[[k' c'] r2]|] eqn:F; [|discriminate]. injection H as <- <- <-.
      apply IHn in F; [|exact HS|constructor].
      assert (X : no_term (yield x)).
      { revert E. apply termless_orelse; [apply termless_delim; not_term|apply termless_delim; not_term|exact HS]. }
      rewrite yields_app, yields_leaf. cbn. fold (yields k'). rewrite <- !app_assoc.
      apply no_term_app. split; [exact HA|]. apply no_term_app. split; [exact X|exact F].
    + eapply IHn; [exact HS| |exact H]. apply no_term_app. split; [exact HA|repeat constructor; exact T].
Qed.

Lemma termless_bold : termless fbold.
Proof.
  intros st ts t rest HS E. unfold fbold in E. destruct ts as [|a r]; [discriminate|].
  destruct (is_star2 a) eqn:Ef; [|discriminate].
  destruct (fbold_loop (S (length r)) st [] r) as [[[k c] r']|] eqn:F; [|discriminate]. injection E as <- <-.
  apply fbold_loop_no_term in F; [|exact HS|constructor]. cbn. fold (yields k). constructor; [|exact F].
  revert Ef. revert a. not_term.
Qed.

Lemma termless_inline : termless finline.
Proof.
  unfold finline. repeat apply termless_orelse; try (apply termless_delim; not_term).
  - apply termless_bold.
  - apply termless_anchor.
Qed.

Lemma fitems_no_term : forall g n st acc ts k rest, termless g -> In StopTerminator st -> no_term acc ->
  fitems g n st acc ts = (k, rest) -> no_term (yields k).
Proof.
  intros g n. induction n; intros st acc ts k rest G HS HA H; cbn [fitems] in H.
  { injection H as <- <-. constructor. }
  destruct (stopped st ts) eqn:S0.
  { injection H as <- <-. rewrite yields_leaf. exact HA. }
  destruct (g st ts) as [[x r]|] eqn:E.
  - destruct (fitems g n st [] r) as [k' r'] eqn:F. injection H as <- <-.
    apply IHn in F; auto; [|constructor]. rewrite yields_app, yields_leaf. cbn. fold (yields k').
    apply no_term_app. split; [exact HA|]. apply no_term_app. split; [eapply G; eauto|exact F].
  - destruct ts as [|t r].
    + injection H as <- <-. rewrite yields_leaf. exact HA.
    + eapply IHn; [exact G|exact HS| |exact H]. apply no_term_app. split; [exact HA|].
      repeat constructor. eapply stopped_term; eauto.
Qed.

Lemma fparagraph_wf : forall st ts t rest, In StopTerminator st -> fparagraph st ts = (t, rest) ->
  wf t /\ root NParagraph t.
Proof.
  intros st ts t rest HS H. unfold fparagraph in H.
  destruct (fitems finline (S (length ts)) st [] ts) as [k r] eqn:F. injection H as <- <-.
  split; [|auto with wf]. pose proof (fitems_wf inline finline _ _ _ _ _ _ makes_inline F) as [W I].
  constructor; [exact W|]. cbn. repeat split; auto.
  eapply fitems_no_term; [apply termless_inline|exact HS| |exact F]. constructor.
Qed.

Lemma fheading_wf : forall st ts t rest, In StopTerminator st -> fheading st ts = Some (t, rest) ->
  wf t /\ root NHeading t.
Proof.
  intros st ts t rest HS H. rewrite fheading_eq in H.
  destruct (fseq [is_hash; is_space_1] ts) as [[o r]|] eqn:Q; [|discriminate].
  destruct (fitems fanchor (S (length r)) st [] r) as [k r'] eqn:F. injection H as <- <-.
  split; [|auto with wf].
  assert (G : forall st ts t rest, fanchor st ts = Some (t, rest) -> wf t /\ exists n, root n t /\ in_heading n = true).
  { intros st0 ts0 t0 rest0 E. apply makes_anchor in E. destruct E as [W R]. split; [exact W|]. eauto. }
  pose proof (fitems_wf in_heading fanchor _ _ _ _ _ _ G F) as [W I].
  constructor; [exact W|]. apply fseq_app in Q. destruct Q as (_ & _ & Q).
  inversion Q as [|? a ? l1 H1 Q1]; subst. inversion Q1 as [|? b ? l2 H2 Q2]; subst. inversion Q2; subst.
  cbn. repeat split; auto.
  - exists a, b. auto.
  - eapply fitems_no_term; [apply termless_anchor|exact HS| |exact F]. constructor.
Qed.

Lemma fimage_wf : forall st ts t rest, In StopTerminator st -> fimage st ts = Some (t, rest) -> wf t /\ root NImage t.
Proof.
  intros st ts t rest HS H. unfold fimage in H. destruct ts as [|a r]; [discriminate|].
  destruct (is_bang a) eqn:Ea; [|discriminate].
  destruct (ftitle st r) as [[t1 r1]|] eqn:E1; [|discriminate].
  destruct (fdest st r1) as [[t2 r2]|] eqn:E2; [|discriminate].
  pose proof (termless_title _ _ _ _ HS E1) as N1. pose proof (termless_dest _ _ _ _ HS E2) as N2.
  apply makes_title in E1. apply makes_dest in E2. destruct E1 as [W1 R1], E2 as [W2 R2].
  assert (G : forall c, (c = [] \/ one is_eol c) -> wf (Node NImage [a] [t1; t2] c) /\ root NImage (Node NImage [a] [t1; t2] c)).
  { intros c Hc. split; [|auto with wf]. constructor; [auto|]. cbn [shape]. split.
    - cbn. rewrite app_nil_r. apply no_term_app. auto.
    - split; [exists a; auto|]. split; [exact Hc|]. exists t1, t2. auto. }
  destruct r2 as [|e r3].
  - injection H as <- <-. apply G. auto.
  - destruct (is_eol e) eqn:Ee.
    + injection H as <- <-. apply G. right. exists e; auto.
    + destruct (stopped st (e :: r3)); [|discriminate]. injection H as <- <-. apply G. auto.
Qed.

Lemma fimages_loop_wf : forall n st ts k rest, In StopTerminator st -> fimages_loop n st ts = Some (k, rest) ->
  Forall wf k /\ Forall (root NImage) k.
Proof.
  induction n; intros st ts k rest HS H; cbn [fimages_loop] in H; [discriminate|].
  destruct ts as [|t r]; [injection H as <- <-; auto|].
  destruct (fimage st (t :: r)) as [[x r1]|] eqn:E.
  - destruct (fimages_loop n st r1) as [[k' r']|] eqn:F; [|discriminate]. injection H as <- <-.
    apply fimage_wf in E; [|exact HS]. destruct E as [W R]. apply IHn in F; [|exact HS]. destruct F. auto.
  - destruct (stopped st (t :: r)); [|discriminate]. injection H as <- <-. auto.
Qed.

Lemma fimages_wf : forall st ts t rest, In StopTerminator st -> fimages st ts = Some (t, rest) -> wf t /\ (root NImage t \/ root NImages t).
Proof.
  intros st ts t rest HS H. unfold fimages in H.
  destruct (fimages_loop (S (length ts)) st ts) as [[k r]|] eqn:F; [|discriminate].
  apply fimages_loop_wf in F; [|exact HS]. destruct F as [W R].
  destruct k as [|x [|y k]]; [discriminate| |].
  - injection H as <- <-. inversion W; inversion R; auto.
  - injection H as <- <-. split; [|auto with wf]. constructor; [exact W|]. cbn. repeat split; auto. lia.
Qed.

Lemma makes_modifier : makes NModifier fmodifier.
Proof.
  intros st ts t rest H. unfold fmodifier in H. destruct (nth_is 0 col0 ts); [discriminate|].
  destruct (until st is_eol_or_terminator ts) as [[[b c] r]|] eqn:U; [|discriminate]. injection H as <- <-.
  apply until_app in U. destruct U as [_ E]. split; [|auto with wf]. constructor; [repeat constructor|].
  cbn. repeat split; [exists b; auto|exists c; auto].
Qed.

Lemma makes_break : makes NThematicBreak fbreak.
Proof.
  intros st ts t rest H. unfold fbreak in H. destruct ts as [|a r]; [discriminate|].
  destruct (is_dash5 a) eqn:E; [|discriminate]. injection H as <- <-. split; [|auto with wf].
  constructor; [repeat constructor|]. cbn. repeat split. exists a. auto.
Qed.

(** Lists. *)
Lemma fitem_marker : forall level k lk ts o r m, fseq (marker_preds level k) ts = Some (o, r) ->
  nth_is 0 col0 ts = true -> nth_error ts (if level =? 0 then 0 else 1) = Some m -> list_kind_of m = Some lk ->
  marker level lk o.
Proof.
  intros level k lk ts o r m Q C N L. apply fseq_app in Q. destruct Q as (-> & _ & Q).
  unfold marker_preds in Q. destruct level as [|lvl]; cbn [Nat.eqb] in *.
  - inversion Q as [|? a ? l1 H1 Q1]; subst. inversion Q1 as [|? b ? l2 H2 Q2]; subst. inversion Q2; subst.
    cbn in N. injection N as ->. split; [exact C|]. exists m, b. auto.
  - inversion Q as [|? i ? l0 H0 Q0]; subst.
    inversion Q0 as [|? a ? l1 H1 Q1]; subst. inversion Q1 as [|? b ? l2 H2 Q2]; subst. inversion Q2; subst.
    cbn in N. injection N as ->. split; [exact C|]. exists m, b. repeat split; auto. exists i. auto.
Qed.

Lemma kind_marker : forall k m lk, is_list_marker (Some k) m = true -> list_kind_of m = Some lk -> lk = k.
Proof.
  intros k m lk H L. unfold is_list_marker in H. rewrite L in H. destruct lk, k; cbn in H; congruence.
Qed.

Lemma lists_wf : forall n,
  (forall level k ts st mk x rest, In StopTerminator st -> fitem n level k st ts = Some (mk, x, rest) ->
     wf x /\ item_at level mk x /\ (forall lk, k = Some lk -> mk = lk))
  /\ (forall level ts st mk x rest, In StopTerminator st -> flist n level st ts = Some (mk, x, rest) ->
     wf x /\ list_at level x)
  /\ (forall level lk ts st k rest, In StopTerminator st -> flist_items n level lk st ts = (k, rest) ->
     Forall wf k /\ Forall (item_at level lk) k).
Proof.
  induction n; [repeat split; intros; cbn in *; try discriminate|].
  { injection H0 as <- <-. constructor. }
  { injection H0 as <- <-. constructor. }
  destruct IHn as (II & IN & IS). split; [|split].
  - intros level k ts st mk x rest HS H. cbn [fitem] in H.
    destruct (nth_is 0 col0 ts) eqn:C0; [|discriminate]. cbn [negb] in H.
    destruct (nth_error ts (if level =? 0 then 0 else 1)) as [m|] eqn:N; [|discriminate].
    destruct (list_kind_of m) as [mk0|] eqn:L; [|discriminate].
    destruct (fseq (marker_preds level k) ts) as [[o r]|] eqn:Q; [|discriminate].
    pose proof (fitem_marker _ _ _ _ _ _ _ Q C0 N L) as M.
    assert (KK : forall lk, k = Some lk -> mk0 = lk).
    { intros lk ->. apply fseq_app in Q. destruct Q as (-> & _ & Q). unfold marker_preds in Q.
      destruct (level =? 0).
      - inversion Q as [|? a ? l1 H1 Q1]; subst. cbn in N. injection N as ->. eapply kind_marker; eauto.
      - inversion Q as [|? i ? l0 H0 Q0]; subst. inversion Q0 as [|? a ? l1 H1 Q1]; subst. cbn in N. injection N as ->.
        eapply kind_marker; eauto. }
    destruct (fparagraph (StopListBoundary level mk0 :: st) r) as [par r1] eqn:P.
    apply fparagraph_wf in P; [|right; exact HS]. destruct P as [WP RP].
    assert (G1 : wf (Node NListItem o [par] [])).
    { constructor; [auto|]. cbn. split; [reflexivity|]. exists level, mk0, par. auto. }
    assert (G : forall X, X = Some (mk, x, rest) ->
      (X = Some (mk0, Node NListItem o [par] [], r1) \/ exists l r2, wf l /\ list_at (S level) l
        /\ X = Some (mk0, Node NListItem o [par; l] [], r2)) ->
      wf x /\ item_at level mk x /\ (forall lk, k = Some lk -> mk = lk)).
    { intros X -> [E|(l & r2 & Wl & Ll & E)]; injection E as -> -> ->.
      - split; [exact G1|]. split; [exists o, [par]; auto|exact KK].
      - split; [|split; [exists o, [par; l]; auto|exact KK]].
        constructor; [auto|]. cbn. split; [reflexivity|]. exists level, mk0, par. split; [exact M|].
        split; [exact RP|]. right. exists l. auto. }
    destruct (negb (stopped st r1)).
    + destruct (flist n (level + 1) st r1) as [[[mk' y] r2]|] eqn:F.
      * apply (G _ H). right. apply IN in F; [|exact HS]. destruct F as [Wy Ly].
        replace (level + 1) with (S level) in Ly by lia. exists y, r2. auto.
      * apply (G _ H). auto.
    + apply (G _ H). auto.
  - intros level ts st mk x rest HS H. cbn [flist] in H.
    destruct (fitem n level None st ts) as [[[lk y] r]|] eqn:F; [|discriminate].
    destruct (flist_items n level lk st r) as [k r1] eqn:E. injection H as <- <- <-.
    apply II in F; [|exact HS]. destruct F as (Wy & Iy & _). apply IS in E; [|exact HS]. destruct E as [Wk Ik]. split.
    + constructor; [auto|]. destruct lk; cbn; (repeat split; [discriminate|]); exists level; constructor; assumption.
    + exists lk, (y :: k). repeat split; [discriminate|]. constructor; assumption.
  - intros level lk ts st k rest HS H. cbn [flist_items] in H.
    destruct (fitem n level (Some lk) st ts) as [[[lk' y] r]|] eqn:F.
    2:{ injection H as <- <-. auto. }
    destruct (flist_items n level lk st r) as [k0 r1] eqn:E. injection H as <- <-.
    apply II in F; [|exact HS]. destruct F as (Wy & Iy & KK). rewrite (KK lk eq_refl) in Iy.
    apply IS in E; [|exact HS]. destruct E. auto.
Qed.

Lemma flist0_wf : forall st ts t rest, In StopTerminator st -> flist0 st ts = Some (t, rest) -> wf t /\ list_at 0 t.
Proof.
  intros st ts t rest HS H. unfold flist0 in H.
  destruct (flist (2 * length ts + 3) 0 st ts) as [[[mk x] r]|] eqn:F; [|discriminate].
  injection H as <- <-. destruct (lists_wf (2 * length ts + 3)) as (_ & G & _). eapply G; eauto.
Qed.

(** Highlight. *)
Lemma makes_icon : makes NIcon ficon.
Proof.
  intros st ts t rest H. unfold ficon in H.
  destruct (fseq [is_one_bang; is_space_1] ts) as [[o r]|] eqn:Q; [|discriminate].
  destruct (until st is_eol r) as [[[b c] r']|] eqn:U; [|discriminate]. injection H as <- <-.
  apply until_app in U. destruct U as [_ E]. split; [|auto with wf]. constructor; [repeat constructor|].
  apply fseq_app in Q. destruct Q as (_ & _ & Q).
  inversion Q as [|? a ? l1 H1 Q1]; subst. inversion Q1 as [|? d ? l2 H2 Q2]; subst. inversion Q2; subst.
  cbn. split; [exists a, d; auto|]. split; [exists b; auto|exists c; auto].
Qed.

Lemma with_eol_one : forall f t r x rest, f t = true -> with_eol t r = (x, rest) -> one_eol f x.
Proof.
  intros f t r x rest E H. unfold with_eol in H. exists t. split; [exact E|].
  destruct r as [|e r']; [injection H as <- <-; auto|].
  destruct (is_eol e) eqn:Ee; injection H as <- <-; eauto.
Qed.

Lemma fhighlight_loop_wf : forall n st ts k c rest, fhighlight_loop n st ts = Some (k, c, rest) ->
  Forall wf k /\ hl_body k /\ one_eol is_two_bangs c.
Proof.
  induction n; intros st ts k c rest H; cbn [fhighlight_loop] in H; [discriminate|].
  destruct ts as [|t r]; [discriminate|]. destruct (stopped st (t :: r)); [discriminate|].
  destruct (is_two_bangs t) eqn:E2.
  - destruct (with_eol t r) as [x r'] eqn:W. injection H as <- <- <-. split; [constructor|]. split; [constructor|].
    eapply with_eol_one; eauto.
  - destruct (is_terminator t) eqn:T.
    + destruct (fparagraph (StopTerminator :: StopHighlightEnd :: st) r) as [par r2] eqn:P.
      destruct (fhighlight_loop n st r2) as [[[k' c'] r3]|] eqn:F; [|discriminate]. injection H as <- <- <-.
      apply fparagraph_wf in P; [|left; reflexivity]. destruct P as [WP RP]. apply IHn in F. destruct F as (F1 & F2 & F3).
      split; [|split; [|exact F3]].
      * constructor; [constructor|]. constructor; assumption.
      * apply hl_term; assumption.
    + destruct (fparagraph (StopTerminator :: StopHighlightEnd :: st) (t :: r)) as [par r2] eqn:P.
      destruct (fhighlight_loop n st r2) as [[[k' c'] r3]|] eqn:F; [|discriminate]. injection H as <- <- <-.
      apply fparagraph_wf in P; [|left; reflexivity]. destruct P as [WP RP]. apply IHn in F. destruct F as (F1 & F2 & F3).
      split; [|split; [|exact F3]].
      * constructor; assumption.
      * apply hl_par; assumption.
Qed.

Lemma opt_tree_wf : forall m g st ts k r, makes m g -> opt_tree (g st ts) ts = (k, r) -> Forall wf k /\ opt_root m k.
Proof.
  intros m g st ts k r M H. destruct (g st ts) as [[t rest]|] eqn:E; cbn in H; injection H as <- <-.
  - apply M in E. destruct E. split; [auto|]. right. eauto.
  - split; [constructor|]. left. reflexivity.
Qed.

Lemma makes_highlight : makes NHighlight fhighlight.
Proof.
  intros st ts t rest H. unfold fhighlight in H.
  destruct (fseq [is_two_bangs; fun t => is_space_1 t || is_eol t] ts) as [[o r]|] eqn:Q; [|discriminate].
  apply fseq_app in Q. destruct Q as (_ & _ & Q).
  inversion Q as [|? a ? l1 H1 Q1]; subst. inversion Q1 as [|? d ? l2 H2 Q2]; subst. inversion Q2; subst.
  cbn [last] in H. cbv beta in H2.
  destruct (if negb (is_eol d) then opt_tree (fmodifier st r) r else ([], r)) as [k1 r1] eqn:K1.
  destruct (opt_tree (ficon (StopTerminator :: st) r1) r1) as [k2 r2] eqn:K2.
  destruct (nth_is 0 col0 r2); [|discriminate].
  destruct (fhighlight_loop (S (length r2)) st r2) as [[[k3 c] r3]|] eqn:F; [|discriminate]. injection H as <- <-.
  apply opt_tree_wf with (m := NIcon) in K2; [|apply makes_icon]. destruct K2 as [W2 O2].
  apply fhighlight_loop_wf in F. destruct F as (W3 & B3 & C3).
  assert (G1 : Forall wf k1 /\ ((two is_two_bangs is_space_1 [a; d] /\ opt_root NModifier k1)
          \/ (two is_two_bangs is_eol [a; d] /\ k1 = []))).
  { destruct (is_eol d) eqn:Ed; cbn [negb] in K1.
    - injection K1 as <- <-. split; [constructor|]. right. split; [exists a, d; auto|reflexivity].
    - apply opt_tree_wf with (m := NModifier) in K1; [|apply makes_modifier]. destruct K1 as [W1 O1].
      split; [exact W1|]. left. split; [|exact O1]. exists a, d. repeat split; auto.
      rewrite orb_false_r in H2. exact H2. }
  destruct G1 as [W1 G1]. split; [|auto with wf]. constructor.
  - apply Forall_app. split; [exact W1|]. apply Forall_app. split; assumption.
  - cbn. split; [exact C3|]. exists k1, k2, k3. auto.
Qed.

(** Embed, code. *)
Lemma fclose_line_one : forall f st c r x rest, f c = true -> fclose_line st c r = Some (x, rest) -> one_eol f x.
Proof.
  intros f st c r x rest E H. unfold fclose_line in H. exists c. split; [exact E|].
  destruct r as [|e r']; [injection H as <- <-; auto|].
  destruct (is_eol e) eqn:Ee; [injection H as <- <-; eauto|].
  destruct (stopped st (e :: r') || is_terminator e); [injection H as <- <-; auto|discriminate].
Qed.

Lemma makes_embed : makes NEmbed fembed.
Proof.
  intros st ts t rest H. unfold fembed in H. destruct ts as [|a r]; [discriminate|].
  destruct (is_left_curly2 a) eqn:Ea; [|discriminate].
  destruct (until st is_pipe r) as [[[b1 s] r1]|] eqn:U1; [|discriminate].
  destruct (until st is_right_curly2 r1) as [[[b2 c] r2]|] eqn:U2; [|discriminate].
  destruct (fclose_line st c r2) as [[x r3]|] eqn:CL; [|discriminate]. injection H as <- <-.
  apply until_app in U1. destruct U1 as [_ E1]. apply until_app in U2. destruct U2 as [_ E2].
  split; [|auto with wf]. constructor; [repeat constructor|]. cbn. split; [exists a; auto|].
  split; [eapply fclose_line_one; eauto|]. exists b1, s, b2. auto.
Qed.

Lemma makes_code : makes NCode fcode.
Proof.
  intros st ts t rest H. unfold fcode in H.
  destruct (ffence ts) as [[o r]|] eqn:Q; [|discriminate].
  set (wm := negb (is_eol (last o (mk_token Literal 0 0 (mk_pos 0 0 0) false)))) in *.
  destruct (if wm then opt_tree (fmodifier [] r) r else ([], r)) as [k1 r1] eqn:K1.
  destruct (until [] is_backtick3 r1) as [[[b c] r2]|] eqn:U; [|discriminate].
  destruct (fclose_line st c r2) as [[x r3]|] eqn:CL; [|discriminate]. injection H as <- <-.
  apply until_app in U. destruct U as [_ Ec].
  assert (G1 : Forall wf k1 /\ ((one is_backtick3 o /\ opt_root NModifier k1) \/ (two is_backtick3 is_eol o /\ k1 = []))).
  { unfold ffence in Q. destruct (fseq [is_backtick3; is_eol] ts) as [[o' r']|] eqn:Q0.
    - injection Q as -> ->. apply fseq_app in Q0. destruct Q0 as (_ & _ & Q).
      inversion Q as [|? a ? l1 H1 Q1]; subst. inversion Q1 as [|? d ? l2 H2 Q2]; subst. inversion Q2; subst.
      cbn [last] in wm. unfold wm in K1. rewrite H2 in K1. cbn in K1. injection K1 as <- <-.
      split; [constructor|]. right. split; [exists a, d; auto|reflexivity].
    - apply fseq_app in Q. destruct Q as (_ & _ & Q).
      inversion Q as [|? a ? l1 H1 Q1]; subst. inversion Q1; subst. cbn [last] in wm.
      assert (Ew : wm = true).
      { unfold wm. unfold is_backtick3 in H1. apply andb_true_iff in H1. destruct H1 as [H1 _].
        apply andb_true_iff in H1. destruct H1 as [H1 _]. apply kind_eqb_eq in H1.
        unfold is_eol. rewrite H1. reflexivity. }
      rewrite Ew in K1. apply opt_tree_wf with (m := NModifier) in K1; [|apply makes_modifier].
      destruct K1 as [W1 O1]. split; [exact W1|]. left. split; [exists a; auto|exact O1]. }
  destruct G1 as [W1 G1]. split; [|auto with wf]. constructor.
  - apply Forall_app. split; [exact W1|repeat constructor].
  - cbn. split; [eapply fclose_line_one; eauto|]. exists k1, b. auto.
Qed.

(** Document and collapsible. *)
Lemma fsimple_wf : forall st ts t rest, fsimple st ts = (t, rest) -> wf t /\ block t.
Proof.
  intros st ts t rest H. unfold fsimple in H.
  assert (HS : In StopTerminator (StopTerminator :: st)) by (left; reflexivity).
  assert (B : forall n, root n t -> simple_block_node n = true -> block t).
  { intros n (o & k & c & ->) E. left. exact E. }
  destruct (forelse flist0 (forelse fimages (forelse fbreak fheading)) (StopTerminator :: st) ts) as [[y r]|] eqn:E.
  - injection H as -> ->. orelse_cases E.
    + apply flist0_wf in E; [|exact HS]. destruct E as [W L]. split; [exact W|].
      destruct L as (lk & k & -> & L). right. exists lk, k. auto.
    + apply fimages_wf in E; [|exact HS]. destruct E as [W [R|R]]; (split; [exact W|]); eapply B; eauto.
    + apply makes_break in E. destruct E as [W R]. split; [exact W|]. eapply B; eauto.
    + apply fheading_wf in E; [|exact HS]. destruct E as [W R]. split; [exact W|]. eapply B; eauto.
  - apply fparagraph_wf in H; [|exact HS]. destruct H as [W R]. split; [exact W|]. eapply B; eauto.
Qed.

Lemma docs_wf : forall n,
  (forall st ts k rest, fdoc n st ts = (k, rest) -> Forall wf k /\ Forall block k)
  /\ (forall st ts t rest, fcollapsible n st ts = CMatch t rest -> wf t /\ root NCollapsible t).
Proof.
  induction n as [n IHn] using lt_wf_ind. destruct n.
  { split; intros; cbn in *; [injection H as <- <-; auto|discriminate]. }
  destruct (IHn n (Nat.lt_succ_diag_r n)) as [ID IC]. split.
  - intros st ts k rest H. cbn [fdoc] in H. destruct ts as [|t r]; [injection H as <- <-; auto|].
    destruct (stopped st (t :: r)); [injection H as <- <-; auto|].
    assert (B : forall m x, root m x -> simple_block_node m = true -> block x).
    { intros m x (o & kk & c & ->) E. left. exact E. }
    assert (G : forall X, (let '(x, r1) := X in wf x /\ block x) ->
              (let '(x, r1) := X in let (k, r2) := fdoc n st r1 in (x :: k, r2)) = (k, rest) ->
              Forall wf k /\ Forall block k).
    { intros [x r1] [Wx Bx] E. destruct (fdoc n st r1) as [k' r2] eqn:F. injection E as <- <-.
      apply ID in F. destruct F. auto. }
    refine (G _ _ H).
    destruct (is_terminator t) eqn:T.
    { split; [constructor|]. exists t. auto. }
    destruct (fcode st (t :: r)) as [[y r1]|] eqn:E1.
    { apply makes_code in E1. destruct E1. split; [assumption|]. eapply B; eauto. }
    destruct (fcollapsible n st (t :: r)) as [y r1|ts'] eqn:E2.
    { apply IC in E2. destruct E2. split; [assumption|]. eapply B; eauto. }
    destruct (forelse fembed fhighlight st ts') as [[y r1]|] eqn:E3.
    { orelse_cases E3; [apply makes_embed in E3|apply makes_highlight in E3]; destruct E3; (split; [assumption|]); eapply B; eauto. }
    destruct (fsimple st ts') as [y r1] eqn:E4. apply fsimple_wf in E4. exact E4.
  - intros st ts t rest H. cbn [fcollapsible] in H.
    destruct (fseq [is_collapsible_start; is_space_or_eol] ts) as [[o r]|] eqn:Q; [|discriminate].
    destruct (opt_tree (fmodifier st r) r) as [k1 r1] eqn:K1.
    destruct (nth_is 0 col0 r1); [|discriminate].
    destruct (fdoc n (StopCollapsibleEnd :: st) r1) as [k2 r2] eqn:D.
    destruct (match r2 with
              | e :: r3 => if is_eol e then ([Skip [e]], r3) else ([], r2)
              | [] => ([], r2) end) as [k3 r3] eqn:K3.
    destruct (fcollapsible_end r3) as [[c rest']|] eqn:CE; [|discriminate]. injection H as <- <-.
    apply opt_tree_wf with (m := NModifier) in K1; [|apply makes_modifier]. destruct K1 as [W1 O1].
    apply ID in D. destruct D as [W2 B2].
    assert (G3 : Forall wf k3 /\ (k3 = [] \/ exists e, k3 = [Skip [e]] /\ is_eol e = true)).
    { destruct r2 as [|e r2']; [injection K3 as <- <-; auto|].
      destruct (is_eol e) eqn:Ee; injection K3 as <- <-; [|auto]. split; [repeat constructor|eauto]. }
    destruct G3 as [W3 G3].
    split; [|auto with wf]. constructor.
    + apply Forall_app. split; [exact W1|]. constructor; [|exact W3].
      constructor; [exact W2|]. cbn. auto.
    + apply fseq_app in Q. destruct Q as (_ & _ & Q).
      inversion Q as [|? a ? l1 H1 Q1]; subst. inversion Q1 as [|? d ? l2 H2 Q2]; subst. inversion Q2; subst.
      cbn. split; [exists a, d; auto|]. split.
      * unfold fcollapsible_end in CE. destruct (fseq [is_collapsible_end; is_eol] r3) as [[c' r']|] eqn:Q0.
        -- injection CE as -> ->. apply fseq_app in Q0. destruct Q0 as (_ & _ & Q0).
           inversion Q0 as [|? a' ? l1' H1' Q1']; subst. inversion Q1' as [|? d' ? l2' H2' Q2']; subst. inversion Q2'; subst.
           exists a'. eauto.
        -- apply fseq_app in CE. destruct CE as (_ & _ & CE).
           inversion CE as [|? a' ? l1' H1' Q1']; subst. inversion Q1'; subst. exists a'. eauto.
      * exists k1, k2, k3. auto.
Qed.

(** The trees of a whole input: optional metadata, then one document. *)
Definition top (k : list tree) : Prop :=
  exists k1 d, k = k1 ++ [d] /\ root NDocument d /\ opt_root NMetadata k1.

Lemma fparse_wf : forall ts, Forall wf (fparse ts) /\ top (fparse ts).
Proof.
  intros ts. unfold fparse. destruct (opt_tree (fmetadata [] ts) ts) as [k1 r1] eqn:K1.
  destruct (fdoc (3 * length r1 + 5) [] r1) as [k2 r2] eqn:D.
  apply opt_tree_wf with (m := NMetadata) in K1; [|apply makes_metadata]. destruct K1 as [W1 O1].
  apply (proj1 (docs_wf _)) in D. destruct D as [W2 B2]. split.
  - apply Forall_app. split; [exact W1|]. constructor; [|constructor]. constructor; [exact W2|]. cbn. auto.
  - exists k1, (Node NDocument [] k2 []). auto with wf.
Qed.
