(** First closing token, line ends and line starts, for the op streams of [parse] (continues Lines.v). *)
From Coq Require Import String.
From Verif Require Import Base Lexer LexSpec LexProofs LexFacts Ops Parser FParser Refine Refine2 Refine3
  Wf TokFacts StreamSpec StreamProofs StreamProofs2 Lines StreamProofs3.

(** ** Specification *)

(** Nodes whose text ends at the first closing token. *)
Definition ends_first (n : node) : bool :=
  match n with
  | NMetadata | NTitle | NItalic | NStrikethrough | NEmphasis | NCodeSpan | NBold | NCode | NEmbed | NModifier | NIcon => true
  | _ => false
  end.
Definition closing (s : str) (n : node) (t : token) : Prop :=
  match n with
  | NModifier | NIcon => kind t = Eol \/ kind t = Terminator
  | _ => match delims n with Some (_, d) => is_delim s d t | None => False end
  end.

(** The line ends with the tokens [ts1], or directly after them. *)
Definition at_line_end (ts1 ts2 : list token) : Prop :=
  (exists ts e, ts1 = ts ++ [e] /\ kind e = Eol)
  \/ match ts2 with [] => True | t :: _ => kind t = Terminator \/ kind t = Eol \/ column (t_pos t) = 0 end.

(** Nodes that start at the start of a line. *)
Definition starts_line (n : node) : bool :=
  match n with NHeading | NThematicBreak | NUnorderedList | NOrderedList | NListItem => true | _ => false end.

(** ** Proofs *)

Lemma node_tight : forall s ops es a n x mid y b, parse s = Ok ops -> reads s ops es ->
  es = a ++ (Start n, x) :: mid ++ (End n, y) :: b -> balanced (map fst mid) ->
  exists o k c ta tb, wf (Node n o k c) /\ flips (spec_tokens s) (ta ++ (o ++ yields k ++ c) ++ tb)
    /\ x = ttexts s o /\ mid = tevents_all s k /\ y = ttexts s c /\ covered a (ttexts s ta) /\ tight n o k c tb /\ everys tight k (c ++ tb).
Proof.
  intros s ops es a n x mid y b H R E B.
  rewrite (reads_fun s ops es (stream s) R (parse_reads s ops H)) in E.
  destruct (fparse_wf (spec_tokens s)) as [W T].
  destruct (trees_located _ s [] _ W (fparse_linked s) (top_not_skip _ T) (fparse_tight s) _ _ _ _ E) as (ta & o & k & c & tb & r' & H1 & H2 & H3 & H4 & H5 & _ & H6).
  rewrite app_nil_r in H6. apply every_node in H6.
  exists o, k, c, ta, tb. split; [exact H1|]. split; [rewrite <- H2; apply parse_refines|]. split; [exact H3|].
  assert (X : mid = tevents_all s k).
  { pose proof (f_equal (map fst) H4) as M. rewrite !map_app in M. cbn in M.
    apply balanced_unique in M; [|exact B|apply tevents_balanced].
    apply (f_equal (@List.length _)) in M. rewrite !map_length in M.
    eapply app_same_length; eauto. }
  split; [exact X|]. split; [|split; [exact H5|exact H6]]. subst mid. apply app_inv_head in H4. congruence.
Qed.

Lemma start_tight : forall s ops es a n x r, parse s = Ok ops -> reads s ops es -> es = a ++ (Start n, x) :: r ->
  exists o k c ta tb, wf (Node n o k c) /\ flips (spec_tokens s) (ta ++ (o ++ yields k ++ c) ++ tb)
    /\ covered a (ttexts s ta) /\ tight n o k c tb /\ everys tight k (c ++ tb).
Proof.
  intros s ops es a n x r H R E.
  rewrite (reads_fun s ops es (stream s) R (parse_reads s ops H)) in E.
  destruct (fparse_wf (spec_tokens s)) as [W T].
  destruct (trees_located _ s [] _ W (fparse_linked s) (top_not_skip _ T) (fparse_tight s) _ _ _ _ E) as (ta & o & k & c & tb & r' & H1 & H2 & H3 & H4 & H5 & _ & H6).
  rewrite app_nil_r in H6. apply every_node in H6.
  exists o, k, c, ta, tb. split; [exact H1|]. split; [rewrite <- H2; apply parse_refines|]. auto.
Qed.

(** The same split in the tokens of the source. *)
Lemma source_split : forall s a b, flips (spec_tokens s) (a ++ b) -> exists ts1 ts2,
  lex s = Ok (ts1 ++ ts2) /\ flips ts1 a /\ flips ts2 b /\ concat_texts s ts1 = Ok (ttexts s a) /\ concat_texts s ts2 = Ok (ttexts s b)
  /\ Forall (tok_ok s) (ts1 ++ ts2).
Proof.
  intros s a b F. apply flips_split in F. destruct F as (ts1 & ts2 & E & F1 & F2). exists ts1, ts2.
  pose proof (vtok_lex s) as V. rewrite E in V. apply Forall_app in V. destruct V as [V1 V2].
  split; [rewrite lex_correct, E; reflexivity|]. split; [exact F1|]. split; [exact F2|].
  rewrite (flips_ttexts s _ _ F1), (flips_ttexts s _ _ F2).
  split; [apply concat_of_ttexts; exact V1|]. split; [apply concat_of_ttexts; exact V2|].
  rewrite <- E. apply (spec_linked s).
Qed.

Lemma tlen_of : forall s t x, tok_ok s t -> token_text s t = Ok x -> tlen t = byte_len x.
Proof. intros s t x O E. rewrite <- (tok_len s t O). rewrite (token_text_of s t O) in E. congruence. Qed.

Definition closer (n : node) : token -> bool :=
  match n with
  | NMetadata => is_three_dashes | NTitle => is_right_bracket | NItalic => is_underscore | NStrikethrough => is_tilde
  | NEmphasis => is_star | NCodeSpan => is_backtick | NBold => is_star2 | NCode => is_backtick3 | NEmbed => is_right_curly2
  | _ => is_eol_or_terminator
  end.
Lemma closing_closer : forall s n t, ends_first n = true -> tok_ok s t -> closing s n t -> closer n t = true.
Proof.
  intros s n t E O C. destruct n; try discriminate E; cbn in C;
    try (destruct C as (K & X & Z); pose proof (tlen_of s t _ O X) as L; cbn in L; cbn;
         unfold is_three_dashes, is_right_bracket, is_underscore, is_tilde, is_star, is_backtick, is_star2, is_backtick3, is_right_curly2, col0;
         rewrite K, L; try rewrite (Z eq_refl); reflexivity);
    cbn; unfold is_eol_or_terminator; destruct C as [-> | ->]; reflexivity.
Qed.
Lemma closing_flip : forall s n u t, flip u t -> closing s n u -> t = u.
Proof.
  intros s n u t [->|[C ->]] H; [reflexivity|]. exfalso. unfold is_collapsible_start in C. apply andb_true_iff in C. destruct C as [C _].
  apply kind_eqb_eq in C. unfold closing in H. destruct n; cbn [delims] in H; try contradiction; try (destruct H as (H & _)); try (destruct H as [H|H]); rewrite C in H; discriminate.
Qed.

Lemma tight_closer : forall s n o k c rest mid v, ends_first n = true -> wf (Node n o k c) -> tight n o k c rest ->
  tevents_all s k = mid ++ [(Value, v)] ->
  exists k1 b, k = k1 ++ [Leaf b] /\ free (closer n) b /\ v = ttexts s b /\ mid = tevents_all s k1 /\ Forall not_skip k1.
Proof.
  intros s n o k c rest mid v E W T M.
  assert (NS : Forall not_skip k).
  { inversion W as [| |? ? ? ? _ Sh]; subst. eapply shape_not_skip; [exact Sh|]. intros ->. discriminate. }
  assert (G : forall k1 b, k = k1 ++ [Leaf b] -> free (closer n) b -> exists k1 b, k = k1 ++ [Leaf b] /\ free (closer n) b /\ v = ttexts s b /\ mid = tevents_all s k1 /\ Forall not_skip k1).
  { intros k1 b -> F. exists k1, b. split; [reflexivity|]. split; [exact F|]. apply Forall_app in NS. destruct NS as [NS _].
    unfold tevents_all in M. rewrite flat_map_app in M. cbn in M. apply app_inj_tail in M. destruct M as [M1 M2]. injection M2 as <-. auto. }
  assert (L : forall f, leaf_free f k -> closer n = f -> exists k1 b, k = k1 ++ [Leaf b] /\ free (closer n) b /\ v = ttexts s b /\ mid = tevents_all s k1 /\ Forall not_skip k1).
  { intros f (b & Ek & F) Ef. apply (G [] b Ek). rewrite Ef. exact F. }
  destruct n; try discriminate E; cbn [tight] in T; try (eapply L; [exact T|reflexivity]).
  - (* bold *)
    destruct k as [|t k _] using rev_ind; [destruct mid; discriminate|].
    destruct T as [T _]. apply Forall_app in T. destruct T as [_ T]. inversion T as [|? ? T1 _]; subst. destruct t as [b|b|m o' k' c'].
    + apply (G k b eq_refl T1).
    + apply Forall_app in NS. destruct NS as [_ NS]. inversion NS; contradiction.
    + exfalso. unfold tevents_all in M. rewrite flat_map_app in M. cbn in M. rewrite app_nil_r, app_comm_cons, app_assoc in M.
      apply app_inj_tail in M. destruct M as [_ M]. discriminate.
  - destruct T as (_ & k1 & b & Ek & F). apply (G k1 b Ek F).
  - destruct T as (_ & a & p & b & Ek & F1 & F2). apply (G [Leaf a; Leaf [p]] b Ek F2).
  - destruct T as [T _]. eapply L; [exact T|reflexivity].
Qed.

Lemma first_closer : forall s ops es a n x mid v y b, parse s = Ok ops -> reads s ops es ->
  es = a ++ (Start n, x) :: mid ++ (Value, v) :: (End n, y) :: b -> balanced (map fst mid) -> ends_first n = true ->
  exists ts1 ts2 ts3 x1, lex s = Ok (ts1 ++ ts2 ++ ts3)
    /\ concat_texts s ts1 = Ok x1 /\ covered (a ++ (Start n, x) :: mid) x1
    /\ concat_texts s ts2 = Ok v /\ Forall (fun t => ~ closing s n t) ts2.
Proof.
  intros s ops es a n x mid v y b H R E B F.
  assert (E' : es = a ++ (Start n, x) :: (mid ++ [(Value, v)]) ++ (End n, y) :: b) by (rewrite E, <- app_assoc; reflexivity).
  assert (B' : balanced (map fst (mid ++ [(Value, v)]))).
  { rewrite map_app. cbn. apply balanced_app; [exact B|repeat constructor]. }
  destruct (node_tight _ _ _ _ _ _ _ _ _ H R E' B') as (o & k & c & ta & tb & W & Fl & -> & M & -> & Cv & T & TK).
  symmetry in M. destruct (tight_closer s n o k c tb mid v F W T M) as (k1 & bb & -> & Fr & -> & -> & NS).
  pose proof (flips_linked s _ _ Fl (spec_linked s)) as L.
  rewrite yields_app in Fl, L. cbn [yields flat_map yield] in Fl, L. rewrite app_nil_r in Fl, L.
  replace (ta ++ (o ++ (yields k1 ++ bb) ++ c) ++ tb) with ((ta ++ o ++ yields k1) ++ bb ++ c ++ tb) in Fl, L by (rewrite <- !app_assoc; reflexivity).
  destruct (source_split _ _ _ Fl) as (ts1 & ts' & EL & F1 & F2 & C1 & C2 & TO).
  apply flips_split in F2. destruct F2 as (ts2 & ts3 & -> & F2 & F3).
  exists ts1, ts2, ts3, (ttexts s (ta ++ o ++ yields k1)). split; [exact EL|]. split; [exact C1|]. split; [|split].
  - rewrite !ttexts_app. apply covered_app; [exact Cv|]. constructor. inversion W as [| |? ? ? ? Wk _]; subst. apply Forall_app in Wk. destruct Wk as [Wk _].
    apply linked_app in L. destruct L as [L _]. apply linked_app in L. destruct L as [_ L]. apply linked_app in L. destruct L as [_ L].
    apply trees_covered_of; [exact L| |exact NS]. eapply Forall_impl; [|exact Wk]. intros t Wt. apply tree_covered. exact Wt.
  - apply Forall_app in TO. destruct TO as [_ TO]. apply Forall_app in TO. destruct TO as [TO _].
    rewrite (flips_ttexts s _ _ F2). apply concat_of_ttexts. eapply Forall_impl; [|exact TO]. intros t (z & Hz & _). exists z. exact Hz.
  - apply Forall_app in TO. destruct TO as [_ TO]. apply Forall_app in TO. destruct TO as [TO _].
    clear - F Fr F2 TO. induction F2 as [|u t ts2 bb Fu F2 IH]; [constructor|]. inversion Fr as [|? ? Fr1 Fr2]; subst. inversion TO as [|? ? TO1 TO2]; subst.
    constructor; [|apply IH; assumption]. intros C. pose proof (closing_flip _ _ _ _ Fu C) as ->.
    rewrite (closing_closer s n u F TO1 C) in Fr1. discriminate.
Qed.

Lemma line_end : forall s ops es a n x mid y b, parse s = Ok ops -> reads s ops es ->
  es = a ++ (Start n, x) :: mid ++ (End n, y) :: b -> balanced (map fst mid) -> n = NImage \/ n = NCode \/ n = NEmbed ->
  exists ts1 ts2 x1, lex s = Ok (ts1 ++ ts2)
    /\ concat_texts s ts1 = Ok x1 /\ covered (a ++ (Start n, x) :: mid ++ [(End n, y)]) x1 /\ at_line_end ts1 ts2.
Proof.
  intros s ops es a n x mid y b H R E B N.
  destruct (node_tight _ _ _ _ _ _ _ _ _ H R E B) as (o & k & c & ta & tb & W & Fl & -> & -> & -> & Cv & T & TK).
  pose proof (flips_linked s _ _ Fl (spec_linked s)) as L. rewrite app_assoc in Fl.
  destruct (source_split _ _ _ Fl) as (ts1 & ts2 & EL & F1 & F2 & C1 & _ & _). exists ts1, ts2, (ttexts s (ta ++ o ++ yields k ++ c)).
  split; [exact EL|]. split; [exact C1|].
  assert (NS : not_skip (Node n o k c)) by exact I.
  apply linked_app in L. destruct L as [_ L]. apply linked_app in L. destruct L as [L _]. split.
  - rewrite ttexts_app. apply covered_app; [exact Cv|]. apply (tree_covered s (Node n o k c) W L NS).
  - assert (LO : line_over c tb) by (destruct N as [-> |[-> | ->]]; apply T). destruct LO as [(c' & e & -> & Ee)|LO].
    + left. rewrite !app_assoc in F1. apply flips_split in F1. destruct F1 as (ts & ts' & -> & _ & F1). apply flips_cons in F1.
      destruct F1 as (u & z & -> & Fu & Fz). inversion Fz; subst. exists ts, u. split; [reflexivity|]. rewrite (flip_eol _ _ Fu) in Ee. apply kind_eqb_eq. exact Ee.
    + right. inversion F2 as [|u t ts bb Fu F2']; subst; [exact I|]. rewrite (flip_terminator _ _ Fu), (flip_eol _ _ Fu), (flip_col0 _ _ Fu) in LO.
      destruct LO as [LO|[LO|LO]]; [left; apply kind_eqb_eq; exact LO|right; left; apply kind_eqb_eq; exact LO|right; right; apply Nat.eqb_eq; exact LO].
Qed.

Lemma starts_col0 : forall n o k c, wf (Node n o k c) -> starts_line n = true -> nth_is 0 col0 (o ++ yields k ++ c) = true.
Proof.
  intros n o k c W E. inversion W as [| |? ? ? ? Wk Sh]; subst.
  assert (LI : forall lvl lk, Forall (item_at lvl lk) k -> k <> [] -> o = [] -> nth_is 0 col0 (o ++ yields k ++ c) = true).
  { intros lvl lk F NE ->. destruct k as [|t k]; [congruence|]. inversion F as [|? ? (o' & k' & -> & M & _) _]; subst.
    destruct o' as [|u o']; [discriminate|]. exact M. }
  destruct n; try discriminate E; cbn [shape] in Sh.
  - destruct Sh as ((t & u & -> & Ht & _) & _). unfold is_hash in Ht. apply andb_true_iff in Ht. destruct Ht as [Ht _]. apply andb_true_iff in Ht. apply Ht.
  - destruct Sh as (_ & lvl & lk & p & (M & _) & _). destruct o as [|u o]; [discriminate|]. exact M.
  - destruct Sh as (-> & _ & NE & lvl & F). eapply LI; eauto.
  - destruct Sh as (-> & _ & t & -> & Ht). unfold is_dash5 in Ht. apply andb_true_iff in Ht. destruct Ht as [Ht _]. apply andb_true_iff in Ht. apply Ht.
  - destruct Sh as (-> & _ & NE & lvl & F). eapply LI; eauto.
Qed.

Lemma line_start : forall s ops es a n x r, parse s = Ok ops -> reads s ops es -> es = a ++ (Start n, x) :: r ->
  starts_line n = true \/ n = NModifier ->
  exists ts1 t ts2 x1, lex s = Ok (ts1 ++ t :: ts2) /\ concat_texts s ts1 = Ok x1 /\ covered a x1
    /\ (column (t_pos t) = 0 <-> n <> NModifier).
Proof.
  intros s ops es a n x r H R E N.
  destruct (start_tight _ _ _ _ _ _ _ H R E) as (o & k & c & ta & tb & W & Fl & Cv & T & TK).
  destruct (source_split _ _ _ Fl) as (ts1 & ts2 & EL & F1 & F2 & C1 & _ & _).
  assert (X : exists t z, o ++ yields k ++ c = t :: z /\ (col0 t = true <-> n <> NModifier)).
  { destruct N as [N| ->].
    - pose proof (starts_col0 _ _ _ _ W N) as Z. destruct (o ++ yields k ++ c) as [|t z]; [discriminate|]. exists t, z. split; [reflexivity|].
      split; [intros _ ->; discriminate|intros _; exact Z].
    - destruct T as [_ T]. inversion W as [| |? ? ? ? _ Sh]; subst. destruct Sh as (-> & _ & u & -> & _). cbn [app].
      destruct (yields k ++ [u]) as [|t z] eqn:Z; [destruct (yields k); discriminate|]. exists t, z. split; [reflexivity|].
      cbn in T. split; [congruence|intros X; congruence]. }
  destruct X as (t & z & Ez & Cz). rewrite Ez in F2. cbn [app] in F2. apply flips_cons in F2. destruct F2 as (u & z' & -> & Fu & _).
  exists ts1, u, z', (ttexts s ta). split; [exact EL|]. split; [exact C1|]. split; [exact Cv|]. rewrite (flip_col0 _ _ Fu) in Cz.
  rewrite <- Cz. unfold col0. rewrite Nat.eqb_eq. reflexivity.
Qed.

(** ** Destinations *)

Lemma app_split_lt : forall (A : Type) (l1 l2 m1 m2 : list A) e, l1 ++ l2 = m1 ++ e :: m2 -> List.length m1 < List.length l1 ->
  exists r, l1 = m1 ++ e :: r /\ m2 = r ++ l2.
Proof.
  intros A l1. induction l1 as [|x l1 IH]; intros l2 m1 m2 e E L; cbn in L; [lia|]. destruct m1 as [|y m1]; cbn in E; injection E as -> E.
  - exists l1. auto.
  - cbn in L. destruct (IH _ _ _ _ E) as (r & -> & ->); [lia|]. exists r. auto.
Qed.
Lemma app_split_ge : forall (A : Type) (l1 l2 m1 m2 : list A), l1 ++ l2 = m1 ++ m2 -> List.length l1 <= List.length m1 ->
  exists m, m1 = l1 ++ m /\ l2 = m ++ m2.
Proof.
  intros A l1. induction l1 as [|x l1 IH]; intros l2 m1 m2 E L; [exists m1; auto|]. destruct m1 as [|y m1]; [cbn in L; lia|].
  cbn in E. injection E as -> E. cbn in L. destruct (IH _ _ _ E) as (m & -> & ->); [lia|]. exists m. auto.
Qed.

(** A node whose inner nodes have no destination. *)
Lemma no_destination : forall s n o k c z, wf (Node n o k c) -> inline n = true -> n <> NAnchor ->
  ~ In (End NDestination, z) (tevents s (Node n o k c)).
Proof.
  intros s n o k c z W N NA Hi. inversion W as [| |? ? ? ? Wk Sh]; subst. cbn [tevents] in Hi. fold (tevents_all s k) in Hi.
  destruct Hi as [Hi|Hi]; [discriminate|]. apply in_app_or in Hi. destruct Hi as [Hi|[Hi|[]]].
  - assert (L : one_leaf k -> False).
    { intros (b & ->). destruct Hi as [Hi|[]]. discriminate. }
    destruct n; try discriminate N; try congruence; cbn [shape] in Sh; try (apply L; apply Sh).
    destruct Sh as (_ & I0 & _). clear L. unfold tevents_all in Hi. apply in_flat_map in Hi. destruct Hi as (t & Ht & Hi).
    rewrite Forall_forall in Wk. specialize (Wk t Ht).
    assert (G : match t with Leaf _ => True | Skip _ => False | Node m _ _ _ => in_bold m = true end).
    { clear - I0 Ht. induction k as [|u k IH]; [contradiction|]. destruct u as [b|b|m o' k' c']; cbn in I0.
      - destruct Ht as [<-|Ht]; [exact I|apply IH; [exact Ht|apply I0]].
      - contradiction.
      - destruct Ht as [<-|Ht]; [apply I0|apply IH; [exact Ht|apply I0]]. }
    destruct t as [b|b|m o' k' c']; [destruct Hi as [Hi|[]]; discriminate|contradiction|].
    inversion Wk as [| |? ? ? ? _ Sh']; subst. destruct m; try discriminate G; cbn [shape] in Sh'; destruct Sh' as (_ & (b & ->) & _);
      cbn in Hi; destruct Hi as [Hi|[Hi|[Hi|[]]]]; discriminate.
  - injection Hi as -> _. discriminate.
Qed.

Lemma link_in : forall s P k m1 v y1 y2 m2, items P k -> (forall n, P n = true -> inline n = true) -> Forall wf k ->
  tevents_all s k = m1 ++ (Value, v) :: (End NDestination, y1) :: (End NAnchor, y2) :: m2 ->
  exists k1 k2 a o b c, k = k1 ++ Node NAnchor [] [a; Node NDestination o [Leaf b] c] [] :: k2
    /\ m1 = tevents_all s k1 ++ (Start NAnchor, []) :: tevents s a ++ [(Start NDestination, ttexts s o)]
    /\ v = ttexts s b /\ m2 = tevents_all s k2.
Proof.
  intros s P k. induction k as [|t k IH]; intros m1 v y1 y2 m2 I0 HP W E; [destruct m1; discriminate|].
  inversion W as [|? ? W1 W2]; subst.
  change (tevents_all s (t :: k)) with (tevents s t ++ tevents_all s k) in E.
  assert (I1 : items P k) by (destruct t; cbn in I0; try contradiction; apply I0).
  destruct (Nat.le_gt_cases (List.length (tevents s t)) (List.length m1)) as [Le|Lt].
  - apply app_split_ge in E; [|exact Le]. destruct E as (m & -> & E).
    destruct (IH _ _ _ _ _ I1 HP W2 E) as (k1 & k2 & a & o & b & c & -> & -> & -> & ->). exists (t :: k1), k2, a, o, b, c. split; [reflexivity|].
    split; [|auto]. cbn. rewrite <- app_assoc. reflexivity.
  - apply app_split_lt in E; [|exact Lt]. destruct E as (r & E1 & E2). destruct t as [bb|bb|n o k' c].
    + exfalso. destruct m1 as [|? [|? m1]]; [|discriminate|discriminate]. cbn in E1. injection E1 as _ <-. cbn in E2.
      destruct k as [|[?|?|? ? ? ?] k]; try discriminate. cbn in I0. destruct I0 as (_ & _ & I0). contradiction.
    + cbn in I0. contradiction.
    + cbn in I0. destruct I0 as [I0 _]. apply HP in I0. destruct (node_eq_dec n NAnchor) as [->|NA].
      * inversion W1 as [| |? ? ? ? Wk Sh]; subst. destruct Sh as (-> & -> & t1 & d1 & -> & (o1 & k1 & c1 & ->) & (o2 & k2 & c2 & ->)).
        inversion Wk as [|? ? Wt Wd]; subst. inversion Wd as [|? ? Wd' _]; subst.
        inversion Wt as [| |? ? ? ? _ St]; subst. destruct St as (_ & (b1 & ->) & _). inversion Wd' as [| |? ? ? ? _ Sd]; subst. destruct Sd as (_ & (b2 & ->) & _).
        cbn in E1.
        do 8 (try (destruct m1 as [|? m1]; [try discriminate E1|])); try (destruct m1; discriminate E1); injection E1; intros; subst; cbn in E2; try discriminate E2.
        exists [], k, (Node NTitle o1 [Leaf b1] c1), o2, b2, c2. split; [reflexivity|]. split; [reflexivity|]. split; [reflexivity|]. injection E2 as _ _ E2. exact E2.
      * exfalso. destruct r as [|e r].
        -- cbn [tevents] in E1. fold (tevents_all s k') in E1. rewrite app_comm_cons in E1. apply app_inj_tail in E1. destruct E1 as [_ E1]. discriminate.
        -- cbn [app] in E2. injection E2 as <- E2. apply (no_destination s n o k' c y1 W1 I0 NA). rewrite E1. apply in_or_app. right. right. left. reflexivity.
Qed.

Lemma nesting_flips : forall a b d, flips a b -> nesting d a = nesting d b.
Proof.
  intros a b d F. revert d. induction F as [|u t a b Fu F IH]; intros d; [reflexivity|]. cbn [nesting].
  destruct Fu as [->|[C ->]].
  - destruct (kind u); try apply IH. destruct d; [reflexivity|apply IH].
  - unfold is_collapsible_start in C. apply andb_true_iff in C. destruct C as [C _]. apply kind_eqb_eq in C. rewrite C. cbn. apply IH.
Qed.

Lemma closed_late_at : forall k1 t k2, closed_late (k1 ++ t :: k2) -> unbalanced t -> free is_right_paren (yields k2).
Proof. induction k1 as [|u k1 IH]; intros t k2 H U; [apply H; exact U|]. destruct H as [_ H]. eapply IH; eauto. Qed.

Lemma destination : forall s ops es a p x m1 v y1 y2 m2 y b, parse s = Ok ops -> reads s ops es ->
  es = a ++ (Start p, x) :: (m1 ++ (Value, v) :: (End NDestination, y1) :: (End NAnchor, y2) :: m2) ++ (End p, y) :: b ->
  balanced (map fst (m1 ++ (Value, v) :: (End NDestination, y1) :: (End NAnchor, y2) :: m2)) -> p = NParagraph \/ p = NHeading ->
  exists ts1 ts2 u ts3 ts4 x1 x3 d, lex s = Ok (ts1 ++ ts2 ++ u :: ts3 ++ ts4)
    /\ concat_texts s ts1 = Ok x1 /\ covered (a ++ (Start p, x) :: m1) x1
    /\ concat_texts s ts2 = Ok v /\ nesting 0 ts2 = Some d /\ kind u = RightParenthesis
    /\ concat_texts s ts3 = Ok x3 /\ covered m2 x3
    /\ (d = 0 \/ Forall (fun t => kind t <> RightParenthesis) ts3).
Proof.
  intros s ops es a p x m1 v y1 y2 m2 y b H R E B N.
  destruct (node_tight _ _ _ _ _ _ _ _ _ H R E B) as (o & k & c & ta & tb & W & Fl & -> & M & -> & Cv & T & TK).
  inversion W as [| |? ? ? ? Wk Sh]; subst.
  assert (IP : exists P, items P k /\ (forall n, P n = true -> inline n = true)).
  { destruct N as [-> | ->]; cbn [shape] in Sh.
    - exists inline. split; [apply Sh|auto].
    - exists in_heading. split; [apply Sh|]. intros [] X; try discriminate; reflexivity. }
  destruct IP as (P & I0 & HP). symmetry in M.
  destruct (link_in s P k m1 v y1 y2 m2 I0 HP Wk M) as (k1 & k2 & t & od & bd & cd & -> & -> & -> & ->).
  assert (CL : closed_late (k1 ++ Node NAnchor [] [t; Node NDestination od [Leaf bd] cd] [] :: k2)) by (destruct N as [-> | ->]; exact (proj1 T)).
  assert (NS : Forall not_skip (k1 ++ Node NAnchor [] [t; Node NDestination od [Leaf bd] cd] [] :: k2)).
  { eapply shape_not_skip; [exact Sh|]. intros ->. destruct N; discriminate. }
  apply Forall_app in NS. destruct NS as [NS1 NS2]. inversion NS2 as [|? ? _ NS3]; subst.
  apply Forall_app in Wk. destruct Wk as [Wk1 Wk2]. inversion Wk2 as [|? ? Wa Wk3]; subst.
  inversion Wa as [| |? ? ? ? Wd Sa]; subst. destruct Sa as (_ & _ & t' & d' & Et & (ot & kt & ct & Et') & _). injection Et as <- <-. subst t.
  inversion Wd as [|? ? Wt Wd']; subst. inversion Wd' as [|? ? Wd1 _]; subst. inversion Wd1 as [| |? ? ? ? _ Sd]; subst.
  destruct Sd as ((lp & -> & _) & _ & (rp & -> & Hrp)).
  set (t := Node NTitle ot kt ct) in *.
  assert (Tc : c = []) by (destruct N as [-> | ->]; apply Sh). subst c.
  pose proof (flips_linked s _ _ Fl (spec_linked s)) as L.
  rewrite yields_app in Fl, L. cbn [yields flat_map yield] in Fl, L. fold (yields k2) in Fl, L.
  match type of Fl with flips _ ?X =>
    replace X with ((ta ++ o ++ yields k1 ++ yield t ++ [lp]) ++ bd ++ rp :: yields k2 ++ tb) in Fl, L
      by (repeat (rewrite ?app_nil_r, <- ?app_assoc; cbn [app]); reflexivity) end.
  destruct (source_split _ _ _ Fl) as (ts1 & ts' & EL & F1 & F2 & C1 & _ & TO).
  apply flips_split in F2. destruct F2 as (ts2 & ts'' & -> & F2 & F3). apply flips_cons in F3. destruct F3 as (u & ts5 & -> & Fu & F3).
  apply flips_split in F3. destruct F3 as (ts3 & ts4 & -> & F3 & F4).
  apply Forall_app in TO. destruct TO as [_ TO]. apply Forall_app in TO. destruct TO as [TO2 TO]. inversion TO as [|? ? _ TO']; subst.
  apply Forall_app in TO'. destruct TO' as [TO3 _].
  assert (V : forall ts, Forall (tok_ok s) ts -> vtok s ts).
  { intros ts Ft. eapply Forall_impl; [|exact Ft]. intros z (w & Hw & _). exists w. exact Hw. }
  apply everys_app in TK. destruct TK as [_ TK]. destruct TK as [TA _]. apply every_node in TA. destruct TA as [_ TA].
  destruct TA as (_ & TD & _). apply every_node in TD. destruct TD as [(b' & d & Eb & Nb) _]. injection Eb as <-.
  exists ts1, ts2, u, ts3, ts4, (ttexts s (ta ++ o ++ yields k1 ++ yield t ++ [lp])), (ttexts s ts3), d.
  split; [exact EL|]. split; [exact C1|]. split.
  { rewrite !ttexts_app. apply covered_app; [exact Cv|]. constructor.
    apply linked_app in L. destruct L as [L _]. apply linked_app in L. destruct L as [_ L]. apply linked_app in L. destruct L as [_ L].
    apply linked_app in L. destruct L as [L1 L]. apply linked_app in L. destruct L as [L2 _]. apply covered_app.
    - apply trees_covered_of; [exact L1| |exact NS1]. eapply Forall_impl; [|exact Wk1]. intros w Ww. apply tree_covered. exact Ww.
    - apply (cov_event (Start NAnchor) [] _ _). apply covered_app; [apply tree_covered; [exact Wt|exact L2|exact I]|]. apply covered_one. }
  split; [rewrite (flips_ttexts s _ _ F2); apply concat_of_ttexts; apply V; exact TO2|].
  split; [rewrite (nesting_flips _ _ _ F2); exact Nb|].
  assert (Ku : kind rp = RightParenthesis) by (apply kind_eqb_eq; exact Hrp).
  split; [pose proof (flip_same _ _ Fu) as X; rewrite X by congruence; exact Ku|].
  split; [apply concat_of_ttexts; apply V; exact TO3|]. split.
  { rewrite <- (flips_ttexts s _ _ F3). apply linked_app in L. destruct L as [_ L]. apply linked_app in L. destruct L as [_ L].
    change (rp :: yields k2 ++ tb) with ([rp] ++ yields k2 ++ tb) in L. apply linked_app in L. destruct L as [_ L]. apply linked_app in L. destruct L as [L _].
    apply trees_covered_of; [exact L| |exact NS3]. eapply Forall_impl; [|exact Wk3]. intros w Ww. apply tree_covered. exact Ww. }
  destruct d as [|d]; [left; reflexivity|right].
  assert (U : free is_right_paren (yields k2)) by (eapply closed_late_at; [exact CL|]; exists t, [lp], bd, [rp], d; auto).
  clear - F3 U. remember (yields k2) as ys eqn:Ey. clear Ey. induction F3 as [|w z ts3 ys Fw F3 IH]; [constructor|]. inversion U as [|? ? U1 U2]; subst. constructor; [|apply IH; assumption].
  intros K. unfold is_right_paren in U1. destruct Fw as [-> |[C ->]]; [rewrite K in U1; discriminate|].
  unfold is_collapsible_start in C. apply andb_true_iff in C. destruct C as [C _]. apply kind_eqb_eq in C. congruence.
Qed.
