(** Coverage, spans, copies and closing delimiters of the op stream of [parse]. *)
From Verif Require Import Base Lexer LexSpec LexProofs LexFacts Ops Parser FParser Refine Refine2 Refine3
  Wf TokFacts StreamSpec StreamProofs.

(** ** Coverage *)

(** The texts of the events make up [x], except that one line ending may be missing in front of
    the closing delimiter of a collapsible. *)
Inductive covered : list event -> str -> Prop :=
| cov_nil : covered [] []
| cov_event : forall k t es x, covered es x -> covered ((k, t) :: es) (t ++ x)
| cov_collapsible : forall t es e x, newline e -> covered es x ->
    covered ((End NCollapsible, t) :: es) (e ++ t ++ x).

Lemma covered_app : forall a x b y, covered a x -> covered b y -> covered (a ++ b) (x ++ y).
Proof.
  intros a x b y H Hb. induction H; [exact Hb| |]; cbn; rewrite <- !app_assoc.
  - constructor; assumption.
  - constructor; assumption.
Qed.

Lemma covered_one : forall k t, covered [(k, t)] t.
Proof. intros k t. rewrite <- (app_nil_r t) at 2. apply cov_event, cov_nil. Qed.

Lemma ttexts_app : forall s a b, ttexts s (a ++ b) = ttexts s a ++ ttexts s b.
Proof. intros. apply flat_map_app. Qed.

Definition not_skip (t : tree) : Prop := match t with Skip _ => False | _ => True end.

Lemma root_not_skip : forall n t, root n t -> not_skip t.
Proof. intros n t (o & k & c & ->). exact I. Qed.

Lemma items_not_skip : forall P k, items P k -> Forall not_skip k.
Proof.
  intros P k. induction k as [|[ts|ts|n o kk c] k IH]; intros H; cbn in H; [constructor| | |].
  - constructor; [exact I|]. apply IH, H.
  - contradiction.
  - constructor; [exact I|]. apply IH, H.
Qed.

Lemma hl_not_skip : forall k, hl_body k -> Forall not_skip k.
Proof. induction 1; repeat constructor; auto; eapply root_not_skip; eauto. Qed.
Lemma opt_not_skip : forall n k, opt_root n k -> Forall not_skip k.
Proof. intros n k [->|(t & -> & R)]; repeat constructor. eapply root_not_skip; eauto. Qed.

Lemma shape_not_skip : forall n o k c, shape n o k c -> n <> NCollapsible -> Forall not_skip k.
Proof.
  intros n o k c H NC. destruct n; try congruence; cbn [shape] in H;
  try (destruct H as (_ & (b & ->) & _); repeat constructor; fail).
  - destruct H as (_ & _ & t & d & -> & R1 & R2). repeat constructor; eapply root_not_skip; eauto.
  - destruct H as (_ & H & _). eapply items_not_skip; eauto.
  - destruct H as (_ & k1 & b & -> & H). apply Forall_app. split; [|repeat constructor].
    destruct H as [[_ H]|[_ ->]]; [eapply opt_not_skip; eauto|constructor].
  - destruct H as (_ & _ & H). eapply Forall_impl; [|exact H]. intros [| |] B; try exact I. contradiction.
  - destruct H as (_ & _ & a & b & c' & -> & _). repeat constructor.
  - destruct H as (_ & _ & H & _). eapply items_not_skip; eauto.
  - destruct H as (_ & k1 & k2 & k3 & -> & H2 & H3 & H). apply Forall_app. split.
    { destruct H as [[_ H]|[_ ->]]; [eapply opt_not_skip; eauto|constructor]. }
    apply Forall_app. split; [eapply opt_not_skip; eauto|apply hl_not_skip; exact H3].
  - destruct H as (_ & _ & _ & t & d & -> & R1 & R2). repeat constructor; eapply root_not_skip; eauto.
  - destruct H as (_ & _ & _ & H). eapply Forall_impl; [|exact H]. intros t R. eapply root_not_skip; eauto.
  - destruct H as (_ & l & lk & p & M & R & H). destruct H as [->|(x & -> & (lk' & k' & -> & _))];
    repeat constructor; eapply root_not_skip; eauto.
  - destruct H as (_ & _ & _ & l & H). eapply Forall_impl; [|exact H]. intros t (o' & k' & -> & _). exact I.
  - destruct H as (_ & _ & H & _). eapply items_not_skip; eauto.
  - destruct H as (_ & _ & t & -> & _). repeat constructor.
  - destruct H as (_ & _ & _ & l & H). eapply Forall_impl; [|exact H]. intros t (o' & k' & -> & _). exact I.
Qed.

Lemma trees_covered_of : forall s k, linked s (yields k) ->
  Forall (fun t => linked s (yield t) -> not_skip t -> covered (tevents s t) (ttexts s (yield t))) k ->
  Forall not_skip k -> covered (tevents_all s k) (ttexts s (yields k)).
Proof.
  intros s k L H N. induction k as [|t k IH]; [constructor|].
  change (yields (t :: k)) with (yield t ++ yields k) in *. apply linked_app in L. destruct L.
  inversion H; subst. inversion N; subst. rewrite ttexts_app.
  change (tevents_all s (t :: k)) with (tevents s t ++ tevents_all s k). apply covered_app; [auto|apply IH; assumption].
Qed.

Lemma tree_covered : forall s t, wf t -> linked s (yield t) -> not_skip t -> covered (tevents s t) (ttexts s (yield t)).
Proof.
  intros s. induction t as [ts|ts|n o k c IH] using tree_ind'; intros W L N.
  - apply covered_one.
  - contradiction.
  - inversion W as [| |? ? ? ? Wk Sh]; subst. cbn [yield] in L. fold (yields k) in L.
    cbn [tevents yield]. rewrite !ttexts_app. fold (yields k). fold (tevents_all s k). apply cov_event.
    apply linked_app in L. destruct L as [_ L]. apply linked_app in L. destruct L as [Lk Lc].
    assert (IH' : Forall (fun t => linked s (yield t) -> not_skip t -> covered (tevents s t) (ttexts s (yield t))) k).
    { clear - IH Wk. induction k; constructor; inversion IH; subst; inversion Wk; subst; auto. }
    destruct (node_eq_dec n NCollapsible) as [->|NC].
    + destruct Sh as (_ & _ & k1 & k2 & k3 & -> & H1 & H3).
      assert (G : forall k0, linked s (yields (k1 ++ [Node NDocument [] k2 []])) ->
        k0 = k1 ++ [Node NDocument [] k2 []] ->
        Forall (fun t => linked s (yield t) -> not_skip t -> covered (tevents s t) (ttexts s (yield t))) k0 ->
        covered (tevents_all s k0) (ttexts s (yields k0))).
      { intros k0 L0 -> I0. apply trees_covered_of; auto. apply Forall_app. split; [eapply opt_not_skip; eauto|repeat constructor]. }
      destruct H3 as [->|(e & -> & Ee)].
      * rewrite app_nil_r in *. apply covered_app; [apply G; auto|]. apply covered_one.
      * change (k1 ++ [Node NDocument [] k2 []] ++ [Skip [e]]) with (k1 ++ ([Node NDocument [] k2 []] ++ [Skip [e]])) in *.
        rewrite app_assoc in *. unfold tevents_all. rewrite flat_map_app. cbn [flat_map tevents app]. rewrite app_nil_r.
        rewrite yields_app in Lk |- *. apply linked_app in Lk. destruct Lk as [Lk Le]. apply Forall_app in IH'. destruct IH' as [IH' _].
        rewrite ttexts_app, <- app_assoc. apply covered_app; [apply G; auto|].
        replace (ttexts s (yields [Skip [e]]) ++ ttexts s c) with (ttext s e ++ ttexts s c ++ [])
          by (cbn; rewrite !app_nil_r; reflexivity).
        apply cov_collapsible; [|constructor]. cbn in Le. destruct Le as [F _]. inversion F; subst. apply x_eol; assumption.
    + apply covered_app; [|apply covered_one].
      apply trees_covered_of; auto. eapply shape_not_skip; eauto.
Qed.

Lemma concat_ttexts : forall s ts x, vtok s ts -> concat_texts s ts = Ok x -> ttexts s ts = x.
Proof.
  intros s ts x V. revert x. induction V as [|t ts [y Hy] V IH]; intros x H.
  - injection H as <-. reflexivity.
  - cbn [concat_texts] in H. unfold token_text in H. rewrite Hy in H. cbn [bind] in H.
    destruct (concat_texts s ts) as [z| |]; cbn [bind] in H; try discriminate. injection H as <-.
    change (ttexts s (t :: ts)) with (ttext s t ++ ttexts s ts). rewrite (IH z eq_refl).
    unfold ttext. rewrite Hy. reflexivity.
Qed.

Lemma spec_texts : forall s, ttexts s (spec_tokens s) = unescape s.
Proof. intros s. apply concat_ttexts; [apply vtok_lex|]. apply lexer_text, lex_correct. Qed.

Lemma flips_ttexts : forall s a b, flips a b -> ttexts s b = ttexts s a.
Proof.
  intros s a b F. induction F as [|x y a b Fx F IH]; [reflexivity|].
  change (ttext s y ++ ttexts s b = ttext s x ++ ttexts s a). rewrite IH. f_equal.
  unfold ttext. destruct (flip_slice _ _ Fx) as (-> & -> & _). reflexivity.
Qed.

Lemma top_not_skip : forall k, top k -> Forall not_skip k.
Proof.
  intros k (k1 & d & -> & R & O). apply Forall_app. split; [eapply opt_not_skip; eauto|].
  repeat constructor. eapply root_not_skip; eauto.
Qed.

Lemma stream_covered : forall s, covered (stream s) (unescape s).
Proof.
  intros s. unfold stream. destruct (fparse_wf (spec_tokens s)) as [W T]. pose proof (fparse_linked s) as L.
  rewrite <- spec_texts, <- (flips_ttexts s _ _ (proj2 (parse_refines s))).
  apply trees_covered_of; [exact L| |apply top_not_skip; exact T].
  eapply Forall_impl; [|exact W]. intros t Wt. apply tree_covered. exact Wt.
Qed.

Lemma covered_exact : forall es x, covered es x -> (forall t, ~ In (End NCollapsible, t) es) -> x = flat_map snd es.
Proof.
  intros es x H N. induction H as [|k t es x H IH|t es e x E H IH]; [reflexivity| |].
  - cbn. f_equal. apply IH. intros u X. apply (N u). right. exact X.
  - exfalso. apply (N t). left. reflexivity.
Qed.

(** ** Order of the spans *)

Inductive asc : nat -> list op -> nat -> Prop :=
| asc_nil : forall lo hi, lo <= hi -> asc lo [] hi
| asc_span : forall lo hi k a b os, lo <= a -> a < b -> asc b os hi -> asc lo (mk_op k (Span a b) :: os) hi
| asc_empty : forall lo hi k a b os, b <= a -> asc lo os hi -> asc lo (mk_op k (Span a b) :: os) hi
| asc_copy : forall lo hi k x os, asc lo os hi -> asc lo (mk_op k (Materialized x) :: os) hi.

Inductive tasc : nat -> list token -> nat -> Prop :=
| tasc_nil : forall lo hi, lo <= hi -> tasc lo [] hi
| tasc_cons : forall lo hi t ts, lo <= t_start t -> t_start t < t_end t -> tasc (t_end t) ts hi -> tasc lo (t :: ts) hi.

Lemma asc_weaken : forall lo lo' a hi, asc lo a hi -> lo' <= lo -> asc lo' a hi.
Proof.
  intros lo lo' a hi H. revert lo'. induction H; intros l0 Hl.
  - apply asc_nil. lia.
  - apply asc_span; auto. lia.
  - apply asc_empty; auto.
  - apply asc_copy. auto.
Qed.

Lemma asc_app : forall lo a m b hi, asc lo a m -> asc m b hi -> asc lo (a ++ b) hi.
Proof.
  intros lo a m b hi H. revert b hi. induction H; intros bb hh Hb; cbn.
  - eapply asc_weaken; eauto.
  - apply asc_span; auto.
  - apply asc_empty; auto.
  - apply asc_copy. auto.
Qed.

Lemma tasc_app : forall a lo b hi, tasc lo (a ++ b) hi -> exists m, tasc lo a m /\ tasc m b hi.
Proof.
  induction a as [|t a IH]; intros lo b hi H.
  - exists lo. split; [constructor; lia|exact H].
  - cbn in H. inversion H as [|? ? ? ? H1 H2 H3]; subst. apply IH in H3. destruct H3 as (m & H3 & H4).
    exists m. split; [constructor; assumption|exact H4].
Qed.

Lemma tasc_le : forall ts lo hi, tasc lo ts hi -> lo <= hi.
Proof. induction 1; lia. Qed.

Lemma last_change : forall A (l : list A) (x d e : A), last (x :: l) d = last (x :: l) e.
Proof. intros A l. induction l as [|y l IH]; intros x d e; [reflexivity|]. apply (IH y). Qed.

Lemma tasc_last : forall ts lo hi t, tasc lo (t :: ts) hi -> lo <= t_start t /\ t_start t < t_end (last (t :: ts) t) /\
  t_end (last (t :: ts) t) <= hi.
Proof.
  induction ts as [|u ts IH]; intros lo hi t H; inversion H as [|? ? ? ? H1 H2 H3]; subst.
  - cbn. apply tasc_le in H3. lia.
  - apply IH in H3. change (last (t :: u :: ts) t) with (last (u :: ts) t). rewrite (last_change _ ts u t u). lia.
Qed.

Lemma content_asc : forall s ts lo hi k, tasc lo ts hi -> asc lo [mk_op k (content_of s ts)] hi.
Proof.
  intros s [|t ts] lo hi k H.
  - apply asc_empty; [lia|]. constructor. inversion H; assumption.
  - unfold content_of. pose proof (tasc_last _ _ _ _ H) as (H1 & H2 & H3). pose proof (tasc_le _ _ _ H).
    destruct (existsb escaped (t :: ts) && negb (is_contiguous (t :: ts))).
    + apply asc_copy, asc_nil. lia.
    + apply asc_span; [lia|lia|]. apply asc_nil. lia.
Qed.

Lemma asc_cons_app : forall lo o m b hi, asc lo [o] m -> asc m b hi -> asc lo (o :: b) hi.
Proof. intros lo o m b hi H1 H2. change (o :: b) with ([o] ++ b). eapply asc_app; eauto. Qed.

Lemma flatten_asc : forall s t lo hi, tasc lo (yield t) hi -> asc lo (flatten s t) hi.
Proof.
  intros s. induction t as [ts|ts|n o k c IH] using tree_ind'; intros lo hi H.
  - apply content_asc. exact H.
  - constructor. eapply tasc_le; eauto.
  - cbn [yield] in H. apply tasc_app in H. destruct H as (m & H1 & H). apply tasc_app in H. destruct H as (m' & H2 & H3).
    cbn [flatten]. eapply asc_cons_app; [apply content_asc; exact H1|]. eapply asc_app; [|apply content_asc; exact H3].
    clear - IH H2. revert m m' H2. induction k as [|t k IHk]; intros m m' H2.
    + constructor. eapply tasc_le; eauto.
    + cbn in *. apply tasc_app in H2. destruct H2 as (m1 & H2 & H3). inversion IH; subst.
      eapply asc_app; eauto.
Qed.

Lemma flattens_asc : forall s k lo hi, tasc lo (yields k) hi -> asc lo (flattens s k) hi.
Proof.
  intros s k. induction k as [|t k IH]; intros lo hi H.
  - constructor. eapply tasc_le; eauto.
  - cbn in *. apply tasc_app in H. destruct H as (m1 & H2 & H3). eapply asc_app; eauto. apply flatten_asc. exact H2.
Qed.

Lemma linked_tasc : forall s ts, linked s ts -> forall lo, match ts with [] => lo <= byte_len s | t :: _ => lo <= t_start t end ->
  tasc lo ts (byte_len s).
Proof.
  intros s ts [F C]. induction ts as [|t ts IH]; intros lo Hl; [constructor; exact Hl|].
  inversion F as [|? ? (x & Hx & NE & _) F']; subst. constructor; [exact Hl|eapply slice_nonempty; eauto|].
  apply IH; [exact F'|destruct ts; [exact I|apply C]|].
  destruct ts as [|u ts].
  - apply slice_inv in Hx. destruct Hx as (a & b & -> & <- & ->). rewrite !byte_len_app. lia.
  - destruct C as [(J & _) _]. rewrite J. lia.
Qed.

Lemma asc_span_ge : forall os lo hi i k a b, asc lo os hi -> nth_error os i = Some (mk_op k (Span a b)) -> a < b -> lo <= a.
Proof.
  intros os lo hi i k a b H. revert i. induction H; intros i N L.
  - destruct i; discriminate.
  - destruct i as [|i]; cbn in N; [injection N as <- <- <-; lia|]. apply IHasc in N; lia.
  - destruct i as [|i]; cbn in N; [injection N as <- <- <-; lia|]. apply IHasc in N; lia.
  - destruct i as [|i]; cbn in N; [discriminate|]. apply IHasc in N; lia.
Qed.

Lemma asc_order : forall os lo hi i j k a b k' a' b', asc lo os hi -> i < j ->
  nth_error os i = Some (mk_op k (Span a b)) -> nth_error os j = Some (mk_op k' (Span a' b')) ->
  a < b -> a' < b' -> b <= a'.
Proof.
  intros os lo hi i j k a b k' a' b' H. revert i j. induction H; intros i j IJ N1 N2 L1 L2.
  - destruct i; discriminate.
  - destruct j as [|j]; [lia|]. destruct i as [|i]; cbn in N1, N2.
    + injection N1 as <- <- <-. eapply asc_span_ge; eauto.
    + apply (IHasc i j); auto; lia.
  - destruct j as [|j]; [lia|]. destruct i as [|i]; cbn in N1, N2.
    + injection N1 as <- <- <-. lia.
    + apply (IHasc i j); auto; lia.
  - destruct j as [|j]; [lia|]. destruct i as [|i]; cbn in N1, N2.
    + discriminate.
    + apply (IHasc i j); auto; lia.
Qed.

Lemma parse_asc : forall s ops, parse s = Ok ops -> asc 0 ops (byte_len s).
Proof.
  intros s ops H. destruct (parse_refines s) as [E _]. rewrite E in H. injection H as <-.
  apply flattens_asc. apply linked_tasc; [apply fparse_linked|]. destruct (yields _); lia.
Qed.

Lemma slice_boundary : forall s a b x, slice s a b = Ok x -> boundary s a /\ boundary s b.
Proof.
  intros s a b x H. apply slice_inv in H. destruct H as (u & v & -> & <- & ->). split.
  - exists u, (x ++ v). auto.
  - exists (u ++ x), v. split; [rewrite app_assoc; reflexivity|apply byte_len_app].
Qed.

Lemma parse_spans : forall s ops, parse s = Ok ops ->
  (forall k a b, In (mk_op k (Span a b)) ops -> a < b -> boundary s a /\ boundary s b /\ b <= byte_len s)
  /\ (forall i j k a b k' a' b', i < j ->
        nth_error ops i = Some (mk_op k (Span a b)) -> nth_error ops j = Some (mk_op k' (Span a' b')) ->
        a < b -> a' < b' -> b <= a').
Proof.
  intros s ops H. pose proof (parse_asc s ops H) as A. split.
  - intros k a b Hi L. pose proof (parse_reads s ops H) as R. apply In_nth_error in Hi. destruct Hi as [i Hi].
    assert (X : exists x, slice s a b = Ok x).
    { revert i Hi. clear - R L. induction R as [|o e os es [_ R0] R IH]; intros i Hi; [destruct i; discriminate|].
      destruct i as [|i]; cbn in Hi; [|eapply IH; eauto]. injection Hi as ->. cbn [op_content as_str] in R0.
      apply Nat.ltb_lt in L. rewrite L in R0. eauto. }
    destruct X as [x X]. destruct (slice_boundary _ _ _ _ X). repeat split; auto.
    apply slice_inv in X. destruct X as (u & v & -> & <- & ->). rewrite !byte_len_app. lia.
  - intros i j k a b k' a' b' IJ N1 N2 L1 L2. exact (asc_order _ _ _ _ _ _ _ _ _ _ _ A IJ N1 N2 L1 L2).
Qed.

(** ** Copies *)

(** The raw text of a token: with its backslash. *)
Definition raw_tok (s : str) (t : token) : str := (if escaped t then [c_bslash] else []) ++ ttext s t.
Definition raw_toks (s : str) (ts : list token) : str := flat_map (raw_tok s) ts.

Lemma spec_raw : forall s, exists tl, s = raw_toks s (spec_tokens s) ++ tl /\ (tl = [] \/ tl = [c_bslash]).
Proof.
  intros s. destruct (pieces_src s) as (tl & H1 & H2). exists tl. split; [|exact H2]. rewrite H1 at 1. f_equal.
  assert (G : forall l1 l2, Forall2 (fun t p => raw_tok s t = p_src p) l1 l2 -> flat_map p_src l2 = raw_toks s l1).
  { intros l1 l2 F. induction F; [reflexivity|]. cbn. rewrite H. f_equal. assumption. }
  apply G. assert (L : List.length (spec_tokens s) = List.length (pieces s)).
  { unfold spec_tokens. generalize 0 at 1. generalize 0 at 1. generalize 0 at 1. clear.
    induction (pieces s) as [|p l IH]; intros a b c; [reflexivity|]. cbn. f_equal. apply IH. }
  assert (N : forall i t, nth_error (spec_tokens s) i = Some t -> exists p, nth_error (pieces s) i = Some p /\ raw_tok s t = p_src p).
  { intros i t Hi. destruct (token_text_piece s _ i t (lex_correct s) Hi) as (p & P1 & P2 & P3 & P4).
    exists p. split; [exact P1|]. unfold raw_tok, p_src, ttext. unfold token_text in P2. rewrite P2, P4. reflexivity. }
  revert L N. generalize (spec_tokens s) as l1. generalize (pieces s) as l2. clear. intros l2 l1. revert l2.
  induction l1 as [|t l1 IH]; intros [|p l2] L N; try discriminate; constructor.
  - destruct (N 0 t eq_refl) as (q & Q & E). injection Q as <-. exact E.
  - apply IH; [injection L as L; exact L|]. intros i u Hu. apply (N (S i) u Hu).
Qed.

Lemma flips_raw : forall s a b, flips a b -> raw_toks s b = raw_toks s a.
Proof.
  intros s a b F. induction F as [|x y a b Fx F IH]; [reflexivity|].
  change (raw_tok s y ++ raw_toks s b = raw_tok s x ++ raw_toks s a). rewrite IH. f_equal.
  unfold raw_tok, ttext. destruct (flip_slice _ _ Fx) as (-> & -> & _ & -> & _). reflexivity.
Qed.

Definition tok_raw (s : str) (t : token) : Prop :=
  (escaped t = false -> no_bslash (ttext s t)) /\
  (escaped t = true -> exists c a, ttext s t = c :: a /\ no_bslash a).

Lemma special_no_bslash : forall a, Forall (fun d => special d = false) a -> no_bslash a.
Proof.
  intros a H. eapply Forall_impl; [|exact H]. intros c Hc. destruct (char_eqb c c_bslash) eqn:E; [|reflexivity].
  apply char_eqb_eq in E. subst c. discriminate.
Qed.

Lemma spec_tok_raw : forall s t, In t (spec_tokens s) -> tok_raw s t.
Proof.
  intros s t H. destruct (token_kinds s _ t (lex_correct s) H) as (x & X & K). unfold tok_raw, ttext.
  unfold token_text in X. rewrite X. split; intros E.
  - rewrite E in K. eapply kind_text_no_bslash; eauto.
  - destruct (escaped_token_char s _ t (lex_correct s) H E) as [KL _]. rewrite KL in K.
    destruct K as (c & a & -> & F & _). exists c, a. split; [reflexivity|]. apply special_no_bslash. exact F.
Qed.

Lemma flips_tok_raw : forall s a b, flips a b -> Forall (tok_raw s) a -> Forall (tok_raw s) b.
Proof.
  intros s a b F H. induction F as [|x y a b Fx F IH]; [constructor|]. inversion H; subst. constructor; [|auto].
  unfold tok_raw, ttext in *. destruct (flip_slice _ _ Fx) as (-> & -> & _ & -> & _). assumption.
Qed.

Lemma unescape_raw : forall s t r, tok_raw s t -> unescape (raw_tok s t ++ r) = ttext s t ++ unescape r.
Proof.
  intros s t r [H1 H2]. unfold raw_tok. destruct (escaped t).
  - destruct (H2 eq_refl) as (c & a & -> & N). cbn. rewrite unescape_no_bslash by exact N. reflexivity.
  - cbn. apply unescape_no_bslash. auto.
Qed.
Lemma dangling_raw : forall s t r, tok_raw s t -> dangling (raw_tok s t ++ r) = dangling r.
Proof.
  intros s t r [H1 H2]. unfold raw_tok. destruct (escaped t).
  - destruct (H2 eq_refl) as (c & a & -> & N). cbn. rewrite dangling_no_bslash by exact N. reflexivity.
  - cbn. apply dangling_no_bslash. auto.
Qed.
Lemma unescape_raws : forall s ts r, Forall (tok_raw s) ts -> unescape (raw_toks s ts ++ r) = ttexts s ts ++ unescape r.
Proof.
  intros s ts r H. induction H as [|t ts Ht H IH]; [reflexivity|].
  change (raw_toks s (t :: ts)) with (raw_tok s t ++ raw_toks s ts).
  change (ttexts s (t :: ts)) with (ttext s t ++ ttexts s ts). rewrite <- app_assoc, unescape_raw by exact Ht.
  rewrite IH, app_assoc. reflexivity.
Qed.
Lemma dangling_raws : forall s ts r, Forall (tok_raw s) ts -> dangling (raw_toks s ts ++ r) = dangling r.
Proof.
  intros s ts r H. induction H as [|t ts Ht H IH]; [reflexivity|].
  change (raw_toks s (t :: ts)) with (raw_tok s t ++ raw_toks s ts). rewrite <- app_assoc, dangling_raw by exact Ht. exact IH.
Qed.

(** Every content of a tree stands for a sublist of its tokens. *)
Lemma flatten_content : forall s t o, In o (flatten s t) -> exists a ts b, yield t = a ++ ts ++ b /\ op_content o = content_of s ts.
Proof.
  intros s. induction t as [ts|ts|n op_ k c IH] using tree_ind'; intros o H.
  - cbn in H. destruct H as [<-|[]]. exists [], ts, []. rewrite app_nil_r. auto.
  - contradiction.
  - cbn [flatten] in H. cbn [yield]. destruct H as [<-|H].
    + exists [], op_, (flat_map yield k ++ c). auto.
    + apply in_app_or in H. destruct H as [H|[<-|[]]].
      * apply in_flat_map in H. destruct H as (t & Ht & Ho). rewrite Forall_forall in IH. apply (IH t Ht) in Ho.
        destruct Ho as (a & ts & b & E & C). apply in_split in Ht. destruct Ht as (k1 & k2 & ->).
        exists (op_ ++ flat_map yield k1 ++ a), ts, (b ++ flat_map yield k2 ++ c). split; [|exact C].
        rewrite flat_map_app. cbn. rewrite E. rewrite <- !app_assoc. reflexivity.
      * exists (op_ ++ flat_map yield k), c, []. rewrite app_nil_r, <- app_assoc. auto.
Qed.
Lemma flattens_content : forall s k o, In o (flattens s k) -> exists a ts b, yields k = a ++ ts ++ b /\ op_content o = content_of s ts.
Proof.
  intros s k o H. apply in_flat_map in H. destruct H as (t & Ht & Ho). apply flatten_content in Ho.
  destruct Ho as (a & ts & b & E & C). apply in_split in Ht. destruct Ht as (k1 & k2 & ->).
  exists (yields k1 ++ a), ts, (b ++ yields k2). split; [|exact C]. rewrite yields_app. cbn. rewrite E.
  rewrite <- !app_assoc. reflexivity.
Qed.

Lemma gap_split : forall ts, chain joined ts -> is_contiguous ts = false -> exists a t u b, ts = a ++ t :: u :: b /\ escaped u = true.
Proof.
  induction ts as [|t ts IH]; intros C H; [discriminate|]. destruct ts as [|u ts]; [discriminate|].
  cbn [is_contiguous] in H. destruct C as [(J & _) C]. apply andb_false_iff in H. destruct H as [H|H].
  - exists [], t, u, ts. split; [reflexivity|]. destruct (escaped u); [reflexivity|].
    rewrite J, Nat.add_0_r, Nat.eqb_refl in H. discriminate.
  - destruct (IH C H) as (a & t' & u' & b & -> & E). exists (t :: a), t', u', b. auto.
Qed.

Lemma raw_nonempty : forall s t, tok_ok s t -> raw_tok s t <> [].
Proof.
  intros s t H E. unfold raw_tok in E. apply app_eq_nil in E. destruct E as [_ E]. apply (tok_nonempty s t H E).
Qed.

Lemma parse_copies : forall s ops k x, parse s = Ok ops -> In (mk_op k (Materialized x)) ops ->
  exists a r1 r2 b, s = a ++ (r1 ++ c_bslash :: r2) ++ b /\ dangling a = false
    /\ r1 <> [] /\ dangling r1 = false /\ r2 <> [] /\ dangling (c_bslash :: r2) = false
    /\ x = unescape (r1 ++ c_bslash :: r2).
Proof.
  intros s ops k x H Hi. destruct (parse_refines s) as [E F]. rewrite E in H. injection H as <-.
  apply flattens_content in Hi. destruct Hi as (A & ts & B & Y & C). cbn in C.
  pose proof (fparse_linked s) as L. rewrite Y in *. apply linked_app in L. destruct L as [_ L]. apply linked_app in L. destruct L as [L _].
  assert (R : Forall (tok_raw s) (A ++ ts ++ B)).
  { eapply flips_tok_raw; [exact F|]. apply Forall_forall. intros t. apply spec_tok_raw. }
  destruct (spec_raw s) as (tl & S1 & _). rewrite <- (flips_raw s _ _ F) in S1. unfold raw_toks in S1. rewrite !flat_map_app in S1.
  fold (raw_toks s A) in S1. fold (raw_toks s B) in S1.
  apply Forall_app in R. destruct R as [RA R]. apply Forall_app in R. destruct R as [Rts RB].
  unfold content_of in C. destruct ts as [|t0 ts0]; [discriminate|].
  destruct (existsb escaped (t0 :: ts0) && negb (is_contiguous (t0 :: ts0))) eqn:G; [|discriminate].
  assert (C' : x = ttexts s (t0 :: ts0)) by congruence. clear C. rename C' into C. apply andb_true_iff in G. destruct G as [_ G]. apply negb_true_iff in G.
  destruct L as [Lt Lc]. destruct (gap_split _ Lc G) as (a & t & u & b & E2 & Eu).
  set (p := a ++ [t]). assert (E3 : t0 :: ts0 = p ++ u :: b) by (rewrite E2; unfold p; rewrite <- app_assoc; reflexivity).
  clear E2 G Y F. rewrite E3 in *. clear E3 t0 ts0.
  apply Forall_app in Rts. destruct Rts as [Rp Ru]. apply Forall_app in Lt. destruct Lt as [Lp Lu].
  rewrite (flat_map_app (raw_tok s) p) in S1. fold (raw_toks s p) in S1. cbn [flat_map] in S1. fold (raw_toks s b) in S1.
  assert (EU : raw_tok s u = c_bslash :: ttext s u) by (unfold raw_tok; rewrite Eu; reflexivity).
  rewrite EU in S1.
  exists (raw_toks s A), (raw_toks s p), (ttext s u ++ raw_toks s b), (raw_toks s B ++ tl).
  split; [rewrite S1 at 1; rewrite <- !app_assoc; cbn; rewrite <- !app_assoc; reflexivity|].
  split; [rewrite <- (app_nil_r (raw_toks s A)); apply dangling_raws; exact RA|].
  split.
  { unfold p. unfold raw_toks. rewrite flat_map_app. cbn. rewrite app_nil_r. intros X. apply app_eq_nil in X. destruct X as [_ X].
    apply (raw_nonempty s t); [|exact X]. unfold p in Lp. apply Forall_app in Lp. destruct Lp as [_ Lp]. inversion Lp; assumption. }
  split; [rewrite <- (app_nil_r (raw_toks s p)); apply dangling_raws; exact Rp|].
  inversion Lu as [|? ? Lu0 _]; subst. inversion Ru as [|? ? Ru0 Rb]; subst.
  split; [intros X; apply app_eq_nil in X; destruct X as [X _]; exact (tok_nonempty s u Lu0 X)|].
  assert (ER : c_bslash :: ttext s u ++ raw_toks s b = raw_toks s (u :: b)).
  { cbn [raw_toks flat_map]. rewrite EU. reflexivity. }
  rewrite ER. split; [rewrite <- (app_nil_r (raw_toks s (u :: b))); apply dangling_raws; exact Ru|].
  unfold p in *. rewrite <- (app_nil_r (raw_toks s (u :: b))), unescape_raws by exact Rp. rewrite unescape_raws by exact Ru. cbn [unescape].
  rewrite app_nil_r. unfold ttexts at 1. rewrite flat_map_app. reflexivity.
Qed.

(** ** Subtrees *)

Inductive within : tree -> tree -> Prop :=
| within_refl : forall t, within t t
| within_kid : forall t n o k c x, In x k -> within t x -> within t (Node n o k c).

Lemma within_wf : forall t u, within t u -> wf u -> wf t.
Proof.
  intros t u H. induction H; intros W; [exact W|]. apply IHwithin. inversion W as [| |? ? ? ? F _]; subst.
  rewrite Forall_forall in F. auto.
Qed.

Lemma within_yield : forall t u, within t u -> exists a b, yield u = a ++ yield t ++ b.
Proof.
  intros t u H. induction H as [|t n o k c x Hx H (a & b & E)]; [exists [], []; rewrite app_nil_r; reflexivity|].
  apply in_split in Hx. destruct Hx as (k1 & k2 & ->). exists (o ++ yields k1 ++ a), (b ++ yields k2 ++ c).
  cbn. rewrite flat_map_app. cbn. rewrite E. unfold yields. rewrite <- !app_assoc. reflexivity.
Qed.

Lemma flatten_start : forall s t n c, In (mk_op (Start n) c) (flatten s t) -> exists o k cl, within (Node n o k cl) t.
Proof.
  intros s. induction t as [ts|ts|n0 o k c0 IH] using tree_ind'; intros n c H; cbn in H.
  - destruct H as [H|[]]. discriminate.
  - contradiction.
  - destruct H as [H|H].
    + injection H as -> _. exists o, k, c0. constructor.
    + apply in_app_or in H. destruct H as [H|[H|[]]]; [|discriminate].
      apply in_flat_map in H. destruct H as (t & Ht & Ho). rewrite Forall_forall in IH.
      destruct (IH t Ht n c Ho) as (o' & k' & c' & W). exists o', k', c'. econstructor; eauto.
Qed.

(** A node of the stream with its tokens. *)
Lemma parse_node : forall s ops n c, parse s = Ok ops -> In (mk_op (Start n) c) ops ->
  exists o k cl A B, shape n o k cl /\ flips (spec_tokens s) (A ++ o ++ yields k ++ cl ++ B).
Proof.
  intros s ops n c H Hi. destruct (parse_refines s) as [E F]. rewrite E in H. injection H as <-.
  apply in_flat_map in Hi. destruct Hi as (t & Ht & Ho). apply flatten_start in Ho. destruct Ho as (o & k & cl & W).
  destruct (fparse_wf (spec_tokens s)) as [WF _]. rewrite Forall_forall in WF. pose proof (within_wf _ _ W (WF t Ht)) as Wn.
  inversion Wn as [| |? ? ? ? _ Sh]; subst. apply within_yield in W. destruct W as (a & b & Y).
  apply in_split in Ht. destruct Ht as (k1 & k2 & Hk). rewrite Hk in F. rewrite yields_app in F. cbn in F. rewrite Y in F.
  exists o, k, cl, (yields k1 ++ a), (b ++ yields k2). split; [exact Sh|]. cbn in F. fold (yields k) in F. fold (yields k2) in F.
  replace ((yields k1 ++ a) ++ o ++ yields k ++ cl ++ b ++ yields k2)
    with (yields k1 ++ (a ++ (o ++ yields k ++ cl) ++ b) ++ yields k2) by (rewrite <- !app_assoc; reflexivity).
  exact F.
Qed.

Lemma flips_split : forall a x y, flips a (x ++ y) -> exists b c, a = b ++ c /\ flips b x /\ flips c y.
Proof.
  intros a x. revert a. induction x as [|t x IH]; intros a y F.
  - exists [], a. repeat split; [constructor|exact F].
  - cbn in F. inversion F as [|u ? a' ? Fu Fa]; subst. apply IH in Fa. destruct Fa as (b & c & -> & F1 & F2).
    exists (u :: b), c. repeat split; [constructor; assumption|exact F2].
Qed.

Lemma flips_cons : forall a t y, flips a (t :: y) -> exists u c, a = u :: c /\ flip u t /\ flips c y.
Proof. intros a t y F. inversion F; subst. eauto. Qed.

Lemma flip_same : forall u t, flip u t -> kind t <> Literal -> u = t.
Proof. intros u t [->|[_ ->]] H; [reflexivity|]. exfalso. apply H. reflexivity. Qed.
