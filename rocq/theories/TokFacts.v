(** Facts about the tokens in the syntax trees: their texts and how they join. *)
From Verif Require Import Base Lexer LexSpec LexProofs LexFacts Ops Parser FParser Refine Refine2 Refine3.

(** ** Slices *)

Lemma split_bytes_inv : forall s n a b, split_bytes s n = Some (a, b) -> s = a ++ b /\ byte_len a = n.
Proof.
  induction s as [|c s IH]; intros n a b H; simpl in H.
  - destruct n; [injection H as <- <-; auto|discriminate].
  - destruct n as [|n]; [injection H as <- <-; auto|].
    destruct (utf8_len c <=? S n) eqn:L; [|discriminate]. apply Nat.leb_le in L.
    destruct (split_bytes s (S n - utf8_len c)) as [[x y]|] eqn:E; [|discriminate]. injection H as <- <-.
    apply IH in E. destruct E as [-> E]. simpl. rewrite E. split; [reflexivity|lia].
Qed.

Lemma slice_inv : forall s a b x, slice s a b = Ok x ->
  exists u v, s = u ++ x ++ v /\ byte_len u = a /\ b = a + byte_len x.
Proof.
  intros s a b x H. unfold slice in H. destruct (a <=? b) eqn:L; [|discriminate]. apply Nat.leb_le in L.
  destruct (split_bytes s a) as [[u r]|] eqn:E1; [|discriminate].
  destruct (split_bytes r (b - a)) as [[m v]|] eqn:E2; [|discriminate]. injection H as ->.
  apply split_bytes_inv in E1. apply split_bytes_inv in E2. destruct E1 as [-> <-], E2 as [-> E2].
  exists u, v. repeat split. lia.
Qed.

Lemma byte_len_prefix : forall a b c d, a ++ b = c ++ d -> byte_len a = byte_len c -> a = c /\ b = d.
Proof.
  induction a as [|x a IH]; intros b c d E L; destruct c as [|y c]; simpl in *.
  - auto.
  - pose proof (utf8_len_pos y). lia.
  - pose proof (utf8_len_pos x). lia.
  - injection E as -> E. destruct (IH b c d E) as [-> ->]; [lia|]. auto.
Qed.

Lemma slice_concat : forall s a b c x y, slice s a b = Ok x -> slice s b c = Ok y -> slice s a c = Ok (x ++ y).
Proof.
  intros s a b c x y H1 H2. apply slice_inv in H1. apply slice_inv in H2.
  destruct H1 as (u & v & -> & <- & ->). destruct H2 as (u' & v' & E & L & ->).
  rewrite app_assoc in E. apply byte_len_prefix in E; [|rewrite byte_len_app; lia].
  destruct E as [<- ->].
  replace (u ++ x ++ y ++ v') with (u ++ (x ++ y) ++ v') by (rewrite <- !app_assoc; reflexivity).
  replace (byte_len u + byte_len x + byte_len y) with (byte_len u + byte_len (x ++ y)) by (rewrite byte_len_app; lia).
  apply slice_app.
Qed.

Lemma slice_nonempty : forall s a b x, slice s a b = Ok x -> x <> [] -> a < b.
Proof.
  intros s a b x H NE. apply slice_inv in H. destruct H as (u & v & _ & _ & ->).
  destruct x as [|c x]; [congruence|]. simpl. pose proof (utf8_len_pos c). lia.
Qed.

(** ** Linked tokens *)

Definition tok_ok (s : str) (t : token) : Prop :=
  exists x, slice s (t_start t) (t_end t) = Ok x /\ x <> []
    /\ (kind t <> Literal -> kind_text (kind t) (escaped t) x)
    /\ (escaped t = true -> kind t = Literal).

Definition joined (t u : token) : Prop :=
  t_start u = t_end t + (if escaped u then 1 else 0)
  /\ (kind t = Eol -> kind u <> Eol)
  /\ (escaped u = false -> is_run_kind (kind t) = true -> kind t <> kind u)
  /\ (col0 u = true <-> kind t = Eol \/ kind t = Terminator).

Definition linked (s : str) (ts : list token) : Prop := Forall (tok_ok s) ts /\ chain joined ts.

Lemma chain_app : forall A (R : A -> A -> Prop) a b, chain R (a ++ b) -> chain R a /\ chain R b.
Proof.
  intros A R a. induction a as [|x a IH]; intros b H; [split; [exact I|exact H]|].
  destruct a as [|y a].
  - cbn [app] in H. destruct b as [|z b]; [split; exact I|]. destruct H as [_ H]. split; [exact I|exact H].
  - destruct H as [H0 H]. apply IH in H. destruct H. split; [split; assumption|assumption].
Qed.

Lemma linked_app : forall s a b, linked s (a ++ b) -> linked s a /\ linked s b.
Proof.
  intros s a b [F C]. apply Forall_app in F. destruct F. apply chain_app in C. destruct C. split; split; assumption.
Qed.

Lemma linked_pair : forall s a t u b, linked s (a ++ t :: u :: b) -> joined t u.
Proof. intros s a t u b [_ C]. apply chain_app in C. destruct C as [_ [C _]]. exact C. Qed.

Lemma chain_of_nth : forall A (R : A -> A -> Prop) l,
  (forall i p q, nth_error l i = Some p -> nth_error l (S i) = Some q -> R p q) -> chain R l.
Proof.
  intros A R. induction l as [|x l IH]; intros H; [exact I|]. destruct l as [|y l]; [exact I|].
  split; [apply (H 0); reflexivity|]. apply IH. intros i p q H1 H2. apply (H (S i)); assumption.
Qed.

Lemma spec_linked : forall s, linked s (spec_tokens s).
Proof.
  intros s. pose proof (lex_correct s) as L. split.
  - apply Forall_forall. intros t Ht. destruct (token_kinds s _ t L Ht) as (x & Hx & K).
    exists x. split; [exact Hx|]. split; [eapply kind_text_nonempty; eauto|]. split; [auto|].
    intros E. destruct (escaped_token_char s _ t L Ht E) as [H _]. exact H.
  - apply chain_of_nth. intros i t u H1 H2. destruct (token_gaps s _ L) as [_ G].
    destruct (maximal_munch s _ i t u L H1 H2) as [M1 M2]. split; [eapply G; eauto|]. split; [exact M1|]. split.
    + intros E R. apply M2; assumption.
    + unfold col0. rewrite Nat.eqb_eq. rewrite (column_zero s _ (S i) u L H2). split.
      * intros [X|(j & t' & Ej & Hj & K)]; [discriminate|]. injection Ej as <-. rewrite H1 in Hj. injection Hj as <-. exact K.
      * intros K. right. exists i, t. auto.
Qed.

Lemma flip_tok_ok : forall s a b, flip a b -> tok_ok s a -> tok_ok s b.
Proof.
  intros s a b [->|[_ ->]] H; [exact H|]. destruct H as (x & H1 & H2 & H3 & H4). exists x.
  split; [exact H1|]. split; [exact H2|]. split; [intros X; exfalso; apply X; reflexivity|reflexivity].
Qed.

Lemma flip_kind : forall a b k, flip a b -> kind b = k -> k <> Literal -> kind a = k.
Proof. intros a b k [->|[_ ->]] H1 H2; [exact H1|]. cbn in H1. congruence. Qed.

Lemma kind_flip : forall a b k, flip a b -> kind a = k -> k <> CollapsibleStart -> kind b = k.
Proof.
  intros a b k [->|[C ->]] H1 H2; [exact H1|]. unfold is_collapsible_start in C. apply andb_true_iff in C.
  destruct C as [C _]. apply kind_eqb_eq in C. congruence.
Qed.

Lemma flip_joined : forall a b c d, flip a b -> flip c d -> joined a c -> joined b d.
Proof.
  intros a b c d F1 F2 (J1 & J2 & J3 & J4).
  destruct (flip_slice _ _ F1) as (S1 & E1 & P1 & X1 & _). destruct (flip_slice _ _ F2) as (S2 & E2 & P2 & X2 & _).
  split; [|split; [|split]].
  - rewrite S2, E1, X2. exact J1.
  - intros K K'. apply J2.
    + eapply flip_kind; eauto. discriminate.
    + eapply flip_kind; eauto. discriminate.
  - intros E R K. rewrite X2 in E. apply (J3 E).
    + destruct F1 as [->|[_ ->]]; [exact R|discriminate].
    + destruct F1 as [->|[_ ->]]; [|discriminate].
      rewrite (flip_kind _ _ (kind a) F2); auto. intros X. rewrite X in R. discriminate.
  - rewrite (flip_col0 _ _ F2), J4. split.
    + intros [K|K]; [left|right]; eapply kind_flip; eauto; discriminate.
    + intros [K|K]; [left|right]; eapply flip_kind; eauto; discriminate.
Qed.

Lemma flips_linked : forall s a b, flips a b -> linked s a -> linked s b.
Proof.
  intros s a b F [T C]. split.
  - clear C. induction F; [constructor|]. inversion T; subst. constructor; [eapply flip_tok_ok; eauto|auto].
  - clear T. induction F as [|x y a b Fx F IH]; [exact I|].
    destruct F as [|x' y' a b Fx' F]; [exact I|]. destruct C as [C0 C]. split; [eapply flip_joined; eauto|auto].
Qed.

Lemma fparse_linked : forall s, linked s (yields (fparse (spec_tokens s))).
Proof. intros s. eapply flips_linked; [apply parse_refines|apply spec_linked]. Qed.

(** ** Contents *)

Lemma tok_ok_ttext : forall s t, tok_ok s t -> slice s (t_start t) (t_end t) = Ok (ttext s t).
Proof. intros s t (x & H & _). unfold ttext. rewrite H. reflexivity. Qed.

Lemma contiguous_slice : forall s ts t, Forall (tok_ok s) (t :: ts) -> is_contiguous (t :: ts) = true ->
  slice s (t_start t) (t_end (last (t :: ts) t)) = Ok (ttexts s (t :: ts)).
Proof.
  intros s ts. induction ts as [|u ts IH]; intros t F C.
  - cbn. rewrite app_nil_r. apply tok_ok_ttext. inversion F; assumption.
  - cbn [is_contiguous] in C. apply andb_true_iff in C. destruct C as [C0 C]. apply Nat.eqb_eq in C0.
    inversion F as [|? ? F0 F']; subst.
    change (ttexts s (t :: u :: ts)) with (ttext s t ++ ttexts s (u :: ts)).
    eapply slice_concat; [apply tok_ok_ttext; exact F0|]. rewrite C0.
    assert (L : last (t :: u :: ts) t = last (u :: ts) u).
    { change (last (t :: u :: ts) t) with (last (u :: ts) t). clear.
      revert u. induction ts as [|v ts IH]; intros u; [reflexivity|].
      change (last (u :: v :: ts) t) with (last (v :: ts) t). change (last (u :: v :: ts) u) with (last (v :: ts) u).
      rewrite IH. symmetry. clear. revert v. induction ts as [|w ts IH]; intros v; [reflexivity|].
      change (last (v :: w :: ts) u) with (last (w :: ts) u). change (last (v :: w :: ts) v) with (last (w :: ts) v).
      rewrite IH. destruct ts as [|z ts]; [reflexivity|].
      change (last (w :: z :: ts) w) with (last (z :: ts) w). change (last (w :: z :: ts) v) with (last (z :: ts) v).
      generalize z. clear. induction ts as [|y ts IH]; intros z; [reflexivity|]. apply (IH y). }
    rewrite L. apply IH; assumption.
Qed.

Lemma unescaped_contiguous : forall ts, chain joined ts -> existsb escaped ts = false -> is_contiguous ts = true.
Proof.
  induction ts as [|t ts IH]; intros C E; [reflexivity|]. destruct ts as [|u ts]; [reflexivity|].
  destruct C as [(J & _) C]. cbn [existsb] in E. apply orb_false_iff in E. destruct E as [E0 E].
  assert (Eu : escaped u = false) by (cbn [existsb] in E; apply orb_false_iff in E; apply E).
  rewrite Eu in J. cbn [is_contiguous]. rewrite J, Nat.add_0_r, Nat.eqb_refl. cbn [andb]. apply IH; assumption.
Qed.

(** A text is what it stands for. *)
Lemma content_text : forall s ts, linked s ts -> as_str s (content_of s ts) = Ok (ttexts s ts).
Proof.
  intros s ts [F C]. destruct ts as [|t ts]; [reflexivity|]. unfold content_of.
  assert (G : is_contiguous (t :: ts) = true ->
          as_str s (Span (t_start t) (t_end (last (t :: ts) t))) = Ok (ttexts s (t :: ts))).
  { intros Cc. pose proof (contiguous_slice s ts t F Cc) as H. cbn [as_str].
    assert (L : t_start t < t_end (last (t :: ts) t)).
    { eapply slice_nonempty; [exact H|]. inversion F as [|? ? (x & Hx & NE & _) _]; subst.
      cbn [ttexts flat_map]. unfold ttext at 1. rewrite Hx. destruct x; [congruence|discriminate]. }
    apply Nat.ltb_lt in L. rewrite L. exact H. }
  destruct (existsb escaped (t :: ts)) eqn:E; cbn [andb].
  - destruct (is_contiguous (t :: ts)) eqn:Cc; cbn [negb]; [apply G; reflexivity|]. reflexivity.
  - apply G. apply unescaped_contiguous; assumption.
Qed.

(** ** Texts of the delimiter tokens *)

Lemma tok_len : forall s t, tok_ok s t -> byte_len (ttext s t) = tlen t.
Proof.
  intros s t H. pose proof (tok_ok_ttext s t H) as E. apply slice_inv in E.
  destruct E as (u & v & _ & _ & E). unfold tlen. lia.
Qed.

Lemma byte_len_repeat : forall c n, byte_len (repeat c n) = utf8_len c * n.
Proof. intros c n. induction n; simpl; lia. Qed.

Lemma run_text : forall s t c, tok_ok s t -> kind t <> Literal -> utf8_len c = 1 ->
  (forall e x, kind_text (kind t) e x -> exists n, x = repeat c (S n)) -> ttext s t = repeat c (tlen t).
Proof.
  intros s t c H K U R. pose proof (tok_len s t H) as L. destruct H as (x & Hx & _ & KT & _).
  unfold ttext in *. rewrite Hx in *. destruct (R _ _ (KT K)) as [n ->].
  rewrite byte_len_repeat, U in L. rewrite <- L. f_equal. lia.
Qed.

Lemma kind_of_and : forall k a b, kind_eqb k a && b = true -> k = a /\ b = true.
Proof. intros k a b H. apply andb_true_iff in H. destruct H as [H ->]. apply kind_eqb_eq in H. auto. Qed.

(** The text of a token given by a length test on a run kind. *)
Ltac pred_text H :=
  let K := fresh "K" in let L := fresh "L" in
  repeat (apply andb_true_iff in H; let H' := fresh "L" in destruct H as [H H']);
  apply kind_eqb_eq in H.

Lemma run_text_at : forall s t k c, tok_ok s t -> kind t = k ->
  match k with
  | LeftCurlyBrace => c = c_lcurly | RightCurlyBrace => c = c_rcurly | Tilde => c = c_tilde
  | Star => c = c_star | Space => c = c_space | Minus => c = c_minus | Hash => c = c_hash
  | Bang => c = c_bang | Backtick => c = c_backtick | Plus => c = c_plus
  | _ => False
  end -> ttext s t = repeat c (tlen t).
Proof.
  intros s t k c H K M. destruct k; try contradiction; subst c; apply run_text; auto; try (rewrite K; discriminate);
    rewrite K; cbn; auto.
Qed.

Lemma single_text : forall s t k, tok_ok s t -> kind t = k ->
  match k with
  | LeftSquareBracket => ttext s t = [c_lsquare] | RightSquareBracket => ttext s t = [c_rsquare]
  | LeftParenthesis => ttext s t = [c_lparen] | RightParenthesis => ttext s t = [c_rparen]
  | Underscore => ttext s t = [c_underscore] | Pipe => ttext s t = [c_pipe]
  | CollapsibleStart => ttext s t = [c_lcurly; c_percent]
  | CollapsibleEnd => ttext s t = [c_percent; c_rcurly]
  | Eol => line_ending (ttext s t)
  | Terminator => exists a b, ttext s t = a ++ b /\ line_ending a /\ line_ending b
  | _ => True
  end.
Proof.
  intros s t k (x & Hx & _ & KT & _) K. unfold ttext. rewrite Hx.
  destruct k; try exact I; (assert (Y : kind_text (kind t) (escaped t) x) by (apply KT; rewrite K; discriminate));
    rewrite K in Y; exact Y.
Qed.
