(** The text of a heading in a raw source starts no link. *)
From Verif Require Import Base Lexer LexSpec LexProofs LexFacts Ops Parser FParser Refine Refine2 Refine3 Wf TokFacts StreamSpec StreamProofs Lines
  StreamProofs2 StreamProofs3 LineProofs Ast ToYamd Api Strict TreeAst AstSpec AstProofs Tame Settled RawLex.

(** A bracket or parenthesis in a text is a token of its own. *)
Definition bracket (c : char) (k : token_kind) : Prop :=
  (c = c_lsquare /\ k = LeftSquareBracket) \/ (c = c_rsquare /\ k = RightSquareBracket)
  \/ (c = c_lparen /\ k = LeftParenthesis) \/ (c = c_rparen /\ k = RightParenthesis).
Lemma bracket_tok : forall s t c k, bracket c k -> tok_ok s t -> raw_tok s t -> In c (ttext s t) -> kind t = k /\ ttext s t = [c] /\ tlen t = 1.
Proof.
  intros s t c k B O R Hi. pose proof O as O'. destruct O' as (y & Hy & _ & KT & _). assert (Ey : ttext s t = y) by (unfold ttext; rewrite Hy; reflexivity).
  assert (X : kind t = k).
  { rewrite Ey in Hi. destruct (kind t) eqn:K;
      try (specialize (KT ltac:(discriminate)); cbn in KT;
           first [rewrite KT in Hi; cbn in Hi; unfold bracket in B; destruct B as [[-> ->]|[[-> ->]|[[-> ->]|[-> ->]]]]; intuition (discriminate || reflexivity)
                 |destruct KT as [n KT]; rewrite KT in Hi; apply (repeat_spec (S n)) in Hi; subst c; destruct B as [[E _]|[[E _]|[[E _]|[E _]]]]; discriminate E]).
    - pose proof (raw_terminator s t O R K) as X. rewrite Ey in X. rewrite X in Hi. destruct B as [[-> _]|[[-> _]|[[-> _]|[-> _]]]]; cbn in Hi; intuition discriminate.
    - pose proof (raw_eol s t O R K) as X. rewrite Ey in X. rewrite X in Hi. destruct B as [[-> _]|[[-> _]|[[-> _]|[-> _]]]]; cbn in Hi; intuition discriminate.
    - destruct R as (R & _). specialize (R K). rewrite Ey in R. destruct R as [R|(d & a & R & NS & F)].
      + rewrite R in Hi. destruct B as [[-> _]|[[-> _]|[[-> _]|[-> _]]]]; cbn in Hi; intuition discriminate.
      + rewrite Forall_forall in F. specialize (F _ Hi). destruct B as [[-> _]|[[-> _]|[[-> _]|[-> _]]]]; discriminate F. }
  assert (Y : ttext s t = [c]).
  { rewrite Ey. rewrite X in KT. destruct B as [[-> ->]|[[-> ->]|[[-> ->]|[-> ->]]]]; exact (KT ltac:(discriminate)). }
  split; [exact X|]. split; [exact Y|]. rewrite (tlen_of s t y O Hy), <- Ey, Y. destruct B as [[-> _]|[[-> _]|[[-> _]|[-> _]]]]; reflexivity.
Qed.
Lemma bracket_split : forall s ts x y c k, bracket c k -> rlinked s ts -> ttexts s ts = x ++ c :: y ->
  exists a t b, ts = a ++ t :: b /\ kind t = k /\ tlen t = 1 /\ ttexts s a = x /\ ttexts s b = y.
Proof.
  intros s ts x y c k B. revert x y. induction ts as [|t ts IH]; intros x y L E; [destruct x; discriminate|].
  destruct (rlinked_tok s _ t L (or_introl eq_refl)) as [O R]. rewrite ttexts_cons in E. apply app_eq_mid in E. destruct E as [(z & -> & E)|(z & E & ->)].
  - destruct (rlinked_app s [t] ts L) as [_ L']. destruct (IH _ _ L' E) as (a & u & b & -> & K & T & <- & <-). exists (t :: a), u, b. repeat split; auto.
  - assert (Hi : In c (ttext s t)) by (rewrite E; apply in_or_app; right; left; reflexivity).
    destruct (bracket_tok s t c k B O R Hi) as (K & Y & T). rewrite Y in E. destruct x as [|? [|? ?]]; try discriminate. injection E as <-. exists [], t, ts. repeat split; auto.
Qed.
Lemma no_rsquare : forall s ts, rlinked s ts -> ~ In c_rsquare (ttexts s ts) -> free is_right_bracket ts.
Proof.
  intros s ts L H. apply Forall_forall. intros t Ht. destruct (is_right_bracket t) eqn:E; [|reflexivity]. exfalso. apply H. apply in_flat_map. exists t. split; [exact Ht|].
  destruct (rlinked_tok s ts t L Ht) as [(y & Hy & _ & KT & _) _]. unfold is_right_bracket in E. apply andb_true_iff in E. destruct E as [E _]. apply kind_eqb_eq in E.
  rewrite E in KT. specialize (KT ltac:(discriminate)). cbn in KT. subst y. unfold ttext. rewrite Hy. left. reflexivity.
Qed.
Lemma no_text : forall s ts, rlinked s ts -> ttexts s ts = [] -> ts = [].
Proof.
  intros s [|t ts] L E; [reflexivity|]. exfalso. destruct (rlinked_tok s _ t L (or_introl eq_refl)) as [(y & Hy & NE & _) _]. rewrite ttexts_cons in E. apply app_eq_nil in E. destruct E as [E _].
  unfold ttext in E. rewrite Hy in E. congruence.
Qed.
Lemma bracket_test : forall t k, kind t = k -> tlen t = 1 -> kind_eqb (kind t) k && (tlen t =? 1) = true.
Proof. intros t k H1 H2. rewrite H1, H2. rewrite (proj2 (kind_eqb_eq k k) eq_refl). reflexivity. Qed.

(** The tokens of a link. *)
Lemma anchor_tokens : forall o k c rest, wf (Node NAnchor o k c) -> every tight (Node NAnchor o k c) rest ->
  exists u b v p d q, yield (Node NAnchor o k c) = u :: b ++ v :: p :: d ++ [q] /\ is_right_bracket u = false /\ free is_right_bracket b
    /\ is_right_bracket v = true /\ is_left_paren p = true /\ kind q = RightParenthesis.
Proof.
  intros o k c rest W T. inversion W as [| |? ? ? ? Wk Sh]; subst. destruct Sh as (-> & -> & t & d & -> & (o1 & k1 & c1 & ->) & (o2 & k2 & c2 & ->)).
  inversion Wk as [|? ? W1 Wk']; subst. inversion Wk' as [|? ? W2 _]; subst.
  inversion W1 as [| |? ? ? ? _ S1]; subst. inversion W2 as [| |? ? ? ? _ S2]; subst.
  destruct S1 as ((u & -> & U) & (b1 & ->) & (v & -> & V)). destruct S2 as ((p & -> & P) & (b2 & ->) & (q & -> & Q)).
  apply every_node in T. destruct T as [_ T]. destruct T as [T _]. apply every_node in T. destruct T as [(b & E & F) _]. injection E as <-.
  exists u, b1, v, p, b2, q. split; [cbn; rewrite !app_nil_r, <- !app_assoc; reflexivity|]. split.
  { unfold is_left_bracket in U. apply andb_true_iff in U. destruct U as [U _]. apply kind_eqb_eq in U. unfold is_right_bracket. rewrite U. reflexivity. }
  split; [exact F|]. split; [exact V|]. split; [exact P|].
  apply kind_eqb_eq in Q. exact Q.
Qed.

Lemma heads_linkless : forall s k rest, Forall wf k -> items in_heading k -> rlinked s (yields k) -> everys tight k rest -> none_missed opens_anchor k ->
  linkless (flat_map (head_of s) k).
Proof.
  intros s k rest. induction k as [|t k IH]; intros W It L T N; [exact I|]. apply items_cons_inv in It. destruct It as [It Ik]. inversion W as [|? ? W1 W2]; subst. destruct T as [T1 T2].
  cbn in L. fold (yields k) in L. pose proof (rlinked_app _ _ _ L) as [L1 L2].
  destruct t as [b|ts|n o kk c]; [|contradiction|].
  2:{ destruct n; try discriminate It. cbn. apply IH; auto. }
  cbn [none_missed] in N. destruct N as [N0 N]. specialize (IH W2 Ik L2 T2 N). cbn [flat_map head_of app linkless]. split; [|exact IH].
  assert (Hk : k = [] \/ exists o kk c k', k = Node NAnchor o kk c :: k').
  { destruct k as [|[b2|ts2|n o kk c] k]; [left; reflexivity|destruct It; contradiction|destruct Ik|]. destruct Ik as [Ik _]. destruct n; try discriminate Ik. right. eauto 6. }
  cbn [yield] in L1. intros (a & t & u & v & E & Ln & Nt).
  destruct Hk as [->|(o & kk & c & k' & ->)].
  - cbn [flat_map] in E. rewrite app_nil_r in E.
    destruct (bracket_split s b a _ c_lsquare _ ltac:(left; split; reflexivity) L1 E) as (b1 & x1 & b2 & -> & K1 & T1' & E1 & E2). apply rlinked_app in L1. destruct L1 as [_ L1].
    apply (rlinked_app _ [x1]) in L1. destruct L1 as [_ L1].
    destruct (bracket_split s b2 t _ c_rsquare _ ltac:(right; left; split; reflexivity) L1 E2) as (b3 & x2 & b4 & -> & K2 & T2' & E3 & E4).
    pose proof (rlinked_app _ _ _ L1) as [L3 L4]. apply (rlinked_app _ [x2]) in L4. destruct L4 as [_ L4].
    destruct (bracket_split s b4 [] _ c_lparen _ ltac:(right; right; left; split; reflexivity) L4 E4) as (b5 & x3 & b6 & -> & K3 & T3' & E5 & E6).
    pose proof (rlinked_app _ _ _ L4) as [L5 L6]. apply (no_text s b5 L5) in E5. subst b5. apply (rlinked_app _ [x3]) in L6. destruct L6 as [_ L6]. cbn [app] in *.
    destruct (bracket_split s b6 u _ c_rparen _ ltac:(right; right; right; split; reflexivity) L6 E6) as (b7 & x4 & b8 & -> & K4 & T4' & E7 & E8).
    apply (N0 b1 (x1 :: b3 ++ x2 :: x3 :: b7 ++ x4 :: b8) eq_refl ltac:(discriminate)). cbn [yields flat_map]. rewrite app_nil_r.
    exists x1, b3, x2, x3, b7, x4, b8. split; [reflexivity|]. split; [apply bracket_test; assumption|]. split; [apply (no_rsquare s); [exact L3|rewrite E3; exact Nt]|].
    split; [apply bracket_test; assumption|]. split; [apply bracket_test; assumption|exact K4].
  - cbn [flat_map head_of app] in E. destruct T2 as [T2 _]. inversion W2 as [|? ? Wa _]; subst.
    destruct (anchor_tokens _ _ _ _ Wa T2) as (w & bb & vv & pp & dd & qq & Ey & Kw & Fb & Kv & Kp & Kq).
    assert (Ea : exists z, ttexts s b = a ++ c_lsquare :: z /\ z ++ [c_lsquare; c_rsquare; c_lparen; c_rparen] = t ++ c_rsquare :: c_lparen :: u ++ c_rparen :: v).
    { apply app_eq_mid in E. destruct E as [(z & -> & _)|(z & E1 & E2)]; [rewrite app_length in Ln; lia|]. exists z. auto. }
    destruct Ea as (z & E1 & E2). 
    destruct (bracket_split s b a _ c_lsquare _ ltac:(left; split; reflexivity) L1 E1) as (b1 & x1 & b2 & -> & K1 & T1' & E1' & E2'). apply rlinked_app in L1. destruct L1 as [_ L1].
    apply (rlinked_app _ [x1]) in L1. destruct L1 as [_ L1]. subst z.
    apply app_eq_mid in E2. destruct E2 as [(z & -> & _)|(z & E2 & E3)].
    + apply (N0 b1 (x1 :: b2) eq_refl ltac:(discriminate)). cbn [yields flat_map]. rewrite Ey. fold (yields k').
      exists x1, (b2 ++ w :: bb), vv, pp, dd, qq, (yields k'). split; [repeat (cbn [app]; rewrite <- app_assoc); reflexivity|]. split; [apply bracket_test; assumption|].
      split; [|auto]. apply Forall_app. split; [apply (no_rsquare s); [exact L1|intros X; apply Nt; apply in_or_app; left; exact X]|].
      constructor; [exact Kw|exact Fb].
    + destruct (bracket_split s b2 t _ c_rsquare _ ltac:(right; left; split; reflexivity) L1 E2) as (b3 & x2 & b4 & -> & K2 & T2' & E5 & E6).
      pose proof (rlinked_app _ _ _ L1) as [L3 L4]. apply (rlinked_app _ [x2]) in L4. destruct L4 as [_ L4]. subst z.
      destruct (ttexts s b4) as [|y z] eqn:E4; [discriminate E3|]. cbn [app] in E3. injection E3 as <- E3.
      destruct (bracket_split s b4 [] _ c_lparen _ ltac:(right; right; left; split; reflexivity) L4 E4) as (b5 & x3 & b6 & -> & K3 & T3' & E7 & E8).
      pose proof (rlinked_app _ _ _ L4) as [L5 _]. apply (no_text s b5 L5) in E7. subst b5. cbn [app] in *.
      apply (N0 b1 (x1 :: b3 ++ x2 :: x3 :: b6) eq_refl ltac:(discriminate)). cbn [yields flat_map]. rewrite Ey. fold (yields k').
      exists x1, b3, x2, x3, (b6 ++ w :: bb ++ vv :: pp :: dd), qq, (yields k'). split; [repeat (cbn [app]; rewrite <- app_assoc); reflexivity|].
      split; [apply bracket_test; assumption|]. split; [apply (no_rsquare s); [exact L3|rewrite E5; exact Nt]|].
      split; [apply bracket_test; assumption|]. split; [apply bracket_test; assumption|exact Kq].
Qed.
