(** Position of nodes in the op stream of [parse]: closing delimiters, metadata, blank lines. *)
From Coq Require Import String ZArith.
From Verif Require Import Base Lexer LexSpec LexProofs LexFacts Ops Parser FParser Refine Refine2 Refine3
  Wf TokFacts StreamSpec StreamProofs StreamProofs2 Lines.

(** ** Delimiter texts, node by node *)

Lemma forest_start : forall lvl ks es n x, forest lvl ks es -> In (Start n, x) es ->
  exists lvl' inner c, model lvl' n x inner c.
Proof.
  intros lvl ks es n x H. induction H as [|lvl z ks es H IH|lvl n0 o c inner body ks es M H1 IH1 H2 IH2]; intros Hi.
  - contradiction.
  - destruct Hi as [Hi|Hi]; [discriminate|auto].
  - destruct Hi as [Hi|Hi].
    + injection Hi as <- <-. eauto.
    + apply in_app_or in Hi. destruct Hi as [Hi|[Hi|Hi]]; [auto|discriminate|auto].
Qed.
Lemma forest_end : forall lvl ks es n x, forest lvl ks es -> In (End n, x) es ->
  exists lvl' o inner, model lvl' n o inner x.
Proof.
  intros lvl ks es n x H. induction H as [|lvl z ks es H IH|lvl n0 o c inner body ks es M H1 IH1 H2 IH2]; intros Hi.
  - contradiction.
  - destruct Hi as [Hi|Hi]; [discriminate|auto].
  - destruct Hi as [Hi|Hi]; [discriminate|].
    apply in_app_or in Hi. destruct Hi as [Hi|[Hi|Hi]]; [auto| |auto]. injection Hi as <- <-. eauto.
Qed.

(** The texts a [Start] and an [End] may have. *)
Definition start_delim (n : node) (x : str) : Prop :=
  match n with
  | NMetadata => x = s_ "---" | NTitle => x = s_ "[" | NDestination => x = s_ "(" | NItalic => x = s_ "_"
  | NStrikethrough => x = s_ "~~" | NEmphasis => x = s_ "*" | NCodeSpan => x = s_ "`" | NBold => x = s_ "**"
  | NImage => x = s_ "!" | NEmbed => x = s_ "{{" | NIcon => x = s_ "! "
  | NHeading => exists l, 1 <= l <= 6 /\ x = repeat c_hash l ++ [c_space]
  | NListItem => exists lvl m, (m = c_minus \/ m = c_plus) /\ x = repeat c_space lvl ++ [m; c_space]
  | NHighlight => x = s_ "!! " \/ exists e, newline e /\ x = s_ "!!" ++ e
  | NCode => x = s_ "```" \/ exists e, newline e /\ x = s_ "```" ++ e
  | NCollapsible => exists e, x = s_ "{%" ++ e /\ (newline e \/ exists l, e = repeat c_space (S l))
  | NAnchor | NDocument | NImages | NModifier | NOrderedList | NParagraph | NThematicBreak
  | NUnorderedList => x = []
  end.
Definition end_delim (n : node) (x : str) : Prop :=
  match n with
  | NMetadata => x = s_ "---" | NTitle => x = s_ "]" | NDestination => x = s_ ")" | NItalic => x = s_ "_"
  | NStrikethrough => x = s_ "~~" | NEmphasis => x = s_ "*" | NCodeSpan => x = s_ "`" | NBold => x = s_ "**"
  | NImage => x = [] \/ newline x
  | NIcon => newline x
  | NModifier => newline x \/ blank_line x
  | NEmbed => opt_newline (s_ "}}") x
  | NHighlight => opt_newline (s_ "!!") x
  | NCode => opt_newline (s_ "```") x
  | NCollapsible => opt_newline (s_ "%}") x
  | NAnchor | NDocument | NImages | NOrderedList | NParagraph | NThematicBreak | NUnorderedList
  | NHeading | NListItem => x = []
  end.

Lemma model_start : forall lvl n o ks c, model lvl n o ks c -> start_delim n o.
Proof.
  intros lvl n o ks c H. destruct n; cbn [model start_delim] in *; unfold delimited in *; try (apply H).
  - destruct H as [(k1 & x & _ & [[H _]|(e & H1 & H2 & _)]) _]; eauto.
  - destruct H as [(k1 & k2 & k3 & _ & _ & _ & [[H _]|(e & H1 & H2 & _)]) _]; eauto.
  - destruct H as [(m & H) _]. eauto.
Qed.
Lemma model_end : forall lvl n o ks c, model lvl n o ks c -> end_delim n c.
Proof. intros lvl n o ks c H. destruct n; cbn [model end_delim] in *; unfold delimited in *; apply H. Qed.

Lemma reads_fun : forall s os es es', reads s os es -> reads s os es' -> es = es'.
Proof.
  intros s os es es' H. revert es'. induction H as [|o [k x] os es [H1 H2] H IH]; intros es' H'.
  - inversion H'. reflexivity.
  - inversion H' as [|? [k' x'] ? es2 [H3 H4] H5]; subst. cbn in *. f_equal; [congruence|]. apply IH. exact H5.
Qed.

Lemma stream_delims : forall s ops es, parse s = Ok ops -> reads s ops es ->
  (forall n x, In (Start n, x) es -> start_delim n x) /\ (forall n x, In (End n, x) es -> end_delim n x).
Proof.
  intros s ops es H R. rewrite (reads_fun s ops es (stream s) R (parse_reads s ops H)).
  destruct (stream_valid s) as (k1 & _ & F). split; intros n x Hi.
  - destruct (forest_start _ _ _ _ _ F Hi) as (lvl & i & c & M). eapply model_start; eauto.
  - destruct (forest_end _ _ _ _ _ F Hi) as (lvl & o & i & M). eapply model_end; eauto.
Qed.

Lemma one_eol_hd : forall f ts, one_eol f ts -> exists t r, ts = t :: r /\ f t = true.
Proof. intros f ts (t & H & [->|(e & -> & _)]); eauto. Qed.
Lemma two_hd : forall f g ts, two f g ts -> exists t r, ts = t :: r /\ f t = true.
Proof. intros f g ts (t & u & -> & H & _). eauto. Qed.

Ltac kind_of H := let H' := fresh in pose proof H as H';
  repeat (apply andb_true_iff in H'; destruct H' as [H' ?]); apply kind_eqb_eq in H'; exact H'.
Ltac col_of H := let H' := fresh in pose proof H as H';
  unfold is_backtick3, is_two_bangs, is_collapsible_start, is_collapsible_end, is_three_dashes, is_left_curly2 in H';
  rewrite ?andb_true_iff in H'; tauto.

(** ** Metadata only in front *)

Lemma forest_no_metadata : forall lvl ks es, forest lvl ks es ->
  (forall o, ~ In (LNode NMetadata o) ks) -> forall x, ~ In (Start NMetadata, x) es.
Proof.
  intros lvl ks es H. induction H as [|lvl z ks es H IH|lvl n o c inner body ks es M H1 IH1 H2 IH2]; intros N x Hi.
  - contradiction.
  - destruct Hi as [Hi|Hi]; [discriminate|]. revert Hi. apply IH. intros o' Ho. apply (N o'). right. exact Ho.
  - destruct Hi as [Hi|Hi].
    + injection Hi as -> _. apply (N o). left. reflexivity.
    + apply in_app_or in Hi. destruct Hi as [Hi|[Hi|Hi]]; [|discriminate|].
      * revert Hi. apply IH1. clear - M. intros o' Ho.
        assert (OT : one_text inner -> False) by (intros (z & ->); destruct Ho as [Ho|[]]; discriminate).
        assert (MX : forall P, P NMetadata = false -> mixed P inner -> False).
        { intros P PN Mx. clear - Ho PN Mx. induction inner as [|[z|m o2] r IH]; [contradiction| |].
          - destruct Ho as [Ho|Ho]; [discriminate|]. apply IH; [exact Ho|apply Mx].
          - destruct Mx as [M1 M2]. destruct Ho as [Ho|Ho]; [injection Ho as -> _; congruence|auto]. }
        assert (OP : forall m k, m <> NMetadata -> optional m k -> ~ In (LNode NMetadata o') k).
        { intros m k Nm [->|(o2 & ->)] Hx; [contradiction|]. destruct Hx as [Hx|[]]. injection Hx as Hx _. congruence. }
        destruct n; cbn [model] in M; unfold delimited in M;
        try (apply OT; apply M); try (eapply MX; [|apply M]; reflexivity).
        -- destruct M as (_ & (a & b & ->) & _). destruct Ho as [Ho|[Ho|[]]]; discriminate.
        -- destruct M as ((k1 & z & -> & M) & _). apply in_app_or in Ho. destruct Ho as [Ho|[Ho|[]]]; [|discriminate].
           destruct M as [[_ M]|(e & _ & _ & ->)]; [|contradiction]. revert Ho. eapply OP; eauto. discriminate.
        -- destruct M as (_ & (k1 & -> & M) & _). apply in_app_or in Ho. destruct Ho as [Ho|[Ho|[]]]; [|discriminate].
           revert Ho. eapply OP; eauto. discriminate.
        -- destruct M as (_ & M & _). rewrite Forall_forall in M. apply (M _ Ho).
        -- destruct M as (_ & (a & b & ->) & _). destruct Ho as [Ho|[Ho|[Ho|[]]]]; discriminate.
        -- destruct M as ((k1 & k2 & k3 & -> & M2 & M3 & M) & _).
           apply in_app_or in Ho. destruct Ho as [Ho|Ho].
           { destruct M as [[_ M]|(e & _ & _ & ->)]; [|contradiction]. revert Ho. eapply OP; eauto. discriminate. }
           apply in_app_or in Ho. destruct Ho as [Ho|Ho]; [revert Ho; eapply OP; eauto; discriminate|].
           clear - M3 Ho. induction M3; [contradiction| |]; repeat (destruct Ho as [Ho|Ho]; [discriminate|]); auto.
        -- destruct M as (_ & (a & b & ->) & _). destruct Ho as [Ho|[Ho|[]]]; discriminate.
        -- destruct M as (_ & _ & M & _). rewrite Forall_forall in M. apply M in Ho. discriminate.
        -- destruct M as (_ & [->|(n' & [->| ->] & ->)] & _); repeat (destruct Ho as [Ho|Ho]; [discriminate|]); contradiction.
        -- destruct M as (_ & _ & M & _). rewrite Forall_forall in M. apply M in Ho. discriminate.
        -- destruct M as (_ & -> & _). destruct Ho as [Ho|[]]; discriminate.
        -- destruct M as (_ & _ & M & _). rewrite Forall_forall in M. apply M in Ho. discriminate.
      * revert Hi. apply IH2. intros o' Ho. apply (N o'). right. exact Ho.
Qed.

Lemma forest_balanced : forall lvl ks es, forest lvl ks es -> balanced (map fst es).
Proof.
  induction 1; cbn; [constructor|constructor; assumption|]. rewrite map_app. cbn. constructor; assumption.
Qed.

Lemma reads_kinds : forall s os es, reads s os es -> map op_kind_of os = map fst es.
Proof. induction 1 as [|o e os es [H _] R IH]; [reflexivity|]. cbn. rewrite H, IH. reflexivity. Qed.

Definition three_dashes_first (s : str) : Prop :=
  exists r, s = s_ "---" ++ r /\ forall r', r <> c_minus :: r'.

Lemma metadata_front : forall s t r, spec_tokens s = t :: r -> is_three_dashes t = true -> three_dashes_first s.
Proof.
  intros s t r E H. assert (O : tok_ok s t).
  { destruct (spec_linked s) as [L _]. rewrite E in L. inversion L; assumption. }
  destruct (spec_raw s) as (tl & S1 & _). rewrite E in S1. cbn [raw_toks flat_map] in S1.
  assert (Kt : kind t = Minus) by (kind_of H).
  unfold raw_tok in S1 at 1.
  assert (Et : escaped t = false).
  { destruct O as (x & _ & _ & _ & Hx). destruct (escaped t); [|reflexivity]. rewrite (Hx eq_refl) in Kt. discriminate. }
  rewrite Et, (x_three_dashes s t O H) in S1. cbn [app] in S1.
  exists (flat_map (raw_tok s) r ++ tl). split; [rewrite S1 at 1; rewrite <- app_assoc; reflexivity|].
  intros r' Er. assert (X : exists r2, s = repeat c_minus 4 ++ r2).
  { exists r'. rewrite S1 at 1. rewrite <- app_assoc, Er. reflexivity. }
  (* a longer run would be one longer token *)
  destruct X as [r2 X].
  destruct r as [|u r].
  { cbn in Er. destruct (spec_raw s) as (tl' & S2 & T). rewrite E in S2. cbn [raw_toks flat_map] in S2.
    unfold raw_tok in S2. rewrite Et, (x_three_dashes s t O H) in S2. rewrite X in S2 at 1. cbn in S2.
    destruct T as [->| ->]; discriminate. }
  cbn [flat_map] in Er. rewrite <- app_assoc in Er.
  assert (Ou : tok_ok s u).
  { destruct (spec_linked s) as [L _]. rewrite E in L. inversion L as [|? ? _ L']; subst. inversion L'; assumption. }
  pose proof (spec_linked s) as L. rewrite E in L. pose proof (linked_pair s [] t u r L) as (_ & _ & J & _).
  unfold raw_tok in Er at 1. destruct (escaped u) eqn:Eu; [cbn in Er; discriminate|]. cbn [app] in Er.
  assert (NK : kind u <> Minus).
  { intros K. apply (J eq_refl); [rewrite Kt; reflexivity|congruence]. }
  (* the text of an unescaped token starts with '-' only if it is a Minus token *)
  assert (Iu : In u (spec_tokens s)) by (rewrite E; right; left; reflexivity).
  destruct (token_kinds s _ u (lex_correct s) Iu) as (x & Xu & Ku). unfold token_text in Xu.
  assert (Tx : ttext s u = x) by (unfold ttext; rewrite Xu; reflexivity). rewrite Tx in Er. rewrite Eu in Ku.
  destruct x as [|c x]; [apply kind_text_nonempty in Ku; congruence|]. cbn in Er. injection Er as -> _.
  clear - NK Ku. revert NK Ku. generalize (kind u). intros k NK Ku.
  assert (R : forall d, d <> c_minus -> ~ exists n, c_minus :: x = repeat d (S n)).
  { intros d D [n E]. cbn in E. injection E as E _. congruence. }
  destruct k; cbn [kind_text] in Ku; try congruence; try discriminate;
    try (exfalso; eapply R; [|exact Ku]; discriminate).
  - destruct Ku as (a & b & Ku & [->| ->] & _); discriminate.
  - destruct Ku as [Ku|Ku]; discriminate.
  - destruct Ku as (c & a & Ku & _ & Sp). injection Ku as <- <-. destruct (Sp eq_refl) as [Sp' _]. discriminate.
Qed.

Lemma parse_top : forall s ops, parse s = Ok ops ->
  exists m d, map op_kind_of ops = m ++ Start NDocument :: d ++ [End NDocument]
    /\ balanced d /\ ~ In (Start NMetadata) d
    /\ (m = [] \/ (m = [Start NMetadata; Value; End NMetadata] /\ three_dashes_first s)).
Proof.
  intros s ops H. rewrite (reads_kinds _ _ _ (parse_reads s ops H)).
  destruct (stream_valid s) as (k1 & O & F).
  assert (G : forall es, forest 0 [LNode NDocument []] es ->
     exists d, map fst es = Start NDocument :: d ++ [End NDocument] /\ balanced d /\ ~ In (Start NMetadata) d).
  { intros es Fe. inversion Fe as [| |? ? ? c inner body ? es' M F1 F2]; subst. inversion F2; subst.
    exists (map fst body). split; [cbn; rewrite map_app; reflexivity|]. split; [eapply forest_balanced; eauto|].
    intros X. apply in_map_iff in X. destruct X as ([k x] & E & X). cbn in E. subst k. revert X.
    eapply forest_no_metadata; [exact F1|]. intros o Ho. destruct M as (_ & M & _). rewrite Forall_forall in M. apply (M _ Ho). }
  destruct O as [->|(o & ->)].
  - destruct (G _ F) as (d & E & B & N). exists [], d. rewrite E. auto.
  - cbn in F. inversion F as [| |? ? ? c inner body ? es' M F1 F2]; subst. destruct (G _ F2) as (d & E & B & N).
    destruct M as (_ & (z & ->) & _). inversion F1 as [|? ? ? ? F3|]; subst. inversion F3; subst.
    exists [Start NMetadata; Value; End NMetadata], d. cbn. rewrite E. repeat split; auto. right. split; [reflexivity|].
    (* the first token *)
    match goal with X : _ = stream s |- _ => rename X into ES end.
    assert (X : exists t r, spec_tokens s = t :: r /\ is_three_dashes t = true).
    { destruct (parse_refines s) as [_ Fl]. unfold stream in ES. destruct (fparse_wf (spec_tokens s)) as [W (k1 & dd & Ek & R & [Ok|(t & -> & R1)])].
      - subst k1. rewrite Ek in ES. destruct R as (o' & k' & c' & ->). cbn in ES. discriminate.
      - rewrite Ek in *. destruct R1 as (o' & k' & c' & ->). inversion W as [|? ? W1 _]; subst.
        inversion W1 as [| |? ? ? ? _ Sh]; subst. destruct Sh as ((t & -> & Et) & _). cbn in Fl.
        apply flips_cons in Fl. destruct Fl as (u & r & Eu & Fu & _). exists u, r. split; [exact Eu|].
        assert (u = t); [|subst; exact Et]. apply flip_same; [exact Fu|]. assert (K : kind t = Minus) by (kind_of Et). congruence. }
    destruct X as (t & r & Et & T). eapply metadata_front; eauto.
Qed.

(** ** Nodes in the stream and in the tree *)

Fixpoint depth (l : list op_kind) (d : Z) : Z :=
  match l with
  | [] => d
  | Start _ :: l' => depth l' (d + 1)%Z
  | End _ :: l' => depth l' (d - 1)%Z
  | Value :: l' => depth l' d
  end.
Lemma depth_app : forall a b d, depth (a ++ b) d = depth b (depth a d).
Proof. induction a as [|[n|n|] a IH]; intros b d; cbn; auto. Qed.
Lemma balanced_depth : forall l, balanced l -> forall d, depth l d = d.
Proof.
  induction 1 as [|l H IH|n a l Ha IHa Hl IHl]; intros d; cbn; [reflexivity|apply IH|].
  rewrite depth_app, IHa. cbn. rewrite IHl. lia.
Qed.
Lemma balanced_prefix : forall l, balanced l -> forall a b d, l = a ++ b -> (d <= depth a d)%Z.
Proof.
  induction 1 as [|l H IH|n m l Hm IHm Hl IHl]; intros a b d E.
  - symmetry in E. apply app_eq_nil in E. destruct E as [-> _]. cbn. lia.
  - destruct a as [|x a]; [cbn; lia|]. injection E as <- E. cbn. eapply IH; eauto.
  - destruct a as [|x a]; [cbn; lia|]. injection E as <- E. cbn.
    destruct (Nat.le_gt_cases (List.length a) (List.length m)) as [L|L].
    + apply (f_equal (firstn (List.length a))) in E. rewrite !firstn_app in E.
      replace (List.length a - List.length m) with 0 in E by lia. rewrite Nat.sub_diag, !firstn_O, !app_nil_r, firstn_all in E.
      pose proof (IHm a (skipn (List.length a) m) (d + 1)%Z). rewrite <- E in H at 1. rewrite firstn_skipn in H. specialize (H eq_refl). lia.
    + assert (X : exists a', a = m ++ a').
      { exists (skipn (List.length m) a). rewrite <- (firstn_skipn (List.length m) a) at 1. f_equal.
        apply (f_equal (firstn (List.length m))) in E. rewrite !firstn_app in E.
        replace (List.length m - List.length a) with 0 in E by lia. rewrite Nat.sub_diag, !firstn_O, !app_nil_r, firstn_all in E. auto. }
      destruct X as [a' ->]. rewrite <- app_assoc in E. apply app_inv_head in E. destruct a' as [|y a'].
      * rewrite app_length in L. cbn in L. lia.
      * injection E as <- E. rewrite depth_app, (balanced_depth m Hm). cbn.
        pose proof (IHl a' b (d + 1 - 1)%Z E). lia.
Qed.

Lemma balanced_unique : forall a b n m x y, balanced a -> balanced b -> a ++ End n :: x = b ++ End m :: y -> a = b.
Proof.
  assert (G : forall a b n m x y, balanced a -> balanced b -> a ++ End n :: x = b ++ End m :: y ->
              List.length b <= List.length a).
  { intros a b n m x y Ha Hb E. destruct (Nat.le_gt_cases (List.length b) (List.length a)) as [L|L]; [exact L|exfalso].
    assert (X : exists r, b = (a ++ [End n]) ++ r).
    { exists (skipn (S (List.length a)) b).
      rewrite <- (firstn_skipn (S (List.length a)) b) at 1. f_equal.
      apply (f_equal (firstn (S (List.length a)))) in E. rewrite !firstn_app in E.
      replace (S (List.length a) - List.length b) with 0 in E by lia.
      replace (S (List.length a) - List.length a) with 1 in E by lia. rewrite (firstn_all2 a) in E by lia.
      cbn [firstn] in E. rewrite app_nil_r in E. symmetry. exact E. }
    destruct X as [r X]. pose proof (balanced_prefix b Hb (a ++ [End n]) r 0%Z X) as P.
    rewrite depth_app, (balanced_depth a Ha) in P. cbn in P. lia. }
  intros a b n m x y Ha Hb E. pose proof (G _ _ _ _ _ _ Ha Hb E). pose proof (G _ _ _ _ _ _ Hb Ha (eq_sym E)).
  apply (f_equal (firstn (List.length a))) in E. rewrite !firstn_app in E.
  replace (List.length a - List.length b) with 0 in E by lia. rewrite Nat.sub_diag, !firstn_O, !app_nil_r in E.
  rewrite firstn_all, (firstn_all2 b) in E by lia. exact E.
Qed.

(** A [Start] in the events of a tree belongs to a node of the tree. *)
Definition located (P : node -> list token -> list tree -> list token -> list token -> Prop) (s : str) (rest : list token) (es : list event) (ys : list token) (a : list event) (n : node) (x : str) (r : list event) : Prop :=
  exists ta o k c tb r', wf (Node n o k c) /\ ys = ta ++ (o ++ yields k ++ c) ++ tb
    /\ x = ttexts s o /\ r = tevents_all s k ++ (End n, ttexts s c) :: r' /\ covered a (ttexts s ta)
    /\ (es = a ++ (Start n, x) :: r /\ (r' = [] -> tb = [])) /\ every P (Node n o k c) (tb ++ rest).

Ltac parts := repeat match goal with |- _ /\ _ => split end.
Lemma tree_located : forall P s t, wf t -> linked s (yield t) -> forall rest, every P t rest ->
  forall a n x r, tevents s t = a ++ (Start n, x) :: r -> located P s rest (tevents s t) (yield t) a n x r.
Proof.
  intros P s. induction t as [ts|ts|n0 o k c IH] using tree_ind'; intros W L rest Ev a n x r E.
  - destruct a as [|? [|? a]]; discriminate.
  - destruct a; discriminate.
  - inversion W as [| |? ? ? ? Wk Sh]; subst. pose proof Ev as Evk. apply every_node in Evk. destruct Evk as [_ Evk]. cbn [tevents] in E. fold (tevents_all s k) in E.
    cbn [yield] in L. fold (yields k) in L.
    destruct a as [|y a].
    + injection E as <- <- <-. exists [], o, k, c, [], []. parts; auto.
      * cbn. rewrite app_nil_r. reflexivity.
      * constructor.
    + injection E as <- E. apply linked_app in L. destruct L as [_ L]. apply linked_app in L. destruct L as [L _].
      assert (G : forall R k', Forall (fun t => wf t -> linked s (yield t) -> forall rest, every P t rest -> forall a n x r, tevents s t = a ++ (Start n, x) :: r ->
              located P s rest (tevents s t) (yield t) a n x r) k' -> Forall wf k' -> linked s (yields k') -> everys P k' R ->
              (Forall not_skip k' \/ exists k1 e, k' = k1 ++ [Skip [e]] /\ Forall not_skip k1) ->
              forall a z, tevents_all s k' ++ [(End n0, z)] = a ++ (Start n, x) :: r ->
              exists ta o2 k2 c2 tb r', wf (Node n o2 k2 c2) /\ yields k' = ta ++ (o2 ++ yields k2 ++ c2) ++ tb
                /\ x = ttexts s o2 /\ r = tevents_all s k2 ++ (End n, ttexts s c2) :: r' /\ covered a (ttexts s ta)
                /\ r' <> [] /\ every P (Node n o2 k2 c2) (tb ++ R)).
      { clear. induction k' as [|t k' IHk]; intros IH W L Ev N a z E.
        - destruct a as [|? [|? a]]; cbn in E; discriminate.
        - inversion IH as [|? ? IH1 IH2]; subst. inversion W as [|? ? W1 W2]; subst.
          destruct Ev as [Ev1 Ev2]. cbn in L. apply linked_app in L. destruct L as [L1 L2].
          change (tevents_all s (t :: k')) with (tevents s t ++ tevents_all s k') in E. rewrite <- app_assoc in E.
          destruct (Nat.le_gt_cases (List.length (tevents s t)) (List.length a)) as [Le|Lt].
          + (* later *)
            assert (X : exists a', a = tevents s t ++ a').
            { exists (skipn (List.length (tevents s t)) a). rewrite <- (firstn_skipn (List.length (tevents s t)) a) at 1. f_equal.
              apply (f_equal (firstn (List.length (tevents s t)))) in E. rewrite !firstn_app in E.
              replace (List.length (tevents s t) - List.length a) with 0 in E by lia.
              rewrite Nat.sub_diag, !firstn_O, !app_nil_r, firstn_all in E. auto. }
            destruct X as [a' ->]. rewrite <- app_assoc in E. apply app_inv_head in E.
            assert (NS : (exists e, t = Skip [e] /\ k' = []) \/ (not_skip t /\ (Forall not_skip k' \/ exists k1 e, k' = k1 ++ [Skip [e]] /\ Forall not_skip k1))).
            { destruct N as [N|(k1 & e & Ek & N)].
              - inversion N; subst. auto.
              - destruct k1 as [|u k1]; cbn in Ek; injection Ek as -> ->; [eauto|]. inversion N; subst. right. split; [assumption|]. eauto. }
            destruct NS as [(e & -> & ->)|[NS N']].
            { cbn in E. destruct a' as [|? [|? a']]; cbn in E; discriminate. }
            destruct (IHk IH2 W2 L2 Ev2 N' a' z E) as (ta & o2 & k2 & c2 & tb & r' & H1 & H2 & H3 & H4 & H5 & H7 & H6).
            exists (yield t ++ ta), o2, k2, c2, tb, r'. parts; auto.
            * cbn. fold (yields k'). rewrite H2. rewrite <- !app_assoc. reflexivity.
            * rewrite ttexts_app. apply covered_app; [apply tree_covered; assumption|exact H5].
          + (* in this tree *)
            assert (X : exists r0, tevents s t = a ++ (Start n, x) :: r0 /\ r = r0 ++ tevents_all s k' ++ [(End n0, z)]).
            { clear - E Lt. revert E Lt. generalize (tevents s t). generalize (tevents_all s k' ++ [(End n0, z)]).
              induction a as [|y a IHa]; intros l l0 E Lt; (destruct l0 as [|w l0]; [cbn in Lt; lia|]); injection E as -> E.
              - exists l0. auto.
              - cbn in Lt. destruct (IHa l l0 E) as (r0 & H1 & H2); [lia|]. exists r0. cbn. rewrite H1. auto. }
            destruct X as (r0 & X & ->).
            destruct (IH1 W1 L1 _ Ev1 _ _ _ _ X) as (ta & o2 & k2 & c2 & tb & r' & H1 & H2 & H3 & H4 & H5 & _ & H6).
            exists ta, o2, k2, c2, (tb ++ yields k'), (r' ++ tevents_all s k' ++ [(End n0, z)]). parts; auto.
            * cbn. fold (yields k'). rewrite H2. rewrite <- !app_assoc. reflexivity.
            * rewrite H4, <- app_assoc. reflexivity.
            * rewrite app_assoc. intros X0. apply app_eq_nil in X0. destruct X0; discriminate.
            * rewrite <- app_assoc. exact H6. }
      assert (N : Forall not_skip k \/ exists k1 e, k = k1 ++ [Skip [e]] /\ Forall not_skip k1).
      { destruct (node_eq_dec n0 NCollapsible) as [->|NC]; [|left; eapply shape_not_skip; eauto].
        destruct Sh as (_ & _ & k1 & k2 & k3 & -> & H1 & [->|(e & -> & _)]).
        - left. apply Forall_app. split; [eapply opt_not_skip; eauto|repeat constructor].
        - right. exists (k1 ++ [Node NDocument [] k2 []]), e. split; [rewrite <- app_assoc; reflexivity|].
          apply Forall_app. split; [eapply opt_not_skip; eauto|repeat constructor]. }
      destruct (G _ k IH Wk L Evk N a _ E) as (ta & o2 & k2 & c2 & tb & r' & H1 & H2 & H3 & H4 & H5 & H7 & H6).
      exists (o ++ ta), o2, k2, c2, (tb ++ c), r'. parts; auto.
      * cbn. fold (yields k). rewrite H2, <- !app_assoc. reflexivity.
      * rewrite ttexts_app. constructor. exact H5.
      * cbn [tevents]. fold (tevents_all s k). rewrite E. reflexivity.
      * contradiction.
      * rewrite <- app_assoc. exact H6.
Qed.

Lemma trees_located : forall P s rest k, Forall wf k -> linked s (yields k) -> Forall not_skip k -> everys P k rest ->
  forall a n x r, tevents_all s k = a ++ (Start n, x) :: r ->
  located P s rest (tevents_all s k) (yields k) a n x r.
Proof.
  intros P s rest k. induction k as [|t k IH]; intros W L N Ev a n x r E; [destruct a; discriminate|]. destruct Ev as [Ev1 Ev2].
  inversion W as [|? ? W1 W2]; subst. inversion N as [|? ? N1 N2]; subst.
  cbn in L. apply linked_app in L. destruct L as [L1 L2]. fold (yields k) in L2.
  change (tevents_all s (t :: k)) with (tevents s t ++ tevents_all s k) in E |- *.
  change (yields (t :: k)) with (yield t ++ yields k).
  destruct (Nat.le_gt_cases (List.length (tevents s t)) (List.length a)) as [Le|Lt].
  - assert (X : exists a', a = tevents s t ++ a').
    { exists (skipn (List.length (tevents s t)) a). rewrite <- (firstn_skipn (List.length (tevents s t)) a) at 1. f_equal.
      apply (f_equal (firstn (List.length (tevents s t)))) in E. rewrite !firstn_app in E.
      replace (List.length (tevents s t) - List.length a) with 0 in E by lia.
      rewrite Nat.sub_diag, !firstn_O, !app_nil_r, firstn_all in E. auto. }
    destruct X as [a' ->]. rewrite <- app_assoc in E. apply app_inv_head in E.
    destruct (IH W2 L2 N2 Ev2 _ _ _ _ E) as (ta & o2 & k2 & c2 & tb & r' & H1 & H2 & H3 & H4 & H5 & H6 & H7).
    exists (yield t ++ ta), o2, k2, c2, tb, r'. parts; auto.
    + rewrite H2, <- !app_assoc. reflexivity.
    + rewrite ttexts_app. apply covered_app; [apply tree_covered; assumption|exact H5].
    + rewrite E, <- app_assoc. reflexivity.
    + apply H6.
  - assert (X : exists r0, tevents s t = a ++ (Start n, x) :: r0 /\ r = r0 ++ tevents_all s k).
    { clear - E Lt. revert E Lt. generalize (tevents s t). generalize (tevents_all s k).
      induction a as [|y a IHa]; intros l l0 E Lt; (destruct l0 as [|w l0]; [cbn in Lt; lia|]); injection E as -> E.
      - exists l0. auto.
      - cbn in Lt. destruct (IHa l l0 E) as (r0 & H1 & H2); [lia|]. exists r0. cbn. rewrite H1. auto. }
    destruct X as (r0 & X & ->).
    destruct (tree_located P s t W1 L1 _ Ev1 _ _ _ _ X) as (ta & o2 & k2 & c2 & tb & r' & H1 & H2 & H3 & H4 & H5 & [_ H6] & H7).
    exists ta, o2, k2, c2, (tb ++ yields k), (r' ++ tevents_all s k). parts; auto.
    + rewrite H2, <- !app_assoc. reflexivity.
    + rewrite H4, <- app_assoc. reflexivity.
    + intros X0. apply app_eq_nil in X0. destruct X0 as [X1 X2]. rewrite (H6 X1). destruct k as [|u k]; [reflexivity|]. exfalso. inversion N2; subst. destruct u; [discriminate|contradiction|discriminate].
    + rewrite <- app_assoc. exact H7.
Qed.

Lemma tevents_balanced : forall s k, balanced (map fst (tevents_all s k)).
Proof.
  intros s. assert (G : forall t, balanced (map fst (tevents s t))).
  { induction t as [ts|ts|n o k c IH] using tree_ind'; [repeat constructor|constructor|].
    cbn. rewrite map_app. cbn. constructor; [|constructor].
    induction k as [|t k IHk]; [constructor|]. cbn. rewrite map_app. inversion IH; subst. apply balanced_app; auto. }
  intros k. unfold tevents_all. induction k as [|t k IH]; [constructor|]. cbn. rewrite map_app. apply balanced_app; auto.
Qed.

Lemma app_same_length : forall (A : Type) (a b c d : list A), List.length a = List.length b -> a ++ c = b ++ d -> a = b.
Proof.
  intros A. induction a as [|x a IH]; intros [|y b] c d L E; try discriminate; [reflexivity|].
  injection E as -> E. f_equal. eapply IH; eauto.
Qed.

(** A complete node in the events, with the source tokens in front of it and inside. *)
Lemma node_tokens : forall s ops es a n x mid y b, parse s = Ok ops -> reads s ops es ->
  es = a ++ (Start n, x) :: mid ++ (End n, y) :: b -> balanced (map fst mid) ->
  exists o k c ta tb, wf (Node n o k c) /\ flips (spec_tokens s) (ta ++ (o ++ yields k ++ c) ++ tb)
    /\ x = ttexts s o /\ mid = tevents_all s k /\ y = ttexts s c /\ covered a (ttexts s ta).
Proof.
  intros s ops es a n x mid y b H R E B.
  rewrite (reads_fun s ops es (stream s) R (parse_reads s ops H)) in E.
  destruct (fparse_wf (spec_tokens s)) as [W T].
  destruct (trees_located _ s [] _ W (fparse_linked s) (top_not_skip _ T) (fparse_tight s) _ _ _ _ E) as (ta & o & k & c & tb & r' & H1 & H2 & H3 & H4 & H5 & _ & H6).
  exists o, k, c, ta, tb. split; [exact H1|]. split; [rewrite <- H2; apply parse_refines|]. split; [exact H3|].
  assert (X : mid = tevents_all s k).
  { pose proof (f_equal (map fst) H4) as M. rewrite !map_app in M. cbn in M.
    apply balanced_unique in M; [|exact B|apply tevents_balanced].
    apply (f_equal (@List.length _)) in M. rewrite !map_length in M.
    eapply app_same_length; eauto. }
  split; [exact X|]. split; [|exact H5]. subst mid. apply app_inv_head in H4. congruence.
Qed.

Lemma concat_of_ttexts : forall s ts, vtok s ts -> concat_texts s ts = Ok (ttexts s ts).
Proof.
  intros s ts V. induction V as [|t ts [x Hx] V IH]; [reflexivity|]. cbn [concat_texts]. unfold token_text. rewrite Hx.
  cbn [bind]. rewrite IH. cbn [bind]. f_equal. change (ttexts s (t :: ts)) with (ttext s t ++ ttexts s ts). f_equal.
  unfold ttext. rewrite Hx. reflexivity.
Qed.

(** ** Children *)

Definition allowed (n m : node) : bool :=
  match n, m with
  | NAnchor, (NTitle | NDestination) | NImage, (NTitle | NDestination) => true
  | NBold, (NItalic | NStrikethrough) => true
  | NParagraph, (NAnchor | NBold | NItalic | NStrikethrough | NCodeSpan | NEmphasis) => true
  | NHeading, NAnchor => true
  | NImages, NImage => true
  | NUnorderedList, NListItem | NOrderedList, NListItem => true
  | NListItem, (NParagraph | NUnorderedList | NOrderedList) => true
  | NHighlight, (NModifier | NIcon | NParagraph) => true
  | NCode, NModifier => true
  | NCollapsible, (NModifier | NDocument) => true
  | NDocument, (NParagraph | NHeading | NImage | NImages | NCode | NEmbed | NHighlight | NCollapsible
                | NThematicBreak | NUnorderedList | NOrderedList) => true
  | _, _ => false
  end.
Definition kid_ok (n : node) (t : tree) : Prop := match t with Node m _ _ _ => allowed n m = true | _ => True end.

Lemma root_kid : forall n m t, root m t -> allowed n m = true -> kid_ok n t.
Proof. intros n m t (o & k & c & ->) H. exact H. Qed.
Lemma leaf_kid : forall n ts, kid_ok n (Leaf ts). Proof. intros; exact I. Qed.
Lemma opt_kid : forall n m k, opt_root m k -> allowed n m = true -> Forall (kid_ok n) k.
Proof. intros n m k [->|(t & -> & R)] H; repeat constructor. eapply root_kid; eauto. Qed.
Lemma items_kid : forall n P k, items P k -> (forall m, P m = true -> allowed n m = true) -> Forall (kid_ok n) k.
Proof.
  intros n P k. induction k as [|[ts|ts|m o k' c] k IH]; intros H HP; cbn in H; [constructor| |contradiction|].
  - constructor; [exact I|]. apply IH; [apply H|exact HP].
  - constructor; [apply HP; apply H|]. apply IH; [apply H|exact HP].
Qed.

Lemma shape_kids : forall n o k c, shape n o k c -> Forall (kid_ok n) k.
Proof.
  intros n o k c H. destruct n; cbn [shape] in H; try (destruct H as (_ & (b & ->) & _); repeat constructor; fail).
  - destruct H as (_ & _ & t & d & -> & R1 & R2). repeat constructor; eapply root_kid; eauto.
  - destruct H as (_ & H & _). eapply items_kid; [exact H|]. intros [] E; try discriminate; reflexivity.
  - destruct H as (_ & k1 & b & -> & H). apply Forall_app. split; [|repeat constructor].
    destruct H as [[_ H]|[_ ->]]; [eapply opt_kid; eauto|constructor].
  - destruct H as (_ & _ & k1 & k2 & k3 & -> & H1 & H3). apply Forall_app. split; [eapply opt_kid; eauto|].
    constructor; [reflexivity|]. destruct H3 as [->|(e & -> & _)]; repeat constructor.
  - destruct H as (_ & _ & H). eapply Forall_impl; [|exact H]. intros [ts|ts|n o' k' c'] B; try exact I.
    destruct B as [B|(lk & kk & B & _)]; cbn; [destruct n; try discriminate; reflexivity|].
    injection B as -> _ _. destruct lk; reflexivity.
  - destruct H as (_ & _ & a & b & c' & -> & _). repeat constructor.
  - destruct H as (_ & _ & H & _). eapply items_kid; [exact H|]. intros [] E; try discriminate; reflexivity.
  - destruct H as (_ & k1 & k2 & k3 & -> & H2 & H3 & H). apply Forall_app. split.
    { destruct H as [[_ H]|[_ ->]]; [eapply opt_kid; eauto|constructor]. }
    apply Forall_app. split; [eapply opt_kid; eauto|].
    clear - H3. induction H3; repeat constructor; auto; eapply root_kid; eauto.
  - destruct H as (_ & _ & _ & t & d & -> & R1 & R2). repeat constructor; eapply root_kid; eauto.
  - destruct H as (_ & _ & _ & H). eapply Forall_impl; [|exact H]. intros t R. eapply root_kid; eauto.
  - destruct H as (_ & l & lk & p & M & R & H). destruct H as [->|(x & -> & (lk' & k' & -> & _))]; repeat constructor;
      try (eapply root_kid; eauto; fail). destruct lk'; reflexivity.
  - destruct H as (_ & _ & _ & l & H). eapply Forall_impl; [|exact H]. intros t (o' & k' & -> & _). reflexivity.
  - destruct H as (_ & _ & H & _). eapply items_kid; [exact H|]. intros [] E; try discriminate; reflexivity.
  - destruct H as (_ & _ & t & -> & _). repeat constructor.
  - destruct H as (_ & _ & _ & l & H). eapply Forall_impl; [|exact H]. intros t (o' & k' & -> & _). reflexivity.
Qed.

(** ** No blank line *)

(** Blocks that end at a blank line. *)
Definition one_piece (n : node) : bool :=
  match n with
  | NParagraph | NHeading | NImage | NImages | NThematicBreak | NUnorderedList | NOrderedList | NListItem => true
  | _ => false
  end.

Definition no_document (n : node) : bool := match n with NDocument | NCollapsible => false | _ => true end.
Lemma no_collapsible_inside : forall s t, wf t -> match t with Node n _ _ _ => no_document n = true | _ => True end ->
  forall z, ~ In (End NCollapsible, z) (tevents s t).
Proof.
  intros s. induction t as [ts|ts|n o k c IH] using tree_ind'; intros W H z Hi.
  - destruct Hi as [Hi|[]]; discriminate.
  - contradiction.
  - inversion W as [| |? ? ? ? Wk Sh]; subst. cbn in Hi. destruct Hi as [Hi|Hi]; [discriminate|].
    apply in_app_or in Hi. destruct Hi as [Hi|[Hi|[]]].
    + apply in_flat_map in Hi. destruct Hi as (t & Ht & Hi). apply shape_kids in Sh. rewrite Forall_forall in IH, Wk, Sh.
      apply (IH t Ht (Wk t Ht)) in Hi; [contradiction|]. specialize (Sh t Ht).
      destruct t as [| |m ? ? ?]; [exact Logic.I|exact Logic.I|]. cbn in Sh. destruct n, m; try discriminate; reflexivity.
    + injection Hi as -> _. discriminate.
Qed.

Lemma marker_no_term : forall lvl lk o, marker lvl lk o -> no_term o.
Proof.
  intros lvl lk o (_ & m & sp & L & S0 & H).
  assert (K : forall k (t : token), kind t = k -> k <> Terminator -> is_terminator t = false).
  { intros k t <- N. unfold is_terminator. destruct (kind t); try reflexivity. congruence. }
  assert (Km : is_terminator m = false).
  { unfold list_kind_of in L. destruct (kind m) eqn:Ek; try discriminate; (eapply K; [exact Ek|discriminate]). }
  assert (Ks : is_terminator sp = false) by (eapply (K Space); [kind_of S0|discriminate]).
  destruct lvl; [subst o; repeat constructor; assumption|]. destruct H as (i & -> & Hi).
  assert (is_terminator i = false) by (eapply (K Space); [kind_of Hi|discriminate]). repeat constructor; assumption.
Qed.
Lemma one_piece_no_term : forall t, wf t -> match t with Node n _ _ _ => one_piece n = true | _ => False end -> no_term (yield t).
Proof.
  assert (K : forall k (t : token), kind t = k -> k <> Terminator -> is_terminator t = false).
  { intros k t <- N. unfold is_terminator. destruct (kind t); try reflexivity. congruence. }
  assert (G : forall k, Forall wf k -> Forall (fun t => wf t -> match t with Node n _ _ _ => one_piece n = true | _ => False end -> no_term (yield t)) k ->
    Forall (fun t => match t with Node n _ _ _ => one_piece n = true | _ => False end) k -> no_term (yields k)).
  { intros k W IH H. induction k as [|t k IHk]; [constructor|]. inversion W; inversion IH; inversion H; subst. cbn. apply no_term_app. auto. }
  induction t as [ts|ts|n o k c IH] using tree_ind'; intros W H; [contradiction|contradiction|].
  inversion W as [| |? ? ? ? Wk Sh]; subst. change (yield (Node n o k c)) with (o ++ yields k ++ c).
  destruct n; try discriminate; cbn [shape] in Sh.
  - destruct Sh as ((t & u & -> & Et & Eu) & -> & _ & N). rewrite app_nil_r. cbn. constructor; [|constructor; [|exact N]].
    + eapply K; [kind_of Et|discriminate].
    + eapply K; [kind_of Eu|discriminate].
  - destruct Sh as (N & (t & -> & Et) & Hc & _). constructor; [eapply K; [kind_of Et|discriminate]|]. apply no_term_app. split; [exact N|].
    destruct Hc as [->|(e & -> & Ee)]; [constructor|]. repeat constructor. eapply K; [kind_of Ee|discriminate].
  - destruct Sh as (-> & -> & _ & R). rewrite app_nil_r. apply G; auto. eapply Forall_impl; [|exact R]. intros t (? & ? & ? & ->). reflexivity.
  - destruct Sh as (-> & lvl & lk & p & M & (o' & k' & c' & ->) & Hk). rewrite app_nil_r. apply no_term_app. split; [eapply marker_no_term; exact M|].
    apply G; auto. destruct Hk as [->|(l & -> & (lk' & kk & -> & _))]; repeat constructor. destruct lk'; reflexivity.
  - destruct Sh as (-> & -> & _ & lvl & R). rewrite app_nil_r. apply G; auto. eapply Forall_impl; [|exact R]. intros t (? & ? & -> & _). reflexivity.
  - destruct Sh as (-> & -> & _ & N). cbn. rewrite app_nil_r. exact N.
  - destruct Sh as (-> & -> & t & -> & Et). repeat constructor. eapply K; [kind_of Et|discriminate].
  - destruct Sh as (-> & -> & _ & lvl & R). rewrite app_nil_r. apply G; auto. eapply Forall_impl; [|exact R]. intros t (? & ? & -> & _). reflexivity.
Qed.

Lemma no_blank_line : forall s ops es a n x mid y b, parse s = Ok ops -> reads s ops es ->
  es = a ++ (Start n, x) :: mid ++ (End n, y) :: b -> balanced (map fst mid) -> one_piece n = true ->
  exists ts1 ts2 ts3 x1, lex s = Ok (ts1 ++ ts2 ++ ts3)
    /\ concat_texts s ts1 = Ok x1 /\ covered a x1
    /\ concat_texts s ts2 = Ok (x ++ flat_map snd mid ++ y)
    /\ Forall (fun t => kind t <> Terminator) ts2.
Proof.
  intros s ops es a n x mid y b H R E B Hn.
  destruct (node_tokens s ops es a n x mid y b H R E B) as (o & k & c & ta & tb & W & F & -> & -> & -> & C).
  pose proof (flips_linked s _ _ F (spec_linked s)) as L. apply linked_app in L. destruct L as [_ L]. apply linked_app in L. destruct L as [L _].
  pose proof (vtok_lex s) as V.
  apply flips_split in F. destruct F as (t1 & t' & E1 & F1 & F). apply flips_split in F. destruct F as (t2 & t3 & -> & F2 & F3).
  rewrite E1 in V. apply Forall_app in V. destruct V as [V1 V]. apply Forall_app in V. destruct V as [V2 _].
  exists t1, t2, t3, (ttexts s t1). split; [rewrite lex_correct, E1; reflexivity|].
  split; [apply concat_of_ttexts; exact V1|]. split; [rewrite <- (flips_ttexts s _ _ F1); exact C|].
  pose proof (tree_covered s (Node n o k c) W L I) as Cv. cbn [yield] in Cv. fold (yields k) in Cv.
  apply covered_exact in Cv.
  2:{ apply no_collapsible_inside; [exact W|]. destruct n; try discriminate; reflexivity. }
  cbn [tevents flat_map] in Cv. rewrite flat_map_app in Cv. cbn in Cv. rewrite app_nil_r in Cv. fold (tevents_all s k) in Cv.
  split; [rewrite concat_of_ttexts by exact V2; rewrite <- (flips_ttexts s _ _ F2), Cv; reflexivity|].
  pose proof (one_piece_no_term _ W Hn) as NT. cbn [yield] in NT. fold (yields k) in NT.
  clear - F2 NT. induction F2 as [|u v t2 ys Fu F2 IH]; [constructor|]. inversion NT as [|? ? N1 N2]; subst. constructor; [|auto].
  intros K. unfold is_terminator in N1. rewrite (kind_flip _ _ _ Fu K) in N1; discriminate.
Qed.

(** ** Closing delimiters are there *)

(** Kind, text and whether it must start a line, of the opening and the closing token of a node. *)
Definition delims (n : node) : option ((token_kind * str * bool) * (token_kind * str * bool)) :=
  match n with
  | NCollapsible => Some ((CollapsibleStart, s_ "{%", true), (CollapsibleEnd, s_ "%}", true))
  | NHighlight => Some ((Bang, s_ "!!", true), (Bang, s_ "!!", true))
  | NCode => Some ((Backtick, s_ "```", true), (Backtick, s_ "```", true))
  | NEmbed => Some ((LeftCurlyBrace, s_ "{{", true), (RightCurlyBrace, s_ "}}", false))
  | NMetadata => Some ((Minus, s_ "---", true), (Minus, s_ "---", true))
  | NBold => Some ((Star, s_ "**", false), (Star, s_ "**", false))
  | NItalic => Some ((Underscore, s_ "_", false), (Underscore, s_ "_", false))
  | NStrikethrough => Some ((Tilde, s_ "~~", false), (Tilde, s_ "~~", false))
  | NEmphasis => Some ((Star, s_ "*", false), (Star, s_ "*", false))
  | NCodeSpan => Some ((Backtick, s_ "`", false), (Backtick, s_ "`", false))
  | NTitle => Some ((LeftSquareBracket, s_ "[", false), (RightSquareBracket, s_ "]", false))
  | NDestination => Some ((LeftParenthesis, s_ "(", false), (RightParenthesis, s_ ")", false))
  | _ => None
  end.
Definition is_delim (s : str) (d : token_kind * str * bool) (t : token) : Prop :=
  let '(k, x, z) := d in kind t = k /\ token_text s t = Ok x /\ (z = true -> column (t_pos t) = 0).

Lemma token_text_of : forall s t, tok_ok s t -> token_text s t = Ok (ttext s t).
Proof. intros s t (x & Hx & _). unfold token_text, ttext. rewrite Hx. reflexivity. Qed.

Lemma shape_delims : forall s n o k c d1 d2, shape n o k c -> delims n = Some (d1, d2) ->
  Forall (tok_ok s) (o ++ yields k ++ c) ->
  exists t o' u c', o = t :: o' /\ c = u :: c' /\ is_delim s d1 t /\ is_delim s d2 u.
Proof.
  intros s n o k c d1 d2 Sh Hd F. apply Forall_app in F. destruct F as [Fo F]. apply Forall_app in F. destruct F as [_ Fc].
  assert (D : forall f g k1 x1 (z1 : bool) k2 x2 (z2 : bool) o1 c1 t u, o = t :: o1 -> c = u :: c1 -> f t = true -> g u = true ->
    has s f x1 -> has s g x2 -> kind t = k1 -> kind u = k2 ->
    (z1 = true -> col0 t = true) -> (z2 = true -> col0 u = true) ->
    exists t o' u c', o = t :: o' /\ c = u :: c' /\ is_delim s (k1, x1, z1) t /\ is_delim s (k2, x2, z2) u).
  { intros f g k1 x1 z1 k2 x2 z2 o1 c1 t u -> -> Hf Hg X1 X2 K1 K2 Z1 Z2.
    inversion Fo as [|? ? Ot _]; subst. inversion Fc as [|? ? Ou _]; subst.
    exists t, o1, u, c1. split; [reflexivity|]. split; [reflexivity|]. unfold is_delim.
    rewrite !token_text_of by assumption. rewrite (X1 t Ot Hf), (X2 u Ou Hg).
    repeat split; auto; intros E; apply Nat.eqb_eq; [apply (Z1 E)|apply (Z2 E)]. }
  assert (S1 : forall f g, one f o -> one g c -> exists t u, o = [t] /\ c = [u] /\ f t = true /\ g u = true).
  { intros f g (t & -> & E1) (u & -> & E2). eauto 8. }
  destruct n; try discriminate; cbn [delims] in Hd; injection Hd as <- <-; cbn [shape] in Sh.
  - destruct Sh as (H1 & _ & H2). destruct (S1 _ _ H1 H2) as (t & u & Eo & Ec & E1 & E2).
    eapply (D is_star2 is_star2); eauto using x_star2; try discriminate; [kind_of E1|kind_of E2].
  - destruct Sh as (H & k1 & b & _ & H2). apply one_eol_hd in H. destruct H as (u & r & Ec & E2).
    assert (X : exists t r, o = t :: r /\ is_backtick3 t = true).
    { destruct H2 as [[(t & -> & E) _]|[H2 _]]; [eauto|]. eapply two_hd; eauto. }
    destruct X as (t & r' & Eo & E1).
    eapply (D is_backtick3 is_backtick3); eauto using x_backtick3; [kind_of E1|kind_of E2|intros; col_of E1|intros; col_of E2].
  - destruct Sh as (H1 & _ & H2). destruct (S1 _ _ H1 H2) as (t & u & Eo & Ec & E1 & E2).
    eapply (D is_backtick is_backtick); eauto using x_backtick; try discriminate; [kind_of E1|kind_of E2].
  - destruct Sh as (H1 & H2 & _). apply two_hd in H1. destruct H1 as (t & r & Eo & E1). apply one_eol_hd in H2. destruct H2 as (u & r' & Ec & E2).
    eapply (D is_collapsible_start is_collapsible_end); eauto using x_collapsible_start, x_collapsible_end;
      [kind_of E1|kind_of E2|intros; col_of E1|intros; col_of E2].
  - destruct Sh as (H1 & _ & H2). destruct (S1 _ _ H1 H2) as (t & u & Eo & Ec & E1 & E2).
    eapply (D is_left_paren is_right_paren); eauto using x_left_paren, x_right_paren; try discriminate; [kind_of E1|apply kind_eqb_eq; exact E2].
  - destruct Sh as ((t & Eo & E1) & H2 & _). apply one_eol_hd in H2. destruct H2 as (u & r' & Ec & E2).
    eapply (D is_left_curly2 is_right_curly2); eauto using x_left_curly2, x_right_curly2; try discriminate; [kind_of E1|kind_of E2|intros; col_of E1].
  - destruct Sh as (H1 & _ & H2). destruct (S1 _ _ H1 H2) as (t & u & Eo & Ec & E1 & E2).
    eapply (D is_star is_star); eauto using x_star; try discriminate; [kind_of E1|kind_of E2].
  - destruct Sh as (H & k1 & k2 & k3 & _ & _ & _ & H2). apply one_eol_hd in H. destruct H as (u & r & Ec & E2).
    assert (X : exists t r, o = t :: r /\ is_two_bangs t = true).
    { destruct H2 as [[H2 _]|[H2 _]]; eapply two_hd; eauto. }
    destruct X as (t & r' & Eo & E1).
    eapply (D is_two_bangs is_two_bangs); eauto using x_two_bangs; [kind_of E1|kind_of E2|intros; col_of E1|intros; col_of E2].
  - destruct Sh as (H1 & _ & H2). destruct (S1 _ _ H1 H2) as (t & u & Eo & Ec & E1 & E2).
    eapply (D is_underscore is_underscore); eauto using x_underscore; try discriminate; [kind_of E1|kind_of E2].
  - destruct Sh as (H1 & _ & H2). destruct (S1 _ _ H1 H2) as (t & u & Eo & Ec & E1 & E2).
    eapply (D is_three_dashes is_three_dashes); eauto using x_three_dashes; [kind_of E1|kind_of E2|intros; col_of E1|intros; col_of E2].
  - destruct Sh as (H1 & _ & H2). destruct (S1 _ _ H1 H2) as (t & u & Eo & Ec & E1 & E2).
    eapply (D is_tilde is_tilde); eauto using x_tilde; try discriminate; [kind_of E1|kind_of E2].
  - destruct Sh as (H1 & _ & H2). destruct (S1 _ _ H1 H2) as (t & u & Eo & Ec & E1 & E2).
    eapply (D is_left_bracket is_right_bracket); eauto using x_left_bracket, x_right_bracket; try discriminate; [kind_of E1|kind_of E2].
Qed.

Lemma is_delim_flip : forall s n d1 d2 t u v w, delims n = Some (d1, d2) -> flip u t -> flip w v ->
  is_delim s d1 t -> is_delim s d2 v -> u = t /\ w = v.
Proof.
  intros s n [[k1 x1] z1] [[k2 x2] z2] t u v w Hd F1 F2 (K1 & _) (K2 & _).
  assert (k1 <> Literal /\ k2 <> Literal) as [N1 N2].
  { destruct n; try discriminate; cbn in Hd; injection Hd; intros; split; congruence. }
  split; apply flip_same; congruence.
Qed.

(** The text in front of the last event. *)
Lemma covered_last : forall l k t X, covered (l ++ [(k, t)]) X ->
  exists z e, X = (z ++ e) ++ t /\ covered l z /\ (e = [] \/ (k = End NCollapsible /\ newline e)).
Proof.
  induction l as [|[k0 t0] l IH]; intros k t X H; cbn in H.
  - inversion H as [|? ? ? x C|? ? e x Ne C]; subst; inversion C; subst.
    + exists [], []. rewrite app_nil_r. split; [reflexivity|]. split; [constructor|auto].
    + exists [], e. rewrite app_nil_r. split; [reflexivity|]. split; [constructor|auto].
  - inversion H as [|? ? ? x C|? ? e x Ne C]; subst.
    + destruct (IH _ _ _ C) as (z & e & -> & Cz & He). exists (t0 ++ z), e. rewrite <- !app_assoc. split; [reflexivity|].
      split; [constructor; exact Cz|exact He].
    + destruct (IH _ _ _ C) as (z & e' & -> & Cz & He). exists (e ++ t0 ++ z), e'. rewrite <- !app_assoc. split; [reflexivity|].
      split; [apply cov_collapsible; assumption|exact He].
Qed.

Lemma closed_node : forall s ops es a n x r d1 d2, parse s = Ok ops -> reads s ops es ->
  es = a ++ (Start n, x) :: r -> delims n = Some (d1, d2) ->
  exists mid y b ts1 t ts2 u ts3 x1 x2 e, r = mid ++ (End n, y) :: b /\ balanced (map fst mid)
    /\ lex s = Ok (ts1 ++ t :: ts2 ++ u :: ts3)
    /\ concat_texts s ts1 = Ok x1 /\ covered a x1
    /\ concat_texts s (t :: ts2) = Ok (x2 ++ e) /\ covered ((Start n, x) :: mid) x2
    /\ (e = [] \/ (n = NCollapsible /\ newline e))
    /\ is_delim s d1 t /\ is_delim s d2 u.
Proof.
  intros s ops es a n x r d1 d2 H R E Hd.
  rewrite (reads_fun s ops es (stream s) R (parse_reads s ops H)) in E.
  destruct (fparse_wf (spec_tokens s)) as [W T].
  destruct (trees_located _ s [] _ W (fparse_linked s) (top_not_skip _ T) (fparse_tight s) _ _ _ _ E) as (ta & o & k & c & tb & r' & H1 & H2 & H3 & H4 & H5 & _ & H6).
  pose proof (proj2 (parse_refines s)) as F. rewrite H2 in F.
  pose proof (flips_linked s _ _ F (spec_linked s)) as L. apply linked_app in L. destruct L as [_ L]. apply linked_app in L. destruct L as [L0 _].
  pose proof (tree_covered s (Node n o k c) H1 L0 Logic.I) as Cv. destruct L0 as [L _]. cbn [tevents yield] in Cv. fold (yields k) in Cv. fold (tevents_all s k) in Cv.
  change ((Start n, ttexts s o) :: tevents_all s k ++ [(End n, ttexts s c)]) with (((Start n, ttexts s o) :: tevents_all s k) ++ [(End n, ttexts s c)]) in Cv.
  apply covered_last in Cv. destruct Cv as (x2 & e & Ex & Cv & He). rewrite !app_assoc, ttexts_app in Ex. apply app_inv_tail in Ex.
  inversion H1 as [| |? ? ? ? _ Sh]; subst.
  destruct (shape_delims s n o k c d1 d2 Sh Hd L) as (t & o' & u & c' & -> & -> & D1 & D2).
  exists (tevents_all s k), (ttexts s (u :: c')), r'.
  apply flips_split in F. destruct F as (t1 & t' & E1 & F1 & F). cbn in F. apply flips_cons in F. destruct F as (t0 & t2 & -> & Ft & F).
  rewrite <- !app_assoc in F. rewrite app_assoc in F. apply flips_split in F. destruct F as (t3 & t4 & -> & F3 & F). cbn in F. apply flips_cons in F. destruct F as (u0 & t5 & -> & Fu & F5).
  destruct (is_delim_flip s n d1 d2 _ _ _ _ Hd Ft Fu D1 D2) as [-> ->].
  exists t1, t, t3, u, t5, (ttexts s t1), x2, e. split; [reflexivity|]. split; [apply tevents_balanced|].
  split; [rewrite lex_correct, E1; reflexivity|].
  pose proof (vtok_lex s) as V. rewrite E1 in V. apply Forall_app in V. destruct V as [V1 V2].
  split; [apply concat_of_ttexts; exact V1|]. split; [rewrite <- (flips_ttexts s _ _ F1); exact H5|].
  split; [|split; [exact Cv|split; [|auto]]].
  - change (t :: t3 ++ u :: t5) with ((t :: t3) ++ u :: t5) in V2. apply Forall_app in V2. destruct V2 as [V2 _].
    rewrite concat_of_ttexts by exact V2. rewrite <- Ex. f_equal.
    change (ttexts s (t :: t3)) with (ttext s t ++ ttexts s t3). change (ttexts s ((t :: o') ++ yields k)) with (ttext s t ++ ttexts s (o' ++ yields k)).
    rewrite (flips_ttexts s _ _ F3). reflexivity.
  - destruct He as [He|[He Ne]]; [left; exact He|right; split; [congruence|exact Ne]].
Qed.

(** ** Coverage *)

Lemma parse_total : forall s, exists ops, parse s = Ok ops.
Proof. intros s. destruct (parse_refines s) as [E _]. eauto. Qed.

Lemma coverage : forall s ops es, parse s = Ok ops -> reads s ops es -> covered es (unescape s).
Proof.
  intros s ops es H R. rewrite (reads_fun s ops es (stream s) R (parse_reads s ops H)). apply stream_covered.
Qed.

Lemma coverage_exact : forall s ops es, parse s = Ok ops -> reads s ops es ->
  ~ In (End NCollapsible) (map op_kind_of ops) -> flat_map snd es = unescape s.
Proof.
  intros s ops es H R N. symmetry. apply covered_exact; [eapply coverage; eauto|]. intros t Hi. apply N.
  rewrite (reads_kinds _ _ _ R). apply in_map_iff. exists (End NCollapsible, t). auto.
Qed.

Lemma coverage_refuted : exists s ops es,
  parse s = Ok ops /\ reads s ops es /\ flat_map snd es <> unescape s.
Proof.
  pose (s := s_ "{% T
# H
%}"). exists s. destruct (parse_total s) as [ops H]. exists ops, (stream s).
  split; [exact H|]. split; [apply parse_reads; exact H|]. vm_compute. discriminate.
Qed.

Lemma parse_no_copies : forall s ops o, parse s = Ok ops -> ~ In c_bslash s -> In o ops ->
  exists a b, op_content o = Span a b.
Proof.
  intros s ops [k [a b|x]] H N Hi; cbn; [eauto|]. exfalso.
  destruct (parse_copies s ops k x H Hi) as (a & r1 & r2 & b & -> & _). apply N.
  apply in_or_app. right. apply in_or_app. left. apply in_or_app. right. left. reflexivity.
Qed.
