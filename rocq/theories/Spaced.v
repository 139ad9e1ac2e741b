(** A paragraph of a document or a highlight that has a block after it is followed by a blank line. *)
From Verif Require Import Base Lexer LexSpec LexProofs LexFacts Ops Parser FParser Refine Refine2 Refine3 Wf TokFacts StreamSpec StreamProofs
  StreamProofs2 StreamProofs3 Lines Borders.

Definition par (t : tree) : bool := match t with Node NParagraph _ _ _ => true | _ => false end.
Definition starts_node (k : list tree) : bool := match k with Node _ _ _ _ :: _ => true | _ => false end.
Fixpoint spaced (k : list tree) : Prop :=
  match k with [] => True | t :: r => (par t = true -> starts_node r = false) /\ spaced r end.

Inductive airy : tree -> Prop :=
| airy_leaf : forall ts, airy (Leaf ts)
| airy_skip : forall ts, airy (Skip ts)
| airy_node : forall n o k c, Forall airy k -> (n = NDocument \/ n = NHighlight -> spaced k) -> airy (Node n o k c).

(** Nodes without documents and highlights inside. *)
Definition low (n : node) : bool := match n with NDocument | NHighlight | NCollapsible => false | _ => true end.
Lemma low_kid : forall n m, allowed n m = true -> low n = true \/ n = NHighlight -> low m = true.
Proof. intros [] [] H [B|B]; try discriminate; reflexivity. Qed.
Lemma low_airy : forall t, wf t -> match t with Node n _ _ _ => low n = true | _ => True end -> airy t.
Proof.
  induction t as [ts|ts|n o k c IH] using tree_ind'; intros W B; try constructor.
  - inversion W as [| |? ? ? ? Wk Sh]; subst. apply shape_kids in Sh. rewrite Forall_forall in *. intros t I. apply IH; auto.
    specialize (Sh t I). destruct t; try exact Logic.I. eapply low_kid; [exact Sh|auto].
  - intros [->| ->]; discriminate.
Qed.
Lemma low_root : forall n t, low n = true -> wf t /\ root n t -> airy t.
Proof. intros n t L [W (o & k & c & ->)]. apply low_airy; assumption. Qed.
Lemma low_opt : forall n k, low n = true -> Forall wf k -> opt_root n k -> Forall airy k.
Proof. intros n k L W [->|(t & -> & R)]; constructor; [|constructor]. inversion W; subst. eapply low_root; eauto. Qed.

(** ** Highlights *)

Lemma loop_spaced : forall n st ts k c rest, fhighlight_loop n st ts = Some (k, c, rest) ->
  spaced k /\ (starts_node k = false \/ stopped (StopTerminator :: StopHighlightEnd :: st) ts = false).
Proof.
  induction n; intros st ts k c rest H; [discriminate|]. cbn [fhighlight_loop] in H.
  destruct ts as [|t r]; [discriminate|]. destruct (stopped st (t :: r)) eqn:S0; [discriminate|].
  destruct (is_two_bangs t) eqn:E2.
  - destruct (with_eol t r) as [x r'] eqn:W. injection H as <- <- <-. split; [exact I|auto].
  - destruct (if is_terminator t then ([Leaf [t]], r) else ([], t :: r)) as [l r1] eqn:HL.
    destruct (fparagraph (StopTerminator :: StopHighlightEnd :: st) r1) as [p r2] eqn:P.
    destruct (fhighlight_loop n st r2) as [[[k' c'] r3]|] eqn:F; [|discriminate]. injection H as <- <- <-.
    apply IHn in F. destruct F as [F1 F2]. pose proof (fparagraph_stopped _ _ _ _ P) as S2.
    assert (N : par p = true -> starts_node k' = false).
    { intros _. destruct F2 as [F2|F2]; [exact F2|congruence]. }
    destruct (is_terminator t) eqn:ET; injection HL as <- <-.
    + split; [cbn [app spaced]; split; [discriminate|]; auto|]. left. reflexivity.
    + split; [cbn [app spaced]; auto|]. right. apply stopped_two; assumption.
Qed.
Lemma spaced_nodes : forall n k r, n <> NParagraph -> opt_root n k -> spaced r -> spaced (k ++ r).
Proof. intros n k r N [->|(t & -> & (o & b & c & ->))] S; [exact S|]. split; [|exact S]. destruct n; try discriminate. congruence. Qed.
Lemma highlight_airy : forall st ts t rest, fhighlight st ts = Some (t, rest) -> airy t.
Proof.
  intros st ts t rest H. pose proof (makes_highlight _ _ _ _ H) as [W _]. unfold fhighlight in H.
  destruct (fseq _ ts) as [[o r]|]; [|discriminate]. cbv zeta in H.
  destruct (if negb _ then opt_tree (fmodifier st r) r else ([], r)) as [k1 r1] eqn:K1.
  destruct (opt_tree (ficon (StopTerminator :: st) r1) r1) as [k2 r2] eqn:K2.
  destruct (nth_is 0 col0 r2); [|discriminate].
  destruct (fhighlight_loop (S (length r2)) st r2) as [[[k3 c] r3]|] eqn:F; [|discriminate]. injection H as <- <-.
  constructor.
  - inversion W as [| |? ? ? ? Wk Sh]; subst. apply shape_kids in Sh. rewrite Forall_forall in *. intros t T. apply low_airy; [auto|].
    specialize (Sh t T). destruct t; try exact I. eapply low_kid; [exact Sh|auto].
  - intros _. apply loop_spaced in F. destruct F as [F _].
    apply (spaced_nodes NModifier); [discriminate| |apply (spaced_nodes NIcon); [discriminate| |exact F]].
    + destruct (negb _); [|injection K1 as <- <-; left; reflexivity].
      destruct (fmodifier st r) as [[x y]|] eqn:E; injection K1 as <- <-; [|left; reflexivity]. right. exists x. split; [reflexivity|]. apply makes_modifier in E. apply E.
    + destruct (ficon _ r1) as [[x y]|] eqn:E; injection K2 as <- <-; [|left; reflexivity]. right. exists x. split; [reflexivity|]. apply makes_icon in E. apply E.
Qed.

(** ** Documents *)

Lemma simple_airy : forall st ts t rest, fsimple st ts = (t, rest) -> airy t /\ (par t = true -> stopped (StopTerminator :: st) rest = true).
Proof.
  intros st ts t rest H. pose proof (fsimple_wf _ _ _ _ H) as [W B]. split.
  - apply low_airy; [exact W|]. unfold fsimple in H.
    destruct (forelse flist0 (forelse fimages (forelse fbreak fheading)) (StopTerminator :: st) ts) as [[y r]|] eqn:E.
    + injection H as -> ->. orelse_cases E.
      * apply flist0_wf in E; [|left; reflexivity]. destruct E as [_ (lk & k & -> & _)]. destruct lk; reflexivity.
      * apply fimages_wf in E; [|left; reflexivity]. destruct E as [_ [R|R]]; destruct R as (o & k & c & ->); reflexivity.
      * apply makes_break in E. destruct E as [_ (o & k & c & ->)]. reflexivity.
      * apply fheading_wf in E; [|left; reflexivity]. destruct E as [_ (o & k & c & ->)]. reflexivity.
    + apply fparagraph_wf in H; [|left; reflexivity]. destruct H as [_ (o & k & c & ->)]. reflexivity.
  - intros P. unfold fsimple in H.
    destruct (forelse flist0 (forelse fimages (forelse fbreak fheading)) (StopTerminator :: st) ts) as [[y r]|] eqn:E; [|exact (fparagraph_stopped _ _ _ _ H)].
    exfalso. injection H as -> ->. orelse_cases E.
    + apply flist0_wf in E; [|left; reflexivity]. destruct E as [_ (lk & k & -> & _)]. destruct lk; discriminate.
    + apply fimages_wf in E; [|left; reflexivity]. destruct E as [_ [R|R]]; destruct R as (o & k & c & ->); discriminate.
    + apply makes_break in E. destruct E as [_ (o & k & c & ->)]. discriminate.
    + apply fheading_wf in E; [|left; reflexivity]. destruct E as [_ (o & k & c & ->)]. discriminate.
Qed.
(** What the loop of a document starts with at a stop. *)
Lemma doc_start : forall n st ts k rest, fdoc n st ts = (k, rest) -> stopped (StopTerminator :: st) ts = true -> starts_node k = false.
Proof.
  intros [|n] st ts k rest H S; cbn [fdoc] in H; [injection H as <- <-; reflexivity|]. destruct ts as [|t r]; [injection H as <- <-; reflexivity|].
  destruct (stopped st (t :: r)) eqn:S0; [injection H as <- <-; reflexivity|].
  assert (T : is_terminator t = true).
  { unfold stopped in S, S0. cbn [existsb fmatches] in S. apply orb_true_iff in S. destruct S as [S|S]; [exact S|congruence]. }
  rewrite T in H. destruct (fdoc n st r) as [k' r2]. injection H as <- <-. reflexivity.
Qed.
Lemma docs_airy : forall n,
  (forall st ts k rest, fdoc n st ts = (k, rest) -> Forall airy k /\ spaced k)
  /\ (forall st ts t rest, fcollapsible n st ts = CMatch t rest -> airy t /\ par t = false).
Proof.
  induction n as [|n [ID IC]]; (split; [intros st ts k rest H|intros st ts t rest H]); [injection H as <- <-; split; [constructor|exact I]|discriminate| |].
  - cbn [fdoc] in H. destruct ts as [|t r]; [injection H as <- <-; split; [constructor|exact I]|].
    destruct (stopped st (t :: r)) eqn:S0; [injection H as <- <-; split; [constructor|exact I]|].
    assert (G : forall X, (let '(x, r1) := X in airy x /\ (par x = true -> stopped (StopTerminator :: st) r1 = true)) ->
              (let '(x, r1) := X in let (k, r2) := fdoc n st r1 in (x :: k, r2)) = (k, rest) -> Forall airy k /\ spaced k).
    { intros [x r1] [A B] E. destruct (fdoc n st r1) as [k' r2] eqn:F. injection E as <- <-. destruct (ID _ _ _ _ F) as [F1 F2].
      split; [constructor; assumption|]. split; [|exact F2]. intros P. eapply doc_start; [exact F|auto]. }
    refine (G _ _ H). clear G H.
    destruct (is_terminator t); [split; [constructor|discriminate]|].
    destruct (fcode st (t :: r)) as [[y r1]|] eqn:E1.
    { apply makes_code in E1. split; [eapply (low_root NCode); [reflexivity|exact E1]|]. destruct E1 as [_ (o & k' & c & ->)]. discriminate. }
    destruct (fcollapsible n st (t :: r)) as [y r1|ts'] eqn:E2.
    { apply IC in E2. destruct E2 as [A B]. split; [exact A|congruence]. }
    destruct (forelse fembed fhighlight st ts') as [[y r1]|] eqn:E3; [|destruct (fsimple st ts') as [y r1] eqn:E4; exact (simple_airy _ _ _ _ E4)].
    orelse_cases E3.
    + apply makes_embed in E3. split; [eapply (low_root NEmbed); [reflexivity|exact E3]|]. destruct E3 as [_ (o & k' & c & ->)]. discriminate.
    + split; [exact (highlight_airy _ _ _ _ E3)|]. apply makes_highlight in E3. destruct E3 as [_ (o & k' & c & ->)]. discriminate.
  - cbn [fcollapsible] in H. destruct (fseq _ ts) as [[o r]|]; [|discriminate].
    destruct (opt_tree (fmodifier st r) r) as [k1 r1] eqn:K1. destruct (nth_is 0 col0 r1); [|discriminate].
    destruct (fdoc n (StopCollapsibleEnd :: st) r1) as [k2 r2] eqn:D.
    destruct (match r2 with e :: r3 => if is_eol e then ([Skip [e]], r3) else ([], r2) | [] => ([], r2) end) as [k3 r3] eqn:K3.
    destruct (fcollapsible_end r3) as [[c rest']|]; [|discriminate]. injection H as <- <-. split; [|reflexivity].
    apply ID in D. destruct D as [D1 D2]. constructor; [|intros [X|X]; discriminate X].
    apply Forall_app. split; [|constructor].
    + destruct (fmodifier st r) as [[x y]|] eqn:E; injection K1 as <- <-; repeat constructor. apply makes_modifier in E. eapply low_root; [|exact E]. reflexivity.
    + constructor; [exact D1|intros _; exact D2].
    + destruct r2 as [|e r2']; [injection K3 as <- <-; constructor|]. destruct (is_eol e); injection K3 as <- <-; repeat constructor.
Qed.

Theorem fparse_airy : forall ts, Forall airy (fparse ts).
Proof.
  intros ts. unfold fparse. destruct (opt_tree (fmetadata [] ts) ts) as [k1 r1] eqn:K1. destruct (fdoc (3 * length r1 + 5) [] r1) as [k2 r2] eqn:D.
  apply docs_airy in D. destruct D as [D1 D2]. apply Forall_app. split.
  - destruct (fmetadata [] ts) as [[x y]|] eqn:E; injection K1 as <- <-; repeat constructor. apply makes_metadata in E. eapply low_root; [|exact E]. reflexivity.
  - constructor; [|constructor]. constructor; [exact D1|intros _; exact D2].
Qed.
