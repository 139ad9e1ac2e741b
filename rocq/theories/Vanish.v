(** The documents that formatting writes as blank sources. *)
From Coq Require Import String Lia Arith.
From Verif Require Import Base Lexer LexSpec LexProofs LexFacts Ops Ast ToYamd Api AstSpec TextDisplay NormalSpec ImageNormal BlankSpec Blank BlankDisplay.
Open Scope list_scope.

(** ** Characters of blank texts *)

Definition feed (c : char) : Prop := c = c_nl \/ c = c_cr \/ c = c_bslash.
Fixpoint slashes (s : str) : nat := match s with [] => 0 | c :: s' => (if char_eqb c c_bslash then 1 else 0) + slashes s' end.
Lemma slashes_app : forall a b, slashes (a ++ b) = slashes a + slashes b.
Proof. induction a as [|c a IH]; intros b; cbn [app slashes]; [reflexivity|]. rewrite IH. lia. Qed.
Lemma slashes_in : forall x, In c_bslash x -> 1 <= slashes x.
Proof. induction x as [|c x IH]; intros []; cbn [slashes]; [subst c; cbn; lia|]. specialize (IH H). lia. Qed.
Lemma blank_chars : forall s, blank s -> Forall feed s /\ slashes s <= 1.
Proof.
  intros s H. induction H as [| |a b s A B H [IH1 IH2]]; [split; [constructor|cbn; lia]|split; [repeat constructor; right; right; reflexivity|cbn; lia]|].
  assert (X : forall a, line_break a -> Forall feed a /\ slashes a = 0) by (intros x []; (split; [|reflexivity]); repeat constructor; unfold feed; auto).
  destruct (X a A), (X b B). split; [repeat (apply Forall_app; split); assumption|rewrite !slashes_app; lia].
Qed.

(** ** What replacing keeps *)

Lemma starts_split : forall p l, starts_with p l = true -> exists y, l = p ++ y.
Proof.
  induction p as [|a p IH]; intros l S; [exists l; reflexivity|]. destruct l as [|b l]; [discriminate|]. cbn in S. apply andb_prop in S. destruct S as [A S].
  apply char_eqb_eq in A. subst b. destruct (IH l S) as (y & ->). exists y. reflexivity.
Qed.
Lemma replace_in_go : forall p r c, p <> [] -> (In c p -> In c r) -> forall x k, In c (skipn k x) -> In c (replace_go p r k x).
Proof.
  intros p r c NE R. induction x as [|d x IH]; intros k H; [destruct k; contradiction H|]. cbn [replace_go]. destruct k as [|k]; [|apply IH; exact H].
  destruct (starts_with p (d :: x)) eqn:SW.
  - destruct (starts_split _ _ SW) as (y & X). apply in_or_app. cbn [skipn] in H. rewrite X in H. apply in_app_or in H. destruct H as [H|H]; [left; auto|].
    right. apply IH. destruct p as [|a p]; [congruence|]. injection X as -> ->. cbn [List.length]. replace (S (List.length p) - 1) with (List.length p) by lia. rewrite skipn_app, skipn_all, Nat.sub_diag. exact H.
  - cbn [skipn] in H. destruct H as [->|H]; [left; reflexivity|]. right. apply IH. exact H.
Qed.
Lemma replace_in : forall p r c x, p <> [] -> (In c p -> In c r) -> In c x -> In c (replace p r x).
Proof. intros p r c x NE R H. apply replace_in_go; assumption. Qed.
Lemma esc_in : forall e c x, In c x -> In c (esc_char e x).
Proof. intros e c x. apply replace_in; [discriminate|]. intros [->|[]]. right. left. reflexivity. Qed.
Lemma text_in : forall c x, In c x -> In c (display_text x).
Proof.
  intros c x H. unfold display_text. apply replace_in; [discriminate|intros [<-|[<-|[]]]; cbn; auto|]. apply replace_in; [discriminate|intros [<-|[<-|[]]]; cbn; auto|].
  repeat apply esc_in. exact H.
Qed.
(** Backslashes do not get fewer. *)
Lemma slashes_replace_go : forall p r, slashes p <= slashes r -> p <> [] -> forall x k, slashes (skipn k x) <= slashes (replace_go p r k x).
Proof.
  intros p r R NE. induction x as [|d x IH]; intros k; [destruct k; cbn; lia|]. cbn [replace_go]. destruct k as [|k]; [|apply IH].
  destruct (starts_with p (d :: x)) eqn:SW.
  - destruct (starts_split _ _ SW) as (y & X). cbn [skipn]. rewrite X, !slashes_app. specialize (IH (List.length p - 1)).
    assert (E : skipn (List.length p - 1) x = y).
    { destruct p as [|a p]; [congruence|]. injection X as -> ->. cbn [List.length]. replace (S (List.length p) - 1) with (List.length p) by lia. rewrite skipn_app, skipn_all, Nat.sub_diag. reflexivity. }
    rewrite E in IH. lia.
  - cbn [skipn slashes]. specialize (IH 0). cbn [skipn] in IH. lia.
Qed.
Lemma slashes_replace : forall p r x, slashes p <= slashes r -> p <> [] -> slashes x <= slashes (replace p r x).
Proof. intros p r x R NE. exact (slashes_replace_go p r R NE x 0). Qed.
Lemma slashes_esc : forall e x, slashes x <= slashes (esc_char e x).
Proof. intros e x. apply slashes_replace; [|discriminate]. cbn [slashes]. lia. Qed.
Lemma slashes_twice : forall x, slashes (esc_char c_bslash x) = 2 * slashes x.
Proof.
  unfold esc_char, replace. induction x as [|c x IH]; [reflexivity|]. cbn [replace_go starts_with]. rewrite andb_true_r. change (List.length [c_bslash] - 1) with 0. cbn [slashes].
  destruct (char_eqb c_bslash c) eqn:E.
  - apply char_eqb_eq in E. subst c. cbn [app slashes]. rewrite IH. cbn. lia.
  - cbn [slashes]. rewrite IH. destruct (char_eqb c c_bslash) eqn:E'; [apply char_eqb_eq in E'; subst c; discriminate E|]. lia.
Qed.
(** A pair of line feeds brings two of them. *)
Lemma slashes_pair : forall u v, 2 <= slashes (replace nlnl esc_nl_esc_nl (u ++ nlnl ++ v)).
Proof.
  unfold replace. induction u as [|c u IH]; intros v.
  - cbn [app]. change (nlnl ++ v) with (c_nl :: c_nl :: v). cbn [replace_go]. change (starts_with nlnl (c_nl :: c_nl :: v)) with true. cbv iota. rewrite slashes_app. change (slashes esc_nl_esc_nl) with 2. lia.
  - cbn [app replace_go]. destruct (starts_with nlnl (c :: u ++ nlnl ++ v)); [rewrite slashes_app; change (slashes esc_nl_esc_nl) with 2; lia|]. cbn [slashes]. specialize (IH v). lia.
Qed.
Lemma esc_miss : forall e x, ~ In e x -> esc_char e x = x.
Proof.
  intros e x. unfold esc_char, replace. induction x as [|c x IH]; intros N; [reflexivity|]. cbn [replace_go starts_with]. rewrite andb_true_r.
  destruct (char_eqb e c) eqn:E; [apply char_eqb_eq in E; exfalso; apply N; left; auto|]. rewrite IH; [reflexivity|]. intros H. apply N. right. exact H.
Qed.

(** ** Texts that are written as line feeds *)

Lemma text_feed : forall x, ~ In c_cr x -> x <> [] -> Forall feed (display_text x) -> slashes (display_text x) <= 1 -> x = nl.
Proof.
  intros x NC NE F L.
  assert (Fx : Forall feed x) by (apply Forall_forall; intros c H; rewrite Forall_forall in F; apply F, text_in, H).
  assert (NB : ~ In c_bslash x).
  { intros H. apply slashes_in in H. unfold display_text in L.
    match type of L with slashes (replace ?p ?r ?y) <= 1 => pose proof (slashes_replace p r y ltac:(cbn; lia) ltac:(discriminate)) end.
    match goal with K : slashes (replace nlnl ?r ?y) <= _ |- _ => pose proof (slashes_replace nlnl r y ltac:(cbn; lia) ltac:(discriminate)) end.
    pose proof (slashes_twice x) as T. revert H0 H1 L T. generalize (esc_char c_bslash x). intros y.
    pose proof (slashes_esc c_star y). pose proof (slashes_esc c_underscore (esc_char c_star y)). pose proof (slashes_esc c_tilde (esc_char c_underscore (esc_char c_star y))).
    pose proof (slashes_esc c_backtick (esc_char c_tilde (esc_char c_underscore (esc_char c_star y)))).
    pose proof (slashes_esc c_lsquare (esc_char c_backtick (esc_char c_tilde (esc_char c_underscore (esc_char c_star y))))).
    pose proof (slashes_esc c_lcurly (esc_char c_lsquare (esc_char c_backtick (esc_char c_tilde (esc_char c_underscore (esc_char c_star y)))))).
    intros. lia. }
  assert (X : Forall (eq c_nl) x).
  { apply Forall_forall. intros c H. rewrite Forall_forall in Fx. destruct (Fx c H) as [->|[->| ->]]; [reflexivity|contradiction|contradiction]. }
  destruct x as [|a x]; [congruence|]. inversion X as [|? ? <- X1]; subst. destruct x as [|b x]; [reflexivity|]. inversion X1 as [|? ? <- X2]; subst. exfalso.
  unfold display_text in L. set (z := c_nl :: c_nl :: x) in *.
  assert (M : forall e, e <> c_nl -> esc_char e z = z) by (intros e N; apply esc_miss; intros H; rewrite Forall_forall in X; apply N; symmetry; apply X, H).
  rewrite !M in L by discriminate.
  match type of L with slashes (replace ?p ?r ?y) <= 1 => pose proof (slashes_replace p r y ltac:(cbn; lia) ltac:(discriminate)) as K end.
  pose proof (slashes_pair [] x) as P. change ([] ++ nlnl ++ x) with z in P. lia.
Qed.
Lemma inline_feed : forall p, normal_inline p -> Forall feed (display_par_node p) -> exists x, p = PText x.
Proof.
  assert (X : forall c l, Forall feed (c :: l) -> c = c_lsquare \/ c = c_star \/ c = c_underscore \/ c = c_tilde \/ c = c_backtick -> False).
  { intros c l F H. inversion F as [|? ? [->|[->| ->]] _]; subst; destruct H as [H|[H|[H|[H|H]]]]; discriminate H. }
  intros [t u|b|x|x|x|x|x] N F; [| | | |eauto| |]; exfalso; cbn [display_par_node] in F.
  - eapply X; [exact F|auto].
  - pose proof (inline_shown (PBold b) N) as S. cbn [display_par_node] in S. unfold display_bold in *. destruct (bold_has_content b); [|congruence]. eapply X; [exact F|auto].
  - eapply X; [exact F|auto].
  - eapply X; [exact F|auto].
  - unfold display_code_span in F. destruct x; [apply N; reflexivity|]. eapply X; [exact F|auto 10].
  - eapply X; [exact F|auto].
Qed.
Lemma block_feed : forall n, normal_node n -> ~ In c_cr (display_block n) -> Forall feed (display_block n) -> slashes (display_block n) <= 1 -> n = YParagraph [PText nl].
Proof.
  assert (X : forall c l, Forall feed (c :: l) -> c = c_hash \/ c = c_bang \/ c = c_backtick \/ c = c_minus \/ c = c_plus \/ c = c_lcurly -> False).
  { intros c l F H. inversion F as [|? ? [->|[->| ->]] _]; subst; destruct H as [H|[H|[H|[H|[H|H]]]]]; discriminate H. }
  intros [b|l b|i|l|la c|l|t i b| |k a|t b] N NC F L; cbn [display_block display_node] in *.
  - destruct N as (NE & N & NN & _).
    assert (E : escape_leading_block_marker (display_paragraph b) = display_paragraph b).
    { unfold escape_leading_block_marker in *. destruct (_ || _) eqn:S; [|reflexivity]. exfalso. repeat (apply orb_prop in S; destruct S as [S|S]); apply starts_split in S; destruct S as (y & S); rewrite S in F; inversion F as [|? ? _ F']; subst; (eapply X; [exact F'|auto 10]). }
    rewrite E in *. clear E. destruct b as [|p b]; [congruence|]. inversion N as [|? ? Np Nb]; subst. unfold display_paragraph in *. cbn [flat_map] in *.
    apply Forall_app in F. destruct F as [Fp Fb]. destruct (inline_feed p Np Fp) as (x & ->). destruct b as [|q b].
    + cbn [flat_map display_par_node] in *. rewrite app_nil_r in *. rewrite (text_feed x); [reflexivity| | |exact Fp|exact L].
      * intros H. apply NC, text_in, H.
      * exact Np.
    + exfalso. inversion Nb; subst. cbn [flat_map] in Fb. apply Forall_app in Fb. destruct Fb as [Fq _]. destruct (inline_feed q) as (x' & ->); try assumption. destruct NN as [NN _]. discriminate NN.
  - exfalso. destruct N as [[N _] _]. destruct l; [lia|]. eapply X; [exact F|auto].
  - exfalso. eapply X; [exact F|auto].
  - exfalso. cbn [normal_node] in N. destruct l as [|x [|y l]]; cbn in N; try lia. eapply X; [exact F|auto].
  - exfalso. eapply X; [exact F|auto].
  - exfalso. destruct N as [N _]. destruct l as [ty l0 its]. destruct N as (-> & NE & _). destruct its as [|it its]; [congruence|].
    cbn [display_list map] in F. destruct its; cbn [join map] in F; destruct ty; (eapply X; [exact F|auto 10]).
  - exfalso. eapply X; [exact F|auto].
  - exfalso. eapply X; [exact F|auto].
  - exfalso. eapply X; [exact F|auto 10].
  - exfalso. eapply X; [exact F|auto 10].
Qed.

(** ** The documents *)

Lemma join_parts : forall sep l d, In d l -> exists a b, join sep l = a ++ d ++ b.
Proof.
  intros sep. induction l as [|x l IH]; intros d []; [subst x|].
  - destruct l; cbn [join]; [exists [], []; rewrite app_nil_r; reflexivity|]. eexists [], _. reflexivity.
  - destruct (IH d H) as (a & b & E). destruct l as [|y l]; [contradiction|]. change (join sep (x :: y :: l)) with (x ++ sep ++ join sep (y :: l)). rewrite E. exists (x ++ sep ++ a), b. rewrite <- !app_assoc. reflexivity.
Qed.
Lemma feeds_even : forall n e, even_breaks e (repeat c_nl n) = if Nat.even n then e else negb e.
Proof.
  assert (X : forall n, (forall e, even_breaks e (repeat c_nl n) = if Nat.even n then e else negb e) /\ forall e, even_breaks e (repeat c_nl (S n)) = if Nat.even (S n) then e else negb e).
  { induction n as [|n [I1 I2]]; [split; intros e; reflexivity|]. split; [exact I2|]. intros e. cbn [repeat even_breaks]. change (char_eqb c_nl c_nl) with true. cbv iota. rewrite I1. change (Nat.even (S (S n))) with (Nat.even n). rewrite negb_involutive. reflexivity. }
  intros n. apply X.
Qed.
Lemma join_feeds : forall n, join nlnl (repeat nl (S n)) = repeat c_nl (3 * n + 1).
Proof.
  induction n as [|n IH]; [reflexivity|]. change (join nlnl (repeat nl (S (S n)))) with (nl ++ nlnl ++ join nlnl (repeat nl (S n))). rewrite IH.
  replace (3 * S n + 1) with (S (S (S (3 * n + 1)))) by lia. reflexivity.
Qed.
Lemma feeds_blank : forall k, blank (join nlnl (repeat nl k)) <-> Nat.even k = true.
Proof.
  intros [|k]; [split; [reflexivity|constructor]|]. rewrite join_feeds, <- blank_test, feeds_even.
  replace (Nat.even (3 * k + 1)) with (Nat.even (S k)); [destruct (Nat.even (S k)); split; auto|].
  replace (3 * k + 1) with (S k + 2 * k) by lia. rewrite Nat.even_add_mul_2. reflexivity.
Qed.
Lemma vanishing : forall s y, ~ In c_cr s -> deserialize s = Ok y ->
  (deserialize (display_yamd y) = Ok (mk_yamd None []) <-> exists n, y = mk_yamd None (repeat (YParagraph [PText nl]) (2 * n))).
Proof.
  intros s y NC E. rewrite empty_source. assert (D : forall k, display_yamd (mk_yamd None (repeat (YParagraph [PText nl]) k)) = join nlnl (repeat nl k)).
  { intros k. unfold display_yamd, display_body. cbn [metadata body]. f_equal. induction k as [|k IH]; [reflexivity|]. cbn [repeat map]. rewrite IH. reflexivity. }
  split.
  - intros B. pose proof (blank_chars _ B) as [F L]. assert (N : normal y) by (apply image; eauto). destruct N as [_ N].
    assert (NC' : ~ In c_cr (display_yamd y)) by (intros X; apply NC; eapply source_cr; eauto).
    destruct y as [[m|] b]; [exfalso; inversion F as [|? ? [X|[X|X]] _]; discriminate X|].
    assert (A : Forall (eq (YParagraph [PText nl])) b).
    { apply Forall_forall. intros n H. symmetry. unfold display_yamd, display_body in *. cbn [metadata body] in *.
      destruct (join_parts nlnl (map display_block b) (display_block n)) as (u & v & J); [apply in_map, H|]. rewrite J in *.
      apply block_feed.
      - apply N. unfold doc_nodes. cbn [body]. apply in_flat_map. exists n. split; [exact H|]. destruct n; left; reflexivity.
      - intros X. apply NC'. apply in_or_app. right. apply in_or_app. left. exact X.
      - apply Forall_app in F. destruct F as [_ F]. apply Forall_app in F. apply F.
      - rewrite !slashes_app in L. lia. }
    assert (Eb : b = repeat (YParagraph [PText nl]) (List.length b)) by (clear -A; induction A as [|x b <- A IH]; [reflexivity|cbn [List.length repeat]; f_equal; exact IH]).
    rewrite Eb in B. rewrite D in B. apply feeds_blank in B. apply Nat.even_spec in B. destruct B as (n & B). exists n. rewrite Eb, B. reflexivity.
  - intros (n & ->). rewrite D. apply feeds_blank. apply Nat.even_spec. exists n. reflexivity.
Qed.
