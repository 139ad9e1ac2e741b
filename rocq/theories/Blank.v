(** The sources of the empty document. *)
From Coq Require Import Lia.
From Verif Require Import Base Lexer LexSpec LexProofs LexFacts Ops Parser FParser Refine Refine2 Refine3
  Wf TokFacts Ast ToYamd Api TreeAst TokenSpec Tokens BlankSpec.
Open Scope list_scope.
Notation len := List.length.

(** ** The tokens of such sources *)

Definition is_term (p : piece) : Prop := p_kind p = Terminator.
Lemma break_ending : forall a, line_break a <-> line_ending a.
Proof. intros a. split; [intros []; [left|right]; reflexivity|intros [-> | ->]; constructor]. Qed.
Lemma blank_pieces : forall s, blank s -> exists ps tl, s = flat_map p_src ps ++ tl /\ (tl = [] \/ tl = [c_bslash]) /\ Forall is_term ps /\ Forall piece_ok ps.
Proof.
  intros s H. induction H as [| |a b s A B H (ps & tl & E & T & F & G)].
  - exists [], []. repeat split; auto.
  - exists [], [c_bslash]. repeat split; auto.
  - exists (mk_piece Terminator (a ++ b) false :: ps), tl. cbn [flat_map]. unfold p_src at 1. cbn [p_esc p_text app]. rewrite E, !app_assoc. split; [reflexivity|]. split; [exact T|].
    split; (constructor; [|assumption]); [reflexivity|]. split; [|discriminate]. cbn. exists a, b. rewrite <- !break_ending. auto.
Qed.
Lemma terms_list : forall ps, Forall is_term ps -> Forall piece_ok ps -> token_list ps.
Proof.
  intros ps F G. split; [intros p Hp; rewrite Forall_forall in G; exact (G p Hp)|]. intros a p q b E C. subst ps. apply Forall_app in F. destruct F as [_ F].
  inversion F as [|? ? Hp F']; subst. unfold is_term in Hp. destruct C as (_ & [[C _]|[[C _]|[[C _]|[[C _]|[[C _]|[C _]]]]]]); rewrite Hp in C; discriminate.
Qed.
Lemma blank_terms : forall s, blank s <-> Forall is_term (pieces s).
Proof.
  intros s. split.
  - intros H. destruct (blank_pieces s H) as (ps & tl & -> & T & F & G). rewrite pieces_token_list; [exact F|apply terms_list; assumption|exact T].
  - destruct (pieces_src s) as (tl & E & T). pose proof (pieces_ok s) as G. intros F. rewrite E. clear E. induction F as [|p ps Hp F IH].
    + destruct T as [-> | ->]; constructor.
    + inversion G as [|? ? G1 G2]; subst. destruct G1 as [K Ee]. unfold is_term in Hp. rewrite Hp in K, Ee. cbn [flat_map]. unfold p_src at 1.
      assert (p_esc p = false) as -> by (destruct (p_esc p); [specialize (Ee eq_refl); discriminate|reflexivity]).
      cbn in K. destruct K as (a & b & -> & A & B). cbn [app]. rewrite <- !app_assoc. apply blank_two; [apply break_ending, A|apply break_ending, B|apply IH, G2].
Qed.
Definition terminal (t : token) : Prop := kind t = Terminator.
Lemma annotate_terms : forall ps o c r, Forall terminal (annotate o c r ps) <-> Forall is_term ps.
Proof.
  induction ps as [|p ps IH]; intros o c r; cbn [annotate]; [split; constructor|].
  split; intros H; inversion H as [|? ? H1 H2]; subst; (constructor; [exact H1|eapply IH; exact H2]).
Qed.
Lemma blank_tokens : forall s, blank s <-> Forall terminal (spec_tokens s).
Proof. intros s. rewrite blank_terms. symmetry. apply annotate_terms. Qed.

(** ** The document *)

Lemma blocks_some : forall s t, wf t -> block t -> blocks s t = [] -> exists x, t = Leaf [x] /\ is_terminator x = true.
Proof.
  intros s [ts|ts|n o k c] W B E; [|contradiction|].
  - cbn in B. destruct B as (x & -> & T). eauto.
  - exfalso. cbn [block] in B. destruct B as [B|(lk & k' & X & _)]; [destruct n; try discriminate B; cbn in E; discriminate E|].
    injection X as -> _ _ _. destruct lk; discriminate E.
Qed.
Lemma terms_doc : forall ts n st, Forall terminal ts -> len ts <= n -> (forall t r, stopped [] (t :: r) = false) -> st = [] -> fdoc n st ts = (map (fun t => Leaf [t]) ts, []).
Proof.
  induction ts as [|t ts IH]; intros n st F L S0 ->; (destruct n as [|n]; [cbn in L; try lia; reflexivity|]); [reflexivity|].
  inversion F as [|? ? K F']; subst. cbn [fdoc]. rewrite S0. assert (is_terminator t = true) as -> by (unfold is_terminator; rewrite K; reflexivity).
  rewrite IH; [reflexivity|exact F'|cbn in L; lia|exact S0|reflexivity].
Qed.
Lemma empty_iff : forall s, document_of s = mk_yamd None [] <-> Forall terminal (spec_tokens s).
Proof.
  intros s. split.
  - intros E. destruct (fparse_wf (spec_tokens s)) as [W T]. destruct (parse_refines s) as [_ Fl]. unfold document_of, doc_of in E. injection E as Em Eb.
    destruct T as (k1 & d & Ek & (o & k & c & ->) & O). rewrite Ek in *. clear Ek.
    destruct O as [->|(m & -> & (o' & k' & c' & ->))].
    2:{ exfalso. apply Forall_app in W. destruct W as [W _]. inversion W; subst. cbn in Em. discriminate Em. }
    cbn [app] in *. inversion W as [|? ? Wd _]; subst. inversion Wd as [| |? ? ? ? Wk Sh]; subst. destruct Sh as (-> & -> & Bk).
    unfold body_of in Eb. cbn [flat_map] in Eb. rewrite app_nil_r in Eb. unfold yields in Fl. cbn [flat_map yield app] in Fl. rewrite !app_nil_r in Fl.
    assert (Ft : Forall terminal (flat_map yield k)).
    { clear Fl W Wd Em. induction k as [|t k IH]; [constructor|]. inversion Wk; inversion Bk; subst. cbn [flat_map] in *. apply app_eq_nil in Eb. destruct Eb as [E1 E2].
      destruct (blocks_some s t) as (x & -> & X); try assumption. cbn [yield app]. constructor; [apply kind_eqb_eq, X|apply IH; assumption]. }
    revert Ft. generalize (flat_map yield k) Fl. clear. intros ys H F. induction H as [|a b l l' Fl H IH]; [constructor|]. inversion F as [|? ? K F']; subst.
    constructor; [|apply IH, F']. destruct Fl as [->|(_ & ->)]; [exact K|]. discriminate K.
  - intros F. unfold document_of, fparse. set (ts := spec_tokens s) in *.
    assert (fmetadata [] ts = None) as ->.
    { unfold fmetadata, fdelim. destruct ts as [|t ts']; [reflexivity|]. inversion F as [|? ? K F']; subst. assert (is_three_dashes t = false) as -> by (unfold is_three_dashes; rewrite K; reflexivity). reflexivity. }
    cbn [opt_tree]. rewrite (terms_doc ts _ []); [|exact F|lia|reflexivity|reflexivity]. unfold doc_of, body_of. cbn [app flat_map child_text option_map].
    f_equal. rewrite app_nil_r. clear. induction ts as [|t ts IH]; [reflexivity|exact IH].
Qed.
Lemma empty_source : forall s, deserialize s = Ok (mk_yamd None []) <-> blank s.
Proof.
  intros s. rewrite deserialize_eq, blank_tokens, <- (empty_iff s). split; [intros H; congruence|intros ->; reflexivity].
Qed.

(** ** The test *)

Definition odd (s : str) : Prop := exists a s', s = a ++ s' /\ line_break a /\ blank s'.
Lemma blank_odd : forall s, blank s <-> s = [] \/ s = [c_bslash] \/ exists a s', s = a ++ s' /\ line_break a /\ odd s'.
Proof.
  intros s. split.
  - intros [| |a b s' A B H]; auto. right. right. exists a, (b ++ s'). split; [reflexivity|]. split; [exact A|]. exists b, s'. auto.
  - intros [->|[->|(a & x & -> & A & (b & y & -> & B & H))]]; constructor; assumption.
Qed.
Lemma even_breaks_spec : forall n s, len s <= n -> (even_breaks true s = true <-> blank s) /\ (even_breaks false s = true <-> odd s).
Proof.
  induction n as [|n IH]; intros s L.
  - destruct s; [|cbn in L; lia]. split; [split; [constructor|reflexivity]|]. split; [discriminate|]. intros (a & s' & E & A & _); destruct A; discriminate.
  - destruct s as [|c s]; [split; [split; [constructor|reflexivity]|]; split; [discriminate|]; intros (a & s' & E & A & _); destruct A; discriminate|].
    cbn [len] in L. destruct (IH s ltac:(lia)) as [I1 I2]. cbn [even_breaks negb].
    destruct (char_eqb c c_nl) eqn:C1.
    { apply char_eqb_eq in C1. subst c. split.
      - rewrite I2, blank_odd. split; [intros H; right; right; exists [c_nl], s; repeat split; [constructor|exact H]|].
        intros [X|[X|(a & x & X & A & H)]]; try discriminate. destruct A; [injection X as ->; exact H|discriminate].
      - rewrite I1. split; [intros H; exists [c_nl], s; repeat split; [constructor|exact H]|]. intros (a & x & X & A & H). destruct A; [injection X as ->; exact H|discriminate]. }
    destruct (char_eqb c c_cr) eqn:C2.
    { apply char_eqb_eq in C2. subst c. destruct s as [|d s].
      - split; (split; [discriminate|]).
        + intros H. apply blank_odd in H. destruct H as [X|[X|(a & x & X & A & H)]]; try discriminate. destruct A; discriminate.
        + intros (a & x & X & A & H). destruct A; discriminate.
      - cbn [len] in L. destruct (IH s ltac:(lia)) as [J1 J2]. split; rewrite andb_true_iff.
        + rewrite J2, blank_odd. split; [intros [D H]; apply char_eqb_eq in D; subst d; right; right; exists [c_cr; c_nl], s; repeat split; [constructor|exact H]|].
          intros [X|[X|(a & x & X & A & H)]]; try discriminate. destruct A; [discriminate|injection X as -> ->; auto].
        + rewrite J1. split; [intros [D H]; apply char_eqb_eq in D; subst d; exists [c_cr; c_nl], s; repeat split; [constructor|exact H]|].
          intros (a & x & X & A & H). destruct A; [discriminate|injection X as -> ->; auto]. }
    assert (N1 : c <> c_nl) by (intros ->; discriminate). assert (N2 : c <> c_cr) by (intros ->; discriminate).
    split; rewrite andb_true_iff, char_eqb_eq.
    + split; [intros [-> H]; destruct s; [constructor|discriminate]|]. intros H. apply blank_odd in H. destruct H as [X|[X|(a & x & X & A & H)]]; [discriminate|injection X as -> ->; auto|].
      destruct A; injection X as -> _; congruence.
    + split; [intros [_ H]; destruct s; discriminate|]. intros (a & x & X & A & H). destruct A; injection X as -> _; congruence.
Qed.
Lemma blank_test : forall s, even_breaks true s = true <-> blank s.
Proof. intros s. apply (even_breaks_spec (len s) s (le_n _)). Qed.
