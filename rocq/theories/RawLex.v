(** Tokens of sources without backslashes and carriage returns: which tokens a given text is made of. *)
From Verif Require Import Base Lexer LexSpec LexProofs LexFacts Ops Parser FParser Refine Refine2 Refine3 Wf TokFacts StreamSpec Ast AstSpec Tame Settled.

(** ** Neighbours *)

(** Text of a literal: an unescaped one, or a [{%] turned into text. *)
Definition lit_text (x : str) : Prop :=
  x = [c_lcurly; c_percent] \/ exists c a, x = c :: a /\ c <> c_space /\ Forall (fun d => special d = false) x.

Definition raw_tok (s : str) (t : token) : Prop :=
  (kind t = Literal -> lit_text (ttext s t)) /\ ~ In c_cr (ttext s t) /\ ~ In c_bslash (ttext s t) /\ escaped t = false.
Definition raw_joined (s : str) (t u : token) : Prop :=
  (kind t = Eol -> kind u <> Terminator) /\ (kind t = Literal -> ttext s t = [c_percent] -> kind u <> RightCurlyBrace).

Definition rlinked (s : str) (ts : list token) : Prop :=
  linked s ts /\ Forall (raw_tok s) ts /\ chain (raw_joined s) ts.

Lemma rlinked_app : forall s a b, rlinked s (a ++ b) -> rlinked s a /\ rlinked s b.
Proof.
  intros s a b (L & F & C). apply linked_app in L. destruct L. apply Forall_app in F. destruct F. apply chain_app in C. destruct C.
  repeat split; try assumption; apply H || apply H0.
Qed.
Lemma rlinked_mid : forall s a b c, rlinked s (a ++ b ++ c) -> rlinked s b.
Proof. intros s a b c H. apply rlinked_app in H. destruct H as [_ H]. apply rlinked_app in H. apply H. Qed.
Lemma rlinked_pair : forall s a t u b, rlinked s (a ++ t :: u :: b) -> joined t u /\ raw_joined s t u.
Proof.
  intros s a t u b (L & _ & C). split; [eapply linked_pair; exact L|]. apply chain_app in C. destruct C as [_ [C _]]. exact C.
Qed.
Lemma rlinked_tok : forall s ts t, rlinked s ts -> In t ts -> tok_ok s t /\ raw_tok s t.
Proof. intros s ts t ((F & _) & R & _) Hi. rewrite Forall_forall in F, R. auto. Qed.

(** Neighbouring pieces. *)
Definition padj (p q : piece) : Prop :=
  (p_kind p = Eol -> p_kind q <> Terminator)
  /\ (p_kind p = Literal -> p_esc p = false -> p_text p = [c_percent] -> p_esc q = false -> p_kind q <> RightCurlyBrace).

Lemma scan_percent : forall s p r q r', scan_one s = Some (p, r) -> scan_one r = Some (q, r') ->
  p_esc p = false -> p_text p = [c_percent] -> p_esc q = false -> p_kind q = RightCurlyBrace -> False.
Proof.
  intros s p r q r' H1 H2 Ep Tp Eq Kq.
  assert (X1 : s = p_src p ++ r) by (apply (scan_one_app _ _ _ H1)).
  assert (X2 : r = p_src q ++ r') by (apply (scan_one_app _ _ _ H2)).
  pose proof (scan_one_ok _ _ _ H2) as [Y _]. rewrite Kq in Y. destruct Y as [n Y].
  unfold p_src in X1, X2. rewrite Ep, Tp in X1. rewrite Eq, Y in X2. cbn in X1, X2. subst r s.
  cbn in H1. injection H1 as <- _. cbn in Tp. discriminate.
Qed.

Definition rpadj (p q : piece) : Prop :=
  p_kind q <> Terminator /\ (p_kind p = Literal -> p_esc p = false -> p_text p = [c_percent] -> p_esc q = false -> p_kind q <> RightCurlyBrace).

Lemma raw_padj : forall s, chain rpadj (raw_pieces s).
Proof.
  apply raw_ind.
  - intros s H. rewrite raw_unfold, H. exact I.
  - intros s p r H IH. rewrite raw_unfold, H. simpl.
    rewrite raw_unfold in IH |- *. destruct (scan_one r) as [[q r']|] eqn:E; [|exact I].
    split; [|exact IH]. split.
    + apply (scan_kinds _ _ _ E).
    + intros K Ep T Eq Kq. exact (scan_percent _ _ _ _ _ H E Ep T Eq Kq).
Qed.

Lemma merge_padj : forall l, chain rpadj l -> chain padj (merge l).
Proof.
  apply (merge_ind (fun l m => chain rpadj l -> chain padj m)).
  - intros; exact I.
  - intros; exact I.
  - intros p q l K1 K2 IH C. cbn [chain] in C. destruct C as [_ C].
    assert (C' : chain rpadj l). { destruct l; [exact I|]. apply C. }
    specialize (IH C'). destruct l as [|x l]; [exact I|].
    destruct (merge_head x l) as [m [E|(_ & t & E)]]; rewrite E in *; cbn [chain]; (split; [|exact IH]);
      split; discriminate.
  - intros p q l K IH C. cbn [chain] in C. destruct C as [C0 C]. specialize (IH C).
    destruct (merge_head q l) as [m [E|(K2 & t & E)]]; rewrite E in *; cbn [chain]; (split; [|exact IH]).
    + split; [intros _|]; apply C0.
    + destruct K as [K|K]; [|congruence]. split; [congruence|]. intros; discriminate.
Qed.
Lemma pieces_padj : forall s, chain padj (pieces s).
Proof. intros s. apply merge_padj, raw_padj. Qed.

(** ** The tokens of a raw source *)

Lemma raw_no_esc : forall s ts t, raw s -> lex s = Ok ts -> In t ts -> escaped t = false.
Proof.
  intros s ts t [B _] L Hi. destruct (escaped t) eqn:E; [|reflexivity]. exfalso. apply B.
  destruct (escaped_token_char s ts t L Hi E) as (_ & a & c & b & -> & _). apply in_or_app. right. left. reflexivity.
Qed.

Lemma raw_toks : forall s, raw s -> Forall (raw_tok s) (spec_tokens s).
Proof.
  intros s R. pose proof (lex_correct s) as L. apply Forall_forall. intros t Ht.
  destruct (token_kinds s _ t L Ht) as (x & Hx & K). unfold token_text in Hx.
  assert (E : ttext s t = x) by (unfold ttext; rewrite Hx; reflexivity). unfold raw_tok. rewrite E. split.
  - intros KL. rewrite KL in K. destruct K as (c & a & -> & F & N). destruct (N (raw_no_esc s _ t R L Ht)) as [N1 N2].
    right. exists c, a. split; [reflexivity|]. split; [exact N2|]. constructor; assumption.
  - pose proof (raw_no_esc s _ t R L Ht) as NE. apply slice_inv in Hx. destruct Hx as (u & v & Es & _). destruct R as [R1 R2]. rewrite Es in R1, R2.
    split; [|split]; [| |exact NE]; intros Hi; [apply R2|apply R1]; apply in_or_app; right; apply in_or_app; left; exact Hi.
Qed.

Lemma raw_chain_tokens : forall s, raw s -> chain (raw_joined s) (spec_tokens s).
Proof.
  intros s R. pose proof (lex_correct s) as L. apply chain_of_nth. intros i t u H1 H2.
  destruct (token_text_piece s _ i t L H1) as (p & P1 & P2 & P3 & P4).
  destruct (token_text_piece s _ (S i) u L H2) as (q & Q1 & _ & Q3 & Q4).
  destruct (chain_nth _ padj (pieces s) i p q (pieces_padj s) P1 Q1) as [A B].
  pose proof (raw_no_esc s _ t R L (nth_error_In _ _ H1)) as E1. pose proof (raw_no_esc s _ u R L (nth_error_In _ _ H2)) as E2.
  split; [rewrite P3, Q3; exact A|]. rewrite P3, Q3. intros K T. apply B; try congruence.
  unfold token_text in P2. unfold ttext in T. rewrite P2 in T. exact T.
Qed.

Lemma flip_raw_tok : forall s a b, tok_ok s a -> flip a b -> raw_tok s a -> raw_tok s b.
Proof.
  intros s a b O [->|[C ->]] H; [exact H|]. destruct H as (_ & H). unfold raw_tok.
  assert (E : ttext s (literal_of a) = ttext s a) by reflexivity. rewrite E. split; [|exact H]. intros _. left.
  unfold is_collapsible_start in C. apply andb_true_iff in C. destruct C as [C _]. apply kind_eqb_eq in C.
  exact (single_text s a _ O C).
Qed.

Lemma flips_rlinked : forall s a b, flips a b -> rlinked s a -> rlinked s b.
Proof.
  intros s a b F (L & T & C). split; [eapply flips_linked; eauto|]. destruct L as [O _]. split.
  - clear C. induction F; [constructor|]. inversion T; inversion O; subst. constructor; [eapply flip_raw_tok; eauto|auto].
  - induction F as [|x y a b Fx F IH]; [exact I|].
    inversion T as [|? ? T1 T2]; inversion O as [|? ? O1 O2]; subst.
    destruct F as [|x' y' a b Fx' F]; [exact I|]. destruct C as [[C1 C2] C]. split; [|apply IH; assumption]. split.
    + intros K K'. apply C1; [eapply flip_kind; eauto; discriminate|eapply flip_kind; eauto; discriminate].
    + intros K E K'. destruct Fx as [->|[Cx ->]].
      * apply C2; auto. eapply flip_kind; eauto. discriminate.
      * change (ttext s (literal_of x)) with (ttext s x) in E.
        unfold is_collapsible_start in Cx. apply andb_true_iff in Cx. destruct Cx as [Cx _]. apply kind_eqb_eq in Cx.
        pose proof (single_text s x _ O1 Cx) as X. cbn in X. rewrite X in E. discriminate.
Qed.

Lemma fparse_rlinked : forall s, raw s -> rlinked s (yields (fparse (spec_tokens s))).
Proof.
  intros s R. eapply flips_rlinked; [apply parse_refines|]. split; [apply spec_linked|]. split; [apply raw_toks; exact R|apply raw_chain_tokens; exact R].
Qed.

(** ** Texts *)

(** The first character of a token tells its kind. *)
Definition first_kind (c : char) (k : token_kind) : Prop :=
  (c = c_nl -> k = Eol \/ k = Terminator) /\ (c = c_space -> k = Space) /\ (c = c_minus -> k = Minus) /\ (c = c_plus -> k = Plus)
  /\ (c = c_hash -> k = Hash) /\ (c = c_bang -> k = Bang) /\ (c = c_rcurly -> k = RightCurlyBrace) /\ (c = c_lsquare -> k = LeftSquareBracket)
  /\ (c = c_percent -> k = CollapsibleEnd \/ k = Literal).

Lemma raw_eol : forall s t, tok_ok s t -> raw_tok s t -> kind t = Eol -> ttext s t = [c_nl].
Proof.
  intros s t O (_ & C & _) K. pose proof (single_text s t _ O K) as [X|X]; [exact X|]. exfalso. apply C. rewrite X. left. reflexivity.
Qed.
Lemma raw_terminator : forall s t, tok_ok s t -> raw_tok s t -> kind t = Terminator -> ttext s t = [c_nl; c_nl].
Proof.
  intros s t O (_ & C & _) K. pose proof (single_text s t _ O K) as (a & b & X & [A|A] & [B|B]); subst; rewrite X in *; try reflexivity;
    exfalso; apply C; cbn; tauto.
Qed.

Lemma first_char : forall s t c x, tok_ok s t -> raw_tok s t -> ttext s t = c :: x -> first_kind c (kind t).
Proof.
  intros s t c x O R E. pose proof O as O'. destruct O' as (y & Hy & _ & KT & _). assert (Ey : ttext s t = y) by (unfold ttext; rewrite Hy; reflexivity).
  rewrite Ey in E. subst y. unfold first_kind.
  destruct (kind t) eqn:K;
    try (specialize (KT ltac:(discriminate)); cbn in KT;
         first [injection KT as -> _|destruct KT as [n KT]; injection KT as -> _]; repeat split; intros X; try discriminate X; auto; fail).
  - pose proof (raw_terminator s t O R K) as X. rewrite Ey in X. injection X as -> _. repeat split; intros X; try discriminate X; auto.
  - pose proof (raw_eol s t O R K) as X. rewrite Ey in X. injection X as -> _. repeat split; intros X; try discriminate X; auto.
  - destruct R as (R & _). specialize (R K). rewrite Ey in R. destruct R as [R|(d & a & R & NS & F)].
    + injection R as -> _. repeat split; intros X; try discriminate X; auto.
    + injection R as <- _. inversion F as [|? ? S0 _]; subst. repeat split; intros ->; try discriminate S0; auto; congruence.
Qed.

Lemma nl_kind : forall s t, tok_ok s t -> raw_tok s t -> In c_nl (ttext s t) -> kind t = Eol \/ kind t = Terminator.
Proof.
  intros s t O R Hi. pose proof O as O'. destruct O' as (y & Hy & _ & KT & _). assert (Ey : ttext s t = y) by (unfold ttext; rewrite Hy; reflexivity).
  rewrite Ey in Hi.
  destruct (kind t) eqn:K; auto; exfalso;
    try (specialize (KT ltac:(discriminate)); cbn in KT;
         first [rewrite KT in Hi; cbn in Hi; intuition discriminate|destruct KT as [n KT]; rewrite KT in Hi; apply (repeat_spec (S n)) in Hi; discriminate]).
  destruct R as (R & _). specialize (R K). rewrite Ey in R. destruct R as [R|(d & a & R & NS & F)].
  + rewrite R in Hi. cbn in Hi. intuition discriminate.
  + rewrite Forall_forall in F. specialize (F _ Hi). discriminate.
Qed.

Lemma ttexts_cons : forall s t ts, ttexts s (t :: ts) = ttext s t ++ ttexts s ts. Proof. reflexivity. Qed.

Lemma app_eq_mid : forall (A : Type) (a b x y : list A) (c : A), a ++ b = x ++ c :: y ->
  (exists z, x = a ++ z /\ b = z ++ c :: y) \/ (exists z, a = x ++ c :: z /\ y = z ++ b).
Proof.
  intros A a. induction a as [|d a IH]; intros b x y c E; [left; exists x; auto|]. destruct x as [|e x]; cbn in E; injection E as -> E.
  - right. exists a. subst y. auto.
  - destruct (IH _ _ _ _ E) as [(z & -> & ->)|(z & -> & ->)]; [left|right]; exists z; auto.
Qed.

(** A line feed in a text is one of a token. *)
Lemma nl_split : forall s ts x y, rlinked s ts -> ttexts s ts = x ++ c_nl :: y ->
  exists a t b, ts = a ++ t :: b /\
    ((kind t = Eol /\ x = ttexts s a /\ y = ttexts s b)
     \/ (kind t = Terminator /\ ((x = ttexts s a /\ y = c_nl :: ttexts s b) \/ (x = ttexts s a ++ [c_nl] /\ y = ttexts s b)))).
Proof.
  intros s ts. induction ts as [|t ts IH]; intros x y L E; [destruct x; discriminate|].
  destruct (rlinked_tok s _ t L (or_introl eq_refl)) as [O R]. rewrite ttexts_cons in E. apply app_eq_mid in E. destruct E as [(z & -> & E)|(z & E & ->)].
  - destruct (rlinked_app s [t] ts L) as [_ L']. destruct (IH _ _ L' E) as (a & u & b & -> & H). exists (t :: a), u, b. split; [reflexivity|].
    rewrite ttexts_cons, <- !app_assoc. destruct H as [(K & -> & ->)|(K & [(-> & ->)|(-> & ->)])]; [left|right|right]; auto.
  - exists [], t, ts. split; [reflexivity|]. destruct (nl_kind s t O R) as [K|K]; [rewrite E; apply in_or_app; right; left; reflexivity| |].
    + left. rewrite (raw_eol s t O R K) in E. destruct x as [|? [|? ?]]; try discriminate. injection E as <-. auto.
    + right. rewrite (raw_terminator s t O R K) in E. split; [exact K|].
      destruct x as [|e [|f x]]; [left|right|destruct x; discriminate]; injection E; intros; subst; auto.
Qed.

(** A text without blank lines has no two line feeds in a row. *)
Lemma no_two_nl : forall s ts x y, rlinked s ts -> Forall (fun t => kind t <> Terminator) ts -> ttexts s ts <> x ++ c_nl :: c_nl :: y.
Proof.
  intros s ts x y L F E. destruct (nl_split s ts _ _ L E) as (a & t & b & -> & H). rewrite Forall_forall in F.
  destruct H as [(K & _ & H)|(K & _)]; [|apply (F t); [apply in_or_app; right; left; reflexivity|exact K]].
  destruct b as [|u b]; [discriminate|]. destruct (rlinked_tok s _ u L) as [O R]; [apply in_or_app; right; right; left; reflexivity|].
  destruct (rlinked_pair _ _ _ _ _ L) as [(_ & J & _) (J' & _)]. rewrite ttexts_cons in H.
  destruct (ttext s u) as [|c z] eqn:Eu; [destruct O as (w & Hw & NE & _); unfold ttext in Eu; rewrite Hw in Eu; congruence|].
  injection H as <- _. destruct (proj1 (first_char s u _ _ O R Eu) eq_refl) as [K'|K']; [apply (J K K')|apply (J' K K')].
Qed.

(** What stands at the start of a line. *)
Lemma after_nl : forall s ts x c y, rlinked s ts -> ttexts s ts = x ++ c_nl :: c :: y -> c <> c_nl ->
  exists a t u b z, ts = a ++ t :: u :: b /\ (kind t = Eol \/ kind t = Terminator) /\ col0 u = true
    /\ ttext s u = c :: z /\ y = z ++ ttexts s b.
Proof.
  intros s ts x c y L E N. destruct (nl_split s ts _ _ L E) as (a & t & b & -> & H).
  assert (H' : (kind t = Eol \/ kind t = Terminator) /\ c :: y = ttexts s b).
  { destruct H as [(K & _ & H)|(K & [(_ & H)|(_ & H)])]; [auto|injection H as -> _; congruence|auto]. }
  destruct H' as [K H']. destruct b as [|u b]; [discriminate|]. destruct (rlinked_tok s _ u L) as [O R]; [apply in_or_app; right; right; left; reflexivity|].
  rewrite ttexts_cons in H'. destruct (ttext s u) as [|d z] eqn:Eu; [destruct O as (w & Hw & NE & _); unfold ttext in Eu; rewrite Hw in Eu; congruence|].
  injection H' as <- ->. exists a, t, u, b, z. split; [reflexivity|]. split; [exact K|].
  destruct (rlinked_pair _ _ _ _ _ L) as [(_ & _ & _ & J) _]. split; [apply J; exact K|]. split; [exact Eu|reflexivity].
Qed.

(** A line that starts with [%}]. *)
Lemma coll_pattern : forall s ts x y, rlinked s ts -> ttexts s ts = x ++ c_nl :: c_percent :: c_rcurly :: y ->
  exists a u b, ts = a ++ u :: b /\ is_collapsible_end u = true.
Proof.
  intros s ts x y L E. destruct (after_nl s ts x _ _ L E) as (a & t & u & b & z & -> & K & C & Eu & Ey); [discriminate|].
  exists (a ++ [t]), u, b. split; [rewrite <- app_assoc; reflexivity|]. unfold is_collapsible_end. rewrite C, andb_true_r. apply kind_eqb_eq.
  destruct (rlinked_tok s _ u L) as [O R]; [apply in_or_app; right; right; left; reflexivity|].
  pose proof (first_char s u _ _ O R Eu) as FK. destruct FK as (_ & _ & _ & _ & _ & _ & _ & _ & FK). destruct (FK eq_refl) as [F|F]; [exact F|]. exfalso.
  pose proof R as R'. destruct R' as (R' & _). specialize (R' F). rewrite Eu in R'. destruct R' as [R'|(d & e & _ & _ & R')]; [discriminate|].
  destruct z as [|f z].
  - cbn in Ey. destruct b as [|v b]; [discriminate|]. destruct (rlinked_tok s _ v L) as [Ov Rv]; [apply in_or_app; right; right; right; left; reflexivity|].
    rewrite ttexts_cons in Ey. destruct (ttext s v) as [|g w] eqn:Ev; [destruct Ov as (w & Hw & NE & _); unfold ttext in Ev; rewrite Hw in Ev; congruence|].
    injection Ey as <- _. pose proof (first_char s v _ _ Ov Rv Ev) as FV. destruct FV as (_ & _ & _ & _ & _ & _ & FV & _).
    change (a ++ t :: u :: v :: b) with (a ++ [t] ++ u :: v :: b) in L. rewrite app_assoc in L. destruct (rlinked_pair _ _ _ _ _ L) as [_ (_ & J)].
    apply (J F Eu). apply FV. reflexivity.
  - cbn in Ey. injection Ey as <- _. inversion R' as [|? ? _ R2]; subst. inversion R2 as [|? ? R3 _]; subst. discriminate.
Qed.

(** ** Runs *)

Definition run_char (c : char) (k : token_kind) : Prop :=
  (c = c_space /\ k = Space) \/ (c = c_minus /\ k = Minus) \/ (c = c_plus /\ k = Plus).

Lemma head_char : forall s ts c y, rlinked s ts -> ttexts s ts = c :: y ->
  exists u b z, ts = u :: b /\ ttext s u = c :: z /\ y = z ++ ttexts s b /\ tok_ok s u /\ raw_tok s u.
Proof.
  intros s [|u b] c y L E; [discriminate|]. destruct (rlinked_tok s _ u L (or_introl eq_refl)) as [O R]. rewrite ttexts_cons in E.
  destruct (ttext s u) as [|d z] eqn:Eu; [destruct O as (w & Hw & NE & _); unfold ttext in Eu; rewrite Hw in Eu; congruence|].
  injection E as -> <-. exists u, b, z. auto.
Qed.

Lemma run_first : forall s t c k x, run_char c k -> tok_ok s t -> raw_tok s t -> ttext s t = c :: x ->
  kind t = k /\ ttext s t = repeat c (tlen t) /\ is_run_kind k = true.
Proof.
  intros s t c k x H O R E. destruct (first_char s t _ _ O R E) as (_ & F1 & F2 & F3 & _).
  destruct H as [[-> ->]|[[-> ->]|[-> ->]]]; (split; [auto|]); (split; [|reflexivity]);
    [exact (run_text_at s t _ _ O (F1 eq_refl) eq_refl)|exact (run_text_at s t _ _ O (F2 eq_refl) eq_refl)|exact (run_text_at s t _ _ O (F3 eq_refl) eq_refl)].
Qed.

Lemma repeat_cut : forall (A : Type) (c : A) n m x y, repeat c n ++ x = repeat c m ++ y ->
  match x with d :: _ => d <> c | [] => True end -> match y with d :: _ => d <> c | [] => True end -> n = m /\ x = y.
Proof.
  intros A c n. induction n as [|n IH]; intros [|m] x y E Hx Hy; cbn in E; [auto| | |].
  - subst x. congruence.
  - subst y. congruence.
  - injection E as E. destruct (IH _ _ _ E Hx Hy). auto.
Qed.

(** A token takes the whole run. *)
Lemma run_end : forall s a u b c k y d z, run_char c k -> rlinked s (a ++ u :: b) -> kind u = k -> ttexts s b = d :: y -> ttext s u = c :: z -> d <> c.
Proof.
  intros s a u b c k y d z H L K E Eu ->. assert (Lb : rlinked s b) by (apply rlinked_app in L; destruct L as [_ L]; apply (rlinked_app s [u] b L)).
  destruct (head_char s b c y Lb E) as (v & b' & w & -> & Ev & _ & O & R).
  destruct (run_first s v c k w H O R Ev) as (Kv & _ & RK). destruct (rlinked_pair _ _ _ _ _ L) as [(_ & _ & J & _) _].
  apply J; [apply R|congruence|congruence].
Qed.

Lemma run_head : forall s ts c k n y, run_char c k -> rlinked s ts -> ttexts s ts = repeat c (S n) ++ y ->
  match y with d :: _ => d <> c | [] => True end ->
  exists u b, ts = u :: b /\ kind u = k /\ tlen u = S n /\ ttext s u = repeat c (S n) /\ ttexts s b = y.
Proof.
  intros s ts c k n y H L E Hy. destruct (head_char s ts c _ L E) as (u & b & z & -> & Eu & _ & O & R).
  destruct (run_first s u c k z H O R Eu) as (K & T & _). rewrite ttexts_cons, T in E.
  destruct (repeat_cut _ _ _ _ _ _ E) as [E1 E2]; [|exact Hy|].
  - destruct (ttexts s b) as [|d w] eqn:Eb; [exact I|]. apply (run_end s [] u b c k w d z H L K Eb Eu).
  - exists u, b. rewrite T, E1. auto.
Qed.

(** No space after a token of spaces. *)
Lemma after_space : forall s u ts x, rlinked s (u :: ts) -> kind u = Space -> ttexts s ts <> c_space :: x.
Proof.
  intros s u ts x L K E. destruct (rlinked_tok s _ u L (or_introl eq_refl)) as [O R].
  pose proof (run_text_at s u Space c_space O K eq_refl) as T. destruct (ttext s u) as [|d z] eqn:Eu.
  - destruct O as (w & Hw & NE & _). unfold ttext in Eu. rewrite Hw in Eu. congruence.
  - destruct (tlen u); [discriminate|]. injection T as -> _. exact (run_end s [] u ts c_space Space x c_space z (or_introl (conj eq_refl eq_refl)) L K E Eu eq_refl).
Qed.

(** The start of a line, as tokens. *)
Lemma line_tokens : forall s ts x y, rlinked s ts -> ttexts s ts = x ++ c_nl :: y -> (forall z, y <> c_nl :: z) ->
  exists a t b, ts = a ++ t :: b /\ (kind t = Eol \/ kind t = Terminator) /\ ttexts s b = y.
Proof.
  intros s ts x y L E N. destruct (nl_split s ts _ _ L E) as (a & t & b & -> & H). exists a, t, b. split; [reflexivity|].
  destruct H as [(K & _ & H)|(K & [(_ & H)|(_ & H)])]; [auto| |auto]. exfalso. exact (N _ H).
Qed.

Definition marker_of (c : char) : option list_kind :=
  if char_eqb c c_minus then Some Unordered else if char_eqb c c_plus then Some Ordered else None.

(** A line that starts like a list item. *)
Lemma item_pattern : forall s ts x y j c lk, rlinked s ts -> marker_of c = Some lk ->
  ttexts s ts = x ++ c_nl :: repeat c_space j ++ c :: c_space :: y -> (forall z, y <> c_space :: z) ->
  exists a b, ts = a ++ b /\ b <> [] /\ nth_is 0 col0 b = true
    /\ (boundary_at j None b = true /\ boundary_at j (Some lk) b = true).
Proof.
  intros s ts x y j c lk L M E Hy.
  assert (C : exists k, run_char c k /\ c <> c_space /\ c <> c_nl /\ forall t, kind t = k -> tlen t = 1 -> list_kind_of t = Some lk).
  { unfold marker_of in M. destruct (char_eqb c c_minus) eqn:E1.
    - apply N.eqb_eq in E1. injection M as <-. exists Minus. subst c. split; [unfold run_char; auto|]. split; [discriminate|]. split; [discriminate|].
      intros t K T. unfold list_kind_of. rewrite K, T. reflexivity.
    - destruct (char_eqb c c_plus) eqn:E2; [|discriminate]. apply N.eqb_eq in E2. injection M as <-. exists Plus. subst c.
      split; [unfold run_char; auto|]. split; [discriminate|]. split; [discriminate|].
      intros t K T. unfold list_kind_of. rewrite K, T. reflexivity. }
  destruct C as (k & RC & NS & NN & LK).
  assert (LM : forall t o, kind t = k -> tlen t = 1 -> (o = None \/ o = Some lk) -> is_list_marker o t = true).
  { intros t o K T Ho. unfold is_list_marker. rewrite (LK t K T). destruct Ho as [->| ->]; [reflexivity|]. destruct lk; reflexivity. }
  destruct (line_tokens s ts x _ L E) as (a & t & b & -> & K & Eb).
  { intros z. destruct j; cbn; [congruence|discriminate]. }
  assert (Lb : rlinked s b) by (apply rlinked_app in L; destruct L as [_ L]; apply (rlinked_app s [t] b L)).
  assert (TAIL : forall b, rlinked s b -> ttexts s b = c :: c_space :: y ->
            exists m p r, b = m :: p :: r /\ kind m = k /\ tlen m = 1 /\ is_space_1 p = true).
  { clear - RC NS Hy. intros b L E. destruct (run_head s b c k 0 (c_space :: y) RC L E) as (m & r & -> & Km & Tm & _ & Er); [congruence|].
    destruct (run_head s r c_space Space 0 y (or_introl (conj eq_refl eq_refl))) as (p & r' & -> & Kp & Tp & _).
    - apply (rlinked_app s [m] r L).
    - exact Er.
    - destruct y as [|d y]; [exact I|]. intros ->. exact (Hy y eq_refl).
    - exists m, p, r'. unfold is_space_1. rewrite Kp, Tp. auto. }
  assert (CO : forall u r, b = u :: r -> col0 u = true).
  { intros u r ->. destruct (rlinked_pair _ _ _ _ _ L) as [(_ & _ & _ & J) _]. apply J. exact K. }
  exists (a ++ [t]), b. split; [rewrite <- app_assoc; reflexivity|].
  destruct j as [|j].
  - destruct (TAIL b Lb Eb) as (m & p & r & -> & Km & Tm & Hp). split; [discriminate|]. specialize (CO _ _ eq_refl).
    unfold boundary_at, nth_is. cbn. rewrite CO, Hp, !LM by auto. auto.
  - destruct (run_head s b c_space Space j _ (or_introl (conj eq_refl eq_refl)) Lb Eb) as (i & b' & -> & Ki & Ti & _ & Eb'); [cbn; congruence|].
    destruct (TAIL b') as (m & p & r & -> & Km & Tm & Hp); [apply (rlinked_app s [i] b' Lb)|exact Eb'|]. split; [discriminate|]. specialize (CO _ _ eq_refl).
    unfold boundary_at, nth_is. cbn [nth_error is_some_and Nat.eqb]. unfold is_indent. rewrite Ki, Ti, CO, Hp, !LM, Nat.eqb_refl by auto. auto.
Qed.

(** A line that starts with exactly three dashes. *)
Lemma dashes_head : forall s b y, rlinked s b -> nth_is 0 col0 b = true -> ttexts s b = repeat c_minus 3 ++ y ->
  match y with d :: _ => d <> c_minus | [] => True end -> existsb is_three_dashes b = true.
Proof.
  intros s b y L C E Hy. destruct (run_head s b c_minus Minus 2 y (or_intror (or_introl (conj eq_refl eq_refl))) L E Hy) as (u & r & -> & K & T & _).
  cbn [existsb]. unfold is_three_dashes. cbn in C. rewrite K, T, C. reflexivity.
Qed.
Lemma dashes_pattern : forall s ts x y, rlinked s ts -> ttexts s ts = x ++ c_nl :: repeat c_minus 3 ++ y ->
  match y with d :: _ => d <> c_minus | [] => True end -> existsb is_three_dashes ts = true.
Proof.
  intros s ts x y L E Hy. destruct (line_tokens s ts x _ L E) as (a & t & b & -> & K & Eb); [discriminate|].
  assert (Lb : rlinked s b) by (apply rlinked_app in L; destruct L as [_ L]; apply (rlinked_app s [t] b L)).
  rewrite existsb_app. cbn [existsb]. rewrite (dashes_head s b y Lb); [rewrite !orb_true_r; reflexivity| |exact Eb|exact Hy].
  destruct b as [|u b]; [discriminate|]. destruct (rlinked_pair _ _ _ _ _ L) as [(_ & _ & _ & J) _]. apply J. exact K.
Qed.
