(** The pieces the lexer can produce, exactly, and when cutting a text cuts its pieces. *)
From Verif Require Import Base Lexer LexSpec LexProofs LexFacts TokenSpec.

(** What may follow [p]. *)
Definition follow (p : piece) (rest : str) : Prop :=
  match rest with
  | [] => True
  | c :: r =>
      (is_run_kind (p_kind p) = true -> run_kind c <> Some (p_kind p))
      /\ (p_kind p = Literal -> stops_literal c r = true)
      /\ (p_kind p = LeftCurlyBrace -> p_text p = [c_lcurly] -> c <> c_percent)
      /\ (p_kind p = Literal -> loose_end c_percent p -> c <> c_rcurly)
      /\ (p_kind p = Literal -> loose_end c_cr p -> c <> c_nl)
  end.

Lemma char_eqb_no : forall a b, a <> b -> char_eqb a b = false.
Proof. intros a b N. destruct (char_eqb a b) eqn:E; [apply char_eqb_eq in E; congruence|reflexivity]. Qed.

Lemma char_run_repeat_app : forall c n rest,
  match rest with [] => True | d :: _ => d <> c end -> char_run c (repeat c n ++ rest) = (repeat c n, rest).
Proof.
  intros c n rest H. induction n; cbn [repeat app char_run].
  - destruct rest as [|d r]; [reflexivity|]. cbn [char_run]. rewrite char_eqb_no by exact H. reflexivity.
  - rewrite char_eqb_refl, IHn. reflexivity.
Qed.

(** A character that is not special does not stop a literal unless it begins a pair. *)
Lemma plain_char : forall c s, special c = false ->
  (c = c_percent -> match s with d :: _ => d <> c_rcurly | [] => True end) ->
  (c = c_cr -> match s with d :: _ => d <> c_nl | [] => True end) ->
  pair_kind c s = None /\ char_eqb c c_bslash = false /\ (c <> c_space -> run_kind c = None) /\ single_kind c = None
  /\ stops_literal c s = false.
Proof.
  intros c s S P R. unfold special in S. cbn [existsb] in S.
  repeat (apply orb_false_iff in S; let X := fresh "X" in destruct S as [X S]).
  assert (A : pair_kind c s = None).
  { unfold pair_kind. rewrite X. destruct s as [|d s]; [reflexivity|].
    destruct (char_eqb c c_cr && char_eqb d c_nl) eqn:E.
    { apply andb_true_iff in E. destruct E as [E1 E2]. apply char_eqb_eq in E1, E2. exfalso. exact (R E1 E2). }
    rewrite X4. cbn [andb].
    destruct (char_eqb c c_percent && char_eqb d c_rcurly) eqn:E1; [|reflexivity].
    apply andb_true_iff in E1. destruct E1 as [E1 E2]. apply char_eqb_eq in E1, E2. exfalso. exact (P E1 E2). }
  assert (B : char_eqb c c_bslash = false) by assumption.
  assert (C : c <> c_space -> run_kind c = None).
  { intros N. unfold run_kind. rewrite (char_eqb_no _ _ N).
    repeat match goal with H : char_eqb c ?x = false |- _ => rewrite H; clear H end. reflexivity. }
  assert (D : single_kind c = None).
  { unfold single_kind. repeat match goal with H : char_eqb c ?x = false |- _ => rewrite H; clear H end. reflexivity. }
  split; [exact A|]. split; [exact B|]. split; [exact C|]. split; [exact D|].
  unfold stops_literal. rewrite A, B, D. cbn [is_some orb].
  destruct (char_eqb c c_space) eqn:E; [rewrite andb_false_r; reflexivity|].
  rewrite C; [reflexivity|]. intros ->. discriminate.
Qed.

Lemma lit_run_plain : forall a rest, Forall (fun d => special d = false) a ->
  match rest with [] => True | c :: r => stops_literal c r = true end ->
  (forall x, a = x ++ [c_percent] -> match rest with d :: _ => d <> c_rcurly | [] => True end) ->
  (forall x, a = x ++ [c_cr] -> match rest with d :: _ => d <> c_nl | [] => True end) ->
  lit_run (a ++ rest) = (a, rest).
Proof.
  induction a as [|c a IH]; intros rest F S P R; cbn [app].
  - destruct rest as [|c r]; [reflexivity|]. apply lit_run_stop. exact S.
  - inversion F as [|? ? S1 F1]; subst. cbn [lit_run].
    destruct (plain_char c (a ++ rest) S1) as (_ & _ & _ & _ & ->).
    + intros ->. destruct a as [|d a]; [exact (P [] eq_refl)|]. cbn [app].
      inversion F1 as [|? ? S2 _]; subst. intros ->. discriminate.
    + intros ->. destruct a as [|d a]; [exact (R [] eq_refl)|]. cbn [app].
      inversion F1 as [|? ? S2 _]; subst. intros ->. discriminate.
    + rewrite IH; auto; intros x ->; [apply (P (c :: x))|apply (R (c :: x))]; reflexivity.
Qed.

Lemma run_scan : forall c k n rest, run_kind c = Some k ->
  match rest with [] => True | d :: _ => run_kind d <> Some k end ->
  (c = c_lcurly -> n = 0 -> match rest with [] => True | d :: _ => d <> c_percent end) ->
  scan_one (repeat c (S n) ++ rest) = Some (mk_piece k (repeat c (S n)) false, rest).
Proof.
  intros c k n rest K H P. cbn [repeat app]. unfold scan_one.
  assert (X : pair_kind c (repeat c n ++ rest) = None).
  { unfold pair_kind.
    destruct (char_eqb c c_nl) eqn:E; [apply char_eqb_eq in E; subst c; discriminate|].
    destruct (repeat c n ++ rest) as [|d l] eqn:L; [reflexivity|].
    destruct (char_eqb c c_cr) eqn:E1; [apply char_eqb_eq in E1; subst c; discriminate|].
    destruct (char_eqb c c_percent) eqn:E2; [apply char_eqb_eq in E2; subst c; discriminate|].
    cbn [andb].
    destruct (char_eqb c c_lcurly && char_eqb d c_percent) eqn:E3; [|reflexivity].
    apply andb_true_iff in E3. destruct E3 as [E3 E4]. apply char_eqb_eq in E3, E4. subst.
    destruct n; cbn [repeat app] in L; [|injection L as L1 L2; discriminate].
    subst rest. exfalso. exact (P eq_refl eq_refl eq_refl). }
  rewrite X.
  destruct (char_eqb c c_bslash) eqn:B; [apply char_eqb_eq in B; subst c; discriminate|].
  rewrite K, char_run_repeat_app; [reflexivity|].
  destruct rest as [|d r]; [exact I|]. intros ->. exact (H K).
Qed.

Lemma scan_follow : forall p rest, piece_ok p -> p_kind p <> Terminator -> follow p rest ->
  scan_one (p_src p ++ rest) = Some (p, rest).
Proof.
  intros [k t e] rest [T E] NT F. cbn [p_kind p_text p_esc] in *. unfold p_src. cbn [p_esc p_text].
  assert (RUN : forall c, run_kind c = Some k -> is_run_kind k = true -> (c = c_lcurly -> k = LeftCurlyBrace) ->
    (exists n, t = repeat c (S n)) -> k <> Literal ->
    scan_one ((if e then [c_bslash] else []) ++ t ++ rest) = Some (mk_piece k t e, rest)).
  { intros c K R C (n & ->) NL. destruct e; [destruct NL; auto|]. cbn [app].
    apply run_scan; [exact K| |].
    - destruct rest as [|d r]; [exact I|]. cbn [follow p_kind p_text] in F; destruct F as (F & _). exact (F R).
    - intros HC ->. destruct rest as [|d r]; [exact I|]. cbn [follow p_kind p_text] in F; destruct F as (_ & _ & F & _). rewrite HC in F. exact (F (C HC) eq_refl). }
  rewrite <- app_assoc.
  destruct k; try congruence; cbn [kind_text] in T;
    try (match type of T with exists n, _ = repeat ?c _ =>
           apply (RUN c); [reflexivity|reflexivity|intros X; first [reflexivity|discriminate X]|exact T|discriminate] end);
    try (destruct e; [specialize (E eq_refl); discriminate|]; subst t; destruct rest; reflexivity).
  - destruct e; [specialize (E eq_refl); discriminate|]. destruct T as [-> | ->]; reflexivity.
  - destruct T as (c & a & -> & Fa & G).
    assert (L : lit_run (a ++ rest) = (a, rest)).
    { apply lit_run_plain; [exact Fa|..].
      - destruct rest; [exact I|]. cbn [follow p_kind p_text] in F; destruct F as (_ & F & _). exact (F eq_refl).
      - intros x ->. destruct rest as [|d r]; [exact I|]. cbn [follow p_kind p_text] in F; destruct F as (_ & _ & _ & F & _). apply (F eq_refl).
        exists (c :: x). split; [reflexivity|discriminate].
      - intros x ->. destruct rest as [|d r]; [exact I|]. cbn [follow p_kind p_text] in F; destruct F as (_ & _ & _ & _ & F). apply (F eq_refl).
        exists (c :: x). split; [reflexivity|discriminate]. }
    destruct e; cbn [app].
    + unfold scan_one. change (pair_kind c_bslash (c :: a ++ rest)) with (@None (token_kind * str)).
      change (char_eqb c_bslash c_bslash) with true. cbn match. rewrite L. reflexivity.
    + destruct (G eq_refl) as [G1 G2]. unfold scan_one.
      destruct (plain_char c (a ++ rest) G1) as (X1 & X2 & X3 & X4 & _).
      * intros ->. destruct a as [|d a]; cbn [app].
        -- destruct rest as [|d r]; [exact I|]. cbn [follow p_kind p_text] in F; destruct F as (_ & _ & _ & F & _). apply (F eq_refl).
           exists []. split; [reflexivity|discriminate].
        -- inversion Fa as [|? ? S2 _]; subst. intros ->. discriminate.
      * intros ->. destruct a as [|d a]; cbn [app].
        -- destruct rest as [|d r]; [exact I|]. cbn [follow p_kind p_text] in F; destruct F as (_ & _ & _ & _ & F). apply (F eq_refl).
           exists []. split; [reflexivity|discriminate].
        -- inversion Fa as [|? ? S2 _]; subst. intros ->. discriminate.
      * rewrite X1, X2, (X3 G2), X4, L. reflexivity.
Qed.

(** ** The converse *)

Lemma pair_false : forall s p c d r, scan_one s = Some (p, d :: r) -> p_kind p = Literal ->
  loose_end c p -> (c = c_percent /\ d = c_rcurly) \/ (c = c_cr /\ d = c_nl) -> False.
Proof.
  intros s p c d r H K (x & X & N) CD.
  assert (PK : forall l, exists q, pair_kind c (d :: l) = Some q).
  { intros l. destruct CD as [[-> ->]|[-> ->]]; eexists; reflexivity. }
  assert (LR : forall s a b y, lit_run s = (a, b) -> a = y ++ [c] -> b = d :: r -> False).
  { clear H X. induction s0 as [|e s0 IH]; intros a b y H A B; cbn [lit_run] in H.
    - injection H as <- <-. destruct y; discriminate.
    - destruct (stops_literal e s0) eqn:E.
      + injection H as <- <-. destruct y; discriminate.
      + destruct (lit_run s0) as [a' b'] eqn:L. injection H as <- <-. destruct y as [|f y]; cbn [app] in A.
        * injection A as -> ->. apply lit_run_app in L. subst. cbn [app] in E.
          unfold stops_literal in E. destruct (PK r) as [q Q]. rewrite Q in E. discriminate.
        * injection A as -> A. eapply IH; eauto. }
  unfold scan_one in H. destruct s as [|e s]; [discriminate|].
  destruct (pair_kind e s) as [[k t]|] eqn:PE.
  { injection H as <- _. cbn in K. apply pair_kind_not_run in PE. destruct PE; congruence. }
  destruct (char_eqb e c_bslash) eqn:B.
  { destruct s as [|f s]; [discriminate|]. destruct (lit_run s) as [a b] eqn:L. injection H as <- Hb.
    cbn [p_text p_esc] in X, N. destruct x as [|y x]; [exact (N eq_refl eq_refl)|]. injection X as _ X.
    eapply LR; eauto. }
  destruct (run_kind e) eqn:RK.
  { destruct (char_run e s) as [a b]. injection H as <- _. cbn in K. subst. apply run_kind_is_run in RK. discriminate. }
  destruct (single_kind e) eqn:SK.
  { injection H as <- _. cbn in K. apply single_kind_not_run in SK. destruct SK; congruence. }
  destruct (lit_run s) as [a b] eqn:L. injection H as <- Hb. cbn [p_text p_esc] in X, N.
  destruct x as [|y x]; cbn [app] in X; injection X as -> X.
  - subst a. apply lit_run_app in L. subst. cbn [app] in PE. destruct (PK r) as [q Q]. congruence.
  - eapply LR; eauto.
Qed.

Lemma follow_scan : forall s p r, scan_one s = Some (p, r) -> follow p r.
Proof.
  intros s p r H. destruct r as [|d r]; [exact I|]. cbn [follow].
  split; [|split; [|split; [|split]]].
  - intros R K. assert (E : p_esc p = false).
    { destruct (p_esc p) eqn:X; [|reflexivity]. apply scan_one_ok in H. destruct H as [_ H].
      rewrite (H X) in R. discriminate. }
    destruct (scan_run_char _ _ _ H E R) as (c & s' & -> & K1 & L).
    assert (c = d) by (eapply run_char_inj; eauto). subst d.
    destruct (char_run c s') as [a b] eqn:Q. cbn [snd] in L. subst b. apply char_run_max in Q.
    rewrite char_eqb_refl in Q. discriminate.
  - intros K. exact (scan_lit_rest _ _ _ H K).
  - intros K T ->. pose proof (scan_one_app _ _ _ H) as [A _]. unfold p_src in A. rewrite T in A.
    assert (E : p_esc p = false).
    { destruct (p_esc p) eqn:X; [|reflexivity]. apply scan_one_ok in H. destruct H as [_ H].
      rewrite (H X) in K. discriminate. }
    rewrite E in A. subst s. cbn in H. injection H as <- _. discriminate.
  - intros K L ->. eapply pair_false; eauto.
  - intros K L ->. eapply pair_false; eauto.
Qed.

(** ** Between pieces and characters *)

Definition raw_clash (p q : piece) : Prop :=
  p_esc q = false /\
  (   (is_run_kind (p_kind p) = true /\ exists c, begins c p /\ begins c q)
   \/ (p_kind p = Literal /\ (p_kind q = Literal \/ p_kind q = Space))
   \/ (p_kind p = LeftCurlyBrace /\ p_text p = [c_lcurly] /\ begins c_percent q)
   \/ (p_kind p = Literal /\ loose_end c_percent p /\ begins c_rcurly q)
   \/ (p_kind p = Literal /\ loose_end c_cr p /\ begins c_nl q)).

Lemma stops_run : forall c k s, run_kind c = Some k -> c <> c_space -> stops_literal c s = true.
Proof.
  intros c k s H N. unfold stops_literal. rewrite H, (char_eqb_no _ _ N). cbn [is_some negb andb].
  rewrite orb_true_r. reflexivity.
Qed.
Lemma stops_bslash : forall s, stops_literal c_bslash s = true.
Proof. intros s. unfold stops_literal. change (char_eqb c_bslash c_bslash) with true. rewrite orb_true_r. reflexivity. Qed.
Lemma stops_single : forall c k s, single_kind c = Some k -> stops_literal c s = true.
Proof. intros c k s H. unfold stops_literal. rewrite H. cbn [is_some]. apply orb_true_r. Qed.

Lemma piece_first : forall q, piece_ok q -> p_esc q = false ->
  exists c x, p_text q = c :: x
    /\ (forall k, is_run_kind k = true -> run_kind c = Some k -> p_kind q = k \/ (c = c_lcurly /\ p_kind q = CollapsibleStart))
    /\ (p_kind q <> Literal -> p_kind q <> Space -> forall r, stops_literal c (x ++ r) = true).
Proof.
  intros [k t e] [T _] E. cbn [p_kind p_text p_esc] in *. subst e.
  destruct k; cbn [kind_text] in T;
    try (match type of T with
         | exists n, _ = repeat ?c _ => destruct T as [n T]; exists c, (repeat c n)
         | _ = [?c] => exists c, []
         | _ = [?c; ?d] => exists c, [d]
         end;
         (split; [exact T|]);
         (split; [intros k _ H; first [discriminate H|injection H as <-; auto]|]);
         intros; first [congruence|reflexivity|eapply stops_run; [reflexivity|discriminate]|eapply stops_single; reflexivity]).
  - destruct T as (a & b & -> & [-> | ->] & _); eexists; eexists; (split; [reflexivity|]); (split; [intros k _ H; discriminate H|reflexivity]).
  - destruct T as [-> | ->]; eexists; eexists; (split; [reflexivity|]); (split; [intros k _ H; discriminate H|reflexivity]).
  - destruct T as (c & a & -> & Fa & G). destruct (G eq_refl) as [G1 G2]. exists c, a. split; [reflexivity|].
    split; [|congruence]. intros k R H. exfalso. unfold special in G1. cbn [existsb] in G1.
    repeat (apply orb_false_iff in G1; let X := fresh "X" in destruct G1 as [X G1]).
    unfold run_kind in H. rewrite (char_eqb_no _ _ G2) in H.
    repeat match goal with Y : char_eqb c ?x = false |- _ => rewrite Y in H; clear Y end. discriminate.
Qed.


(** The first character of a run tells its kind. *)
Lemma run_first : forall p, piece_ok p -> is_run_kind (p_kind p) = true ->
  exists c, begins c p /\ run_kind c = Some (p_kind p).
Proof.
  intros [k t e] [T _] R. cbn [p_kind p_text p_esc] in *. unfold begins. cbn [p_text].
  destruct k; try discriminate R; cbn [kind_text] in T; destruct T as [n ->]; eexists;
    (split; [eexists; reflexivity|reflexivity]).
Qed.

Lemma clash_follow : forall p q rest, piece_ok p -> piece_ok q -> ~ raw_clash p q -> follow p (p_src q ++ rest).
Proof.
  intros p q rest P Q N. unfold p_src. destruct (p_esc q) eqn:E; cbn [app follow].
  - split; [intros R H; discriminate H|]. split; [intros; apply stops_bslash|].
    split; [intros; discriminate|]. split; intros; discriminate.
  - destruct (piece_first q Q E) as (c & x & T & K & S). rewrite T. cbn [app follow].
    assert (B : begins c q) by (exists x; exact T).
    split; [|split; [|split; [|split]]].
    + intros R H. apply N. split; [exact E|]. left. split; [exact R|].
      destruct (run_first p P R) as (d & D1 & D2). assert (c = d) by (eapply run_char_inj; eauto). subst d. eauto.
    + intros L. apply S; intros X; apply N; (split; [exact E|]); right; left; auto.
    + intros L X ->. apply N. split; [exact E|]. right; right; left; auto.
    + intros L X ->. apply N. split; [exact E|]. right; right; right; left; auto.
    + intros L X ->. apply N. split; [exact E|]. right; right; right; right; auto.
Qed.

Lemma follow_clash : forall p s q rest, piece_ok p -> scan_one s = Some (q, rest) -> follow p s -> ~ raw_clash p q.
Proof.
  intros p s q rest P H F [E C]. pose proof (scan_one_ok _ _ _ H) as Q. pose proof (scan_one_app _ _ _ H) as [A _].
  unfold p_src in A. rewrite E in A. cbn [app] in A.
  destruct (piece_first q Q E) as (c & x & T & K & S). rewrite T in A. cbn [app] in A. rewrite A in F. cbn [follow] in F.
  destruct F as (F1 & F2 & F3 & F4 & F5).
  assert (B : forall d, begins d q -> d = c). { intros d [y Y]. congruence. }
  destruct C as [[R (d & D1 & D2)]|[[L X]|[[L [X D]]|[[L [X D]]|[L [X D]]]]]].
  - apply B in D2. subst d. destruct (run_first p P R) as (d & D3 & D4). destruct D1 as [y1 Y1], D3 as [y2 Y2].
    assert (c = d) by congruence. subst d. exact (F1 R D4).
  - specialize (F2 L). rewrite A in H. pose proof (scan_lit_stop _ _ _ H E F2) as [Y1 Y2]. destruct X; auto.
  - exact (F3 L X (eq_sym (B _ D))).
  - exact (F4 L X (eq_sym (B _ D))).
  - exact (F5 L X (eq_sym (B _ D))).
Qed.

(** ** Lists of pieces before line endings are merged *)

Lemma raw_pieces_of : forall l tl, Forall piece_ok l -> Forall (fun p => p_kind p <> Terminator) l ->
  chain (fun p q => ~ raw_clash p q) l -> tl = [] \/ tl = [c_bslash] ->
  raw_pieces (flat_map p_src l ++ tl) = l.
Proof.
  intros l tl F G C TL.
  induction l as [|p l IH].
  - destruct TL as [-> | ->]; reflexivity.
  - inversion F as [|? ? P F1]; subst. inversion G as [|? ? K G1]; subst.
    cbn [flat_map]. rewrite <- app_assoc, raw_unfold, scan_follow; [| assumption | assumption |].
    + rewrite IH; auto. destruct l; [exact I|]. apply C.
    + destruct l as [|q l].
      * cbn [flat_map app]. destruct TL as [-> | ->]; [exact I|]. cbn [follow].
        split; [intros R X; discriminate X|]. split; [intros; apply stops_bslash|].
        split; [intros; discriminate|]. split; intros; discriminate.
      * cbn [flat_map]. rewrite <- app_assoc. apply clash_follow; [exact P| |apply C].
        inversion F1; assumption.
Qed.

Lemma raw_clash_free : forall s, chain (fun p q => ~ raw_clash p q) (raw_pieces s).
Proof.
  apply raw_ind.
  - intros s H. rewrite raw_unfold, H. exact I.
  - intros s p r H IH. rewrite raw_unfold, H. cbn [chain].
    rewrite raw_unfold in IH |- *. destruct (scan_one r) as [[q r']|] eqn:E; [|exact I].
    split; [|exact IH]. eapply follow_clash; [eapply scan_one_ok; exact H|exact E|eapply follow_scan; exact H].
Qed.

Lemma clash_raw : forall p q, clash p q <->
  raw_clash p q \/ (p_esc q = false /\ p_kind p = Eol /\ (p_kind q = Eol \/ p_kind q = Terminator)).
Proof. intros p q. unfold clash, raw_clash. tauto. Qed.

Lemma merge_clash_free : forall l, Forall piece_ok l -> Forall (fun p => p_kind p <> Terminator) l ->
  chain (fun p q => ~ raw_clash p q) l -> chain (fun p q => ~ clash p q) (merge l).
Proof.
  apply (merge_ind (fun l m => Forall piece_ok l -> Forall (fun p => p_kind p <> Terminator) l ->
    chain (fun p q => ~ raw_clash p q) l -> chain (fun p q => ~ clash p q) m)).
  - intros; exact I.
  - intros; exact I.
  - intros p q l K1 K2 IH F G C.
    inversion F as [|? ? P F1]; subst. inversion F1 as [|? ? Q F2]; subst.
    inversion G as [|? ? P' G1]; subst. inversion G1 as [|? ? Q' G2]; subst.
    assert (C' : chain (fun p q => ~ raw_clash p q) l). { cbn [chain] in C. destruct C as [_ C]. destruct l; [exact I|]. apply C. }
    specialize (IH F2 G2 C'). destruct (merge l) as [|x m]; [exact I|]. cbn [chain]. split; [|exact IH].
    intros [_ D]. cbn [p_kind p_text is_run_kind] in D.
    destruct D as [[D _]|[[D _]|[[D _]|[[D _]|[[D _]|[D _]]]]]]; discriminate D.
  - intros p q l K IH F G C.
    inversion F as [|? ? P F1]; subst. inversion G as [|? ? P' G1]; subst. cbn [chain] in C. destruct C as [C0 C].
    specialize (IH F1 G1 C). inversion F1 as [|? ? Q F2]; subst. inversion G1 as [|? ? Q' G2]; subst.
    destruct l as [|q2 l].
    + cbn [merge chain]. split; [|exact I]. rewrite clash_raw. intros [D|(D1 & D2 & [D3|D3])]; [exact (C0 D)| |exact (Q' D3)].
      destruct K; congruence.
    + cbn [merge] in *. destruct (kind_eqb (p_kind q) Eol && kind_eqb (p_kind q2) Eol) eqn:E.
      * apply andb_true_iff in E. destruct E as [E1 E2]. apply kind_eqb_eq in E1, E2.
        assert (KP : p_kind p <> Eol) by (destruct K; congruence).
        cbn [chain]. split; [|exact IH]. rewrite clash_raw. intros [D|(D1 & D2 & _)]; [|exact (KP D2)].
        apply C0. assert (EQ : p_esc q = false).
        { destruct (p_esc q) eqn:X; [|reflexivity]. destruct Q as [_ Q]. rewrite (Q X) in E1. discriminate. }
        assert (B : forall c, begins c (mk_piece Terminator (p_text q ++ p_text q2) false) -> begins c q).
        { intros c [y Y]. cbn [p_text] in Y. destruct Q as [Q _]. apply kind_text_nonempty in Q.
          destruct (p_text q) as [|d t] eqn:T; [congruence|]. injection Y as -> _. exists t. exact T. }
        destruct D as [_ D]. split; [exact EQ|].
        destruct D as [[R (d & D1 & D2)]|[[_ D]|[[L [X D]]|[[L [X D]]|[L [X D]]]]]].
        -- left. eauto.
        -- destruct D; discriminate.
        -- right; right; left; auto.
        -- right; right; right; left; auto.
        -- right; right; right; right; auto.
      * cbn [chain] in IH |- *. split; [|exact IH]. rewrite clash_raw.
        intros [D|(D1 & D2 & [D3|D3])]; [exact (C0 D)| |exact (Q' D3)]. destruct K; congruence.
Qed.

(** ** Taking blank lines apart again *)

Definition cut_piece (p : piece) : list piece :=
  if kind_eqb (p_kind p) Terminator then
    match p_text p with
    | c :: x => if char_eqb c c_nl then [mk_piece Eol [c] false; mk_piece Eol x false]
                else [mk_piece Eol (firstn 2 (p_text p)) false; mk_piece Eol (skipn 2 (p_text p)) false]
    | [] => []
    end
  else [p].

Lemma cut_shape : forall p, piece_ok p ->
  (p_kind p <> Terminator /\ cut_piece p = [p])
  \/ exists a b, p = mk_piece Terminator (a ++ b) false /\ line_ending a /\ line_ending b
       /\ cut_piece p = [mk_piece Eol a false; mk_piece Eol b false].
Proof.
  intros [k t e] [T E]. unfold cut_piece. cbn [p_kind p_text p_esc] in *.
  destruct (kind_eqb k Terminator) eqn:K.
  - apply kind_eqb_eq in K. subst k. right. cbn [kind_text] in T. destruct T as (a & b & -> & A & B).
    destruct e; [specialize (E eq_refl); discriminate|].
    exists a, b. split; [reflexivity|]. split; [exact A|]. split; [exact B|].
    destruct A as [-> | ->]; reflexivity.
  - left. apply kind_eqb_neq in K. auto.
Qed.

Lemma cut_raw : forall ps, Forall piece_ok ps -> chain (fun p q => ~ clash p q) ps ->
  let l := flat_map cut_piece ps in
  Forall piece_ok l /\ Forall (fun p => p_kind p <> Terminator) l
  /\ chain (fun p q => ~ raw_clash p q) l /\ merge l = ps /\ flat_map p_src l = flat_map p_src ps.
Proof.
  intros ps F C l. subst l.
  assert (AFTER : forall p, p_kind p = Eol -> forall q, ~ raw_clash p q).
  { intros p K q [_ D]. rewrite K in D. cbn [is_run_kind] in D.
    destruct D as [[D _]|[[D _]|[[D _]|[[D _]|[D _]]]]]; discriminate D. }
  induction ps as [|p ps IH]; [repeat split; constructor|].
  inversion F as [|? ? P F1]; subst.
  assert (C1 : chain (fun p q => ~ clash p q) ps) by (destruct ps; [exact I|apply C]).
  destruct (IH F1 C1) as (H1 & H2 & H3 & H4 & H5). clear IH. cbn [flat_map].
  destruct (cut_shape p P) as [[K ->]|(a & b & -> & A & B & ->)]; cbn [app].
  - split; [constructor; assumption|]. split; [constructor; assumption|].
    split; [|split; [|cbn [flat_map]; rewrite H5; reflexivity]].
    + destruct ps as [|q ps]; [exact I|]. cbn [chain] in C. destruct C as [C0 _].
      inversion F1 as [|? ? Q _]; subst. cbn [flat_map] in *.
      destruct (cut_shape q Q) as [[KQ EQ]|(a & b & -> & A & B & EQ)]; rewrite EQ in *; cbn [app chain] in *;
        (split; [|exact H3]).
      * intros D. apply C0. apply clash_raw. auto.
      * intros [_ D]. apply C0. apply clash_raw. left. split; [reflexivity|].
        assert (BB : forall c, begins c (mk_piece Eol a false) -> begins c (mk_piece Terminator (a ++ b) false)).
        { intros c [y Y]. cbn [p_text] in Y. subst a. exists (y ++ b). reflexivity. }
        destruct D as [[R (d & D1 & D2)]|[[_ D]|[[L [X D]]|[[L [X D]]|[L [X D]]]]]].
        -- left. eauto.
        -- destruct D; discriminate.
        -- right; right; left; auto.
        -- right; right; right; left; auto.
        -- right; right; right; right; auto.
    + destruct ps as [|q ps]; [reflexivity|]. cbn [chain] in C. destruct C as [C0 _].
      inversion F1 as [|? ? Q _]; subst. cbn [flat_map] in *.
      assert (KE : p_kind p = Eol -> p_kind q <> Eol /\ p_kind q <> Terminator).
      { intros KP. assert (EQ : p_esc q = true \/ p_esc q = false) by (destruct (p_esc q); auto).
        destruct EQ as [EQ|EQ]; [destruct Q as [_ Q]; rewrite (Q EQ); split; discriminate|].
        split; intros X; apply C0, clash_raw; right; auto. }
      destruct (cut_shape q Q) as [[KQ EQ]|(a & b & -> & A & B & EQ)]; rewrite EQ in *; cbn [app] in *.
      * cbn [merge]. cbn [merge] in H4.
        destruct (kind_eqb (p_kind p) Eol && kind_eqb (p_kind q) Eol) eqn:Z; [|f_equal; exact H4].
        apply andb_true_iff in Z. destruct Z as [Z1 Z2]. apply kind_eqb_eq in Z1, Z2. destruct (KE Z1); contradiction.
      * destruct (kind_eqb (p_kind p) Eol) eqn:Z; [apply kind_eqb_eq in Z; destruct (KE Z) as [_ X]; cbn in X; congruence|].
        change (merge (p :: mk_piece Eol a false :: mk_piece Eol b false :: flat_map cut_piece ps))
          with (if kind_eqb (p_kind p) Eol && kind_eqb Eol Eol
                then mk_piece Terminator (p_text p ++ a) false :: merge (mk_piece Eol b false :: flat_map cut_piece ps)
                else p :: merge (mk_piece Eol a false :: mk_piece Eol b false :: flat_map cut_piece ps)).
        rewrite Z. cbn [andb]. rewrite H4. reflexivity.
  - split; [|split; [|split; [|split]]].
    + constructor; [split; [exact A|discriminate]|]. constructor; [split; [exact B|discriminate]|]. exact H1.
    + constructor; [discriminate|]. constructor; [discriminate|]. exact H2.
    + cbn [chain]. split; [apply AFTER; reflexivity|].
      destruct (flat_map cut_piece ps) as [|x l] eqn:L; [exact I|]. split; [apply AFTER; reflexivity|]. exact H3.
    + cbn [merge p_kind p_text]. change (kind_eqb Eol Eol) with true. cbn [andb]. rewrite H4. reflexivity.
    + cbn [flat_map]. rewrite H5. unfold p_src at 1 2 4. cbn [p_esc p_text app]. rewrite <- app_assoc. reflexivity.
Qed.

(** ** The pieces that occur *)

Lemma chain_iff : forall A (R : A -> A -> Prop) l, chain R l <-> forall a p q b, l = a ++ p :: q :: b -> R p q.
Proof.
  intros A R l. split.
  - intros C a p q b ->. apply (chain_nth _ R _ (length a) p q C).
    + rewrite nth_error_app2, Nat.sub_diag by lia. reflexivity.
    + rewrite nth_error_app2 by lia. replace (S (length a) - length a) with 1 by lia. reflexivity.
  - induction l as [|x l IH]; intros H; [exact I|]. destruct l as [|y l]; [exact I|]. cbn [chain]. split.
    + exact (H [] x y l eq_refl).
    + apply IH. intros a p q b E. apply (H (x :: a) p q b). cbn [app]. rewrite <- E. reflexivity.
Qed.

Lemma token_list_iff : forall ps, token_list ps <-> Forall piece_ok ps /\ chain (fun p q => ~ clash p q) ps.
Proof.
  intros ps. unfold token_list. rewrite chain_iff, Forall_forall. unfold piece_ok. tauto.
Qed.

Lemma token_list_pieces : forall s, token_list (pieces s).
Proof.
  intros s. apply token_list_iff. split; [apply pieces_ok|]. unfold pieces.
  apply merge_clash_free; [apply raw_all_ok| |apply raw_clash_free].
  eapply Forall_impl; [|apply raw_pieces_ok]. intros p H K. unfold raw_ok in H. rewrite K in H. intuition congruence.
Qed.

Lemma pieces_token_list : forall ps tl, token_list ps -> tl = [] \/ tl = [c_bslash] -> pieces (flat_map p_src ps ++ tl) = ps.
Proof.
  intros ps tl H TL. apply token_list_iff in H. destruct H as [F C].
  destruct (cut_raw ps F C) as (H1 & H2 & H3 & H4 & H5). unfold pieces.
  rewrite <- H5, raw_pieces_of by assumption. exact H4.
Qed.

Lemma lex_tokens : forall ps, token_list ps -> lex (flat_map p_src ps) = Ok (annotate 0 0 0 ps).
Proof.
  intros ps H. rewrite lex_correct. unfold spec_tokens.
  pose proof (pieces_token_list ps [] H (or_introl eq_refl)) as E. rewrite app_nil_r in E. rewrite E. reflexivity.
Qed.

Lemma lex_image : forall ts, (exists s, lex s = Ok ts) <-> exists ps, token_list ps /\ ts = annotate 0 0 0 ps.
Proof.
  intros ts. split.
  - intros [s H]. rewrite lex_correct in H. injection H as <-. exists (pieces s). split; [apply token_list_pieces|reflexivity].
  - intros (ps & H & ->). exists (flat_map p_src ps). apply lex_tokens. exact H.
Qed.

(** ** Cutting a text *)

Lemma sub_list : forall a b c, token_list (a ++ b ++ c) -> token_list b.
Proof.
  intros a b c [H1 H2]. split.
  - intros p P. apply H1. apply in_or_app. right. apply in_or_app. auto.
  - intros x p q y ->. apply (H2 (a ++ x) p q (y ++ c)). rewrite <- !app_assoc. reflexivity.
Qed.

Lemma lex_part : forall s a b c, pieces s = a ++ b ++ c -> lex (flat_map p_src b) = Ok (annotate 0 0 0 b).
Proof. intros s a b c H. apply lex_tokens, (sub_list a b c). rewrite <- H. apply token_list_pieces. Qed.

Lemma token_list_app : forall l m, token_list l -> token_list m -> (token_list (l ++ m) <-> meets l m).
Proof.
  intros l m [L1 L2] [M1 M2]. split.
  - intros [_ H] a p q b -> ->. apply (H a p q b). rewrite <- app_assoc. reflexivity.
  - intros H. split; [intros p P; apply in_app_or in P; destruct P; auto|].
    intros a p q b E.
    destruct (Nat.lt_ge_cases (length a) (length l)) as [LA|LA].
    + assert (PL : l = a ++ skipn (length a) l).
      { assert (X : firstn (length a) l = a).
        { transitivity (firstn (length a) (l ++ m)); [|rewrite E; rewrite firstn_app, firstn_all, Nat.sub_diag, firstn_O, app_nil_r; reflexivity].
          rewrite firstn_app. replace (length a - length l) with 0 by lia. rewrite firstn_O, app_nil_r. reflexivity. }
        rewrite <- X at 1. symmetry. apply firstn_skipn. }
      remember (skipn (length a) l) as t eqn:T. rewrite PL in E. rewrite <- app_assoc in E. apply app_inv_head in E.
      destruct t as [|p' t]; [rewrite app_nil_r in PL; apply (f_equal (@length _)) in PL; lia|].
      cbn [app] in E. injection E as -> E. destruct t as [|q' t]; cbn [app] in E.
      * exact (H a p q b PL E).
      * injection E as -> E. exact (L2 a p q t PL).
    + assert (PL : exists a', a = l ++ a').
      { exists (skipn (length l) a). rewrite <- (firstn_skipn (length l) a) at 1. f_equal.
        transitivity (firstn (length l) (l ++ m)); [rewrite E|].
        - rewrite firstn_app. replace (length l - length a) with 0 by lia. rewrite firstn_O, app_nil_r. reflexivity.
        - rewrite firstn_app, firstn_all, Nat.sub_diag, firstn_O, app_nil_r. reflexivity. }
      destruct PL as [a' ->]. rewrite <- app_assoc in E. apply app_inv_head in E. exact (M2 a' p q b E).
Qed.

Lemma dangling_src : forall s tl, s = flat_map p_src (pieces s) ++ tl -> tl = [] \/ tl = [c_bslash] ->
  (dangling s = true <-> tl = [c_bslash]).
Proof.
  intros s tl H TL. rewrite H at 1. rewrite dangling_pieces by apply pieces_ok.
  destruct TL as [-> | ->]; cbn; split; congruence.
Qed.

Lemma all_bslash : forall u, c_bslash :: u = u ++ [c_bslash] -> u = repeat c_bslash (length u).
Proof.
  induction u as [|c u IH]; intros H; [reflexivity|]. cbn [app] in H. injection H as <- H.
  cbn [length repeat]. f_equal. apply IH. exact H.
Qed.
Lemma bslash_last : forall n, c_bslash :: repeat c_bslash n = repeat c_bslash n ++ [c_bslash].
Proof. induction n; [reflexivity|]. cbn [repeat app]. f_equal. exact IHn. Qed.
Lemma dangling_odd : forall n, dangling (repeat c_bslash (2 * n)) = false /\ dangling (repeat c_bslash (S (2 * n))) = true.
Proof.
  induction n as [|n [IH1 IH2]]; [split; reflexivity|]. replace (2 * S n) with (S (S (2 * n))) by lia.
  split; [exact IH1|exact IH2].
Qed.

Lemma cut_text : forall a b, pieces (a ++ b) = pieces a ++ pieces b <->
  (dangling a = true -> exists n, b = repeat c_bslash (2 * n)) /\ meets (pieces a) (pieces b).
Proof.
  intros a b. destruct (pieces_src a) as (ta & A & TA). destruct (pieces_src b) as (tb & B & TB).
  pose proof (dangling_src a ta A TA) as D. pose proof (dangling_src b tb B TB) as DB. split.
  - intros H. split.
    + intros X. apply D in X. subst ta. destruct (pieces_src (a ++ b)) as (t & E & T).
      rewrite H, flat_map_app in E. rewrite A in E at 1. rewrite B in E at 1. rewrite <- !app_assoc in E.
      apply app_inv_head in E.
      assert (TT : tb = [] /\ t = [c_bslash]).
      { pose proof (f_equal (@length _) E) as E1. rewrite !app_length in E1. cbn [length] in E1.
        destruct TB as [-> | ->], T as [-> | ->]; cbn [length] in E1; try lia; auto. }
      destruct TT as [-> ->]. rewrite app_nil_r in B, E. rewrite <- B in E. cbn [app] in E.
      apply all_bslash in E. destruct (Nat.Even_or_Odd (length b)) as [[n N]|[n N]].
      * exists n. rewrite <- N. exact E.
      * exfalso. assert (Y : dangling b = true).
        { rewrite E, N. replace (2 * n + 1) with (S (2 * n)) by lia. apply dangling_odd. }
        apply DB in Y. discriminate.
    + apply token_list_app; [apply token_list_pieces..|]. rewrite <- H. apply token_list_pieces.
  - intros [H1 H2].
    assert (T : token_list (pieces a ++ pieces b)) by (apply token_list_app; [apply token_list_pieces..|exact H2]).
    destruct TA as [-> | ->].
    + rewrite app_nil_r in A.
      transitivity (pieces (flat_map p_src (pieces a ++ pieces b) ++ tb)); [|apply pieces_token_list; assumption].
      rewrite flat_map_app, <- app_assoc, <- A, <- B. reflexivity.
    + destruct (H1 (proj2 D eq_refl)) as [n N].
      assert (tb = []) as ->.
      { destruct TB as [-> | TB]; [reflexivity|]. apply DB in TB. rewrite N in TB.
        destruct (dangling_odd n) as [Y _]. congruence. }
      rewrite app_nil_r in B.
      transitivity (pieces (flat_map p_src (pieces a ++ pieces b) ++ [c_bslash])); [|apply pieces_token_list; auto].
      rewrite flat_map_app, <- app_assoc, <- B. rewrite A at 1. rewrite <- app_assoc. f_equal. f_equal.
      rewrite N. cbn [app]. apply bslash_last.
Qed.

(** The same pieces come from the same text, up to a lone backslash at the end. *)
Lemma same_pieces : forall s s', pieces s = pieces s' <->
  exists w tl tl', s = w ++ tl /\ s' = w ++ tl' /\ dangling w = false /\ (tl = [] \/ tl = [c_bslash]) /\ (tl' = [] \/ tl' = [c_bslash]).
Proof.
  intros s s'. split.
  - intros H. destruct (pieces_src s) as (t & A & T). destruct (pieces_src s') as (t' & A' & T').
    exists (flat_map p_src (pieces s)), t, t'. rewrite <- H in A'.
    split; [exact A|]. split; [exact A'|]. split; [|auto].
    rewrite <- (app_nil_r (flat_map p_src (pieces s))), dangling_pieces by apply pieces_ok. reflexivity.
  - intros (w & tl & tl' & -> & -> & D & T & T').
    assert (X : forall t, t = [] \/ t = [c_bslash] -> pieces (w ++ t) = pieces w).
    { intros t Ht. destruct (pieces_src w) as (tw & W & TW). pose proof (dangling_src w tw W TW) as DW.
      assert (tw = []) as -> by (destruct TW as [|TW]; [assumption|apply DW in TW; congruence]).
      rewrite app_nil_r in W. rewrite W at 1. apply pieces_token_list; [apply token_list_pieces|exact Ht]. }
    rewrite (X tl T), (X tl' T'). reflexivity.
Qed.
