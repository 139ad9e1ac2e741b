(** Tokens of rendered units: where each token starts and ends in a list of (escaped, character)
    pairs, and when a list can be cut without changing the tokens. *)
From Coq Require Import String.
From Verif Require Import Base Lexer LexSpec LexProofs LexFacts Ops Parser FParser TokFacts Ast Units.

Fixpoint ulit (us : list uchar) : list uchar * list uchar :=
  match us with
  | [] => ([], [])
  | u :: r => if fst u || stops_literal (snd u) (render r) then ([], us) else let (a, b) := ulit r in (u :: a, b)
  end.
Fixpoint urun (c : char) (us : list uchar) : list uchar * list uchar :=
  match us with
  | [] => ([], [])
  | u :: r => if negb (fst u) && char_eqb (snd u) c then let (a, b) := urun c r in (u :: a, b) else ([], us)
  end.
Definition uraw (us : list uchar) : option (token_kind * list uchar * list uchar) :=
  match us with
  | [] => None
  | u :: r =>
      if fst u then let (a, b) := ulit r in Some (Literal, u :: a, b)
      else
        match pair_kind (snd u) (render r) with
        | Some (k, t) => Some (k, u :: firstn (List.length t - 1) r, skipn (List.length t - 1) r)
        | None =>
            match run_kind (snd u) with
            | Some k => let (a, b) := urun (snd u) r in Some (k, u :: a, b)
            | None =>
                match single_kind (snd u) with
                | Some k => Some (k, [u], r)
                | None => let (a, b) := ulit r in Some (Literal, u :: a, b)
                end
            end
        end
  end.
Definition utok (us : list uchar) : option (token_kind * list uchar * list uchar) :=
  match uraw us with
  | Some (Eol, g, r) =>
      match uraw r with
      | Some (Eol, g', r') => Some (Terminator, g ++ g', r')
      | _ => Some (Eol, g, r)
      end
  | x => x
  end.

(** ** Agreement with the lexical grammar *)

Definition first_esc (g : list uchar) : bool := match g with u :: _ => fst u | [] => false end.

Lemma valid_cons : forall u us, valid (u :: us) -> (fst u = false -> snd u <> c_bslash) /\ valid us.
Proof. intros u us H. inversion H; auto. Qed.

Lemma lit_run_units : forall us, valid us -> lit_run (render us) = (chars (fst (ulit us)), render (snd (ulit us))).
Proof.
  induction us as [|[e c] us IH]; intros V; [reflexivity|]. apply valid_cons in V. destruct V as [V0 V]. cbn [ulit fst snd]. destruct e.
  - cbn [orb fst snd]. change (render ((true, c) :: us)) with (c_bslash :: c :: render us). reflexivity.
  - change (render ((false, c) :: us)) with (c :: render us). cbn [orb lit_run]. rewrite (IH V).
    destruct (stops_literal c (render us)); [reflexivity|]. destruct (ulit us). reflexivity.
Qed.
Lemma char_run_units : forall c us, c <> c_bslash -> char_run c (render us) = (chars (fst (urun c us)), render (snd (urun c us))).
Proof.
  intros c us H. induction us as [|[e d] us IH]; [reflexivity|]. cbn [urun fst snd]. destruct e.
  - change (render ((true, d) :: us)) with (c_bslash :: d :: render us). cbn [negb andb char_run].
    destruct (char_eqb c_bslash c) eqn:E; [apply char_eqb_eq in E; congruence|reflexivity].
  - change (render ((false, d) :: us)) with (d :: render us). cbn [negb andb char_run]. rewrite IH.
    destruct (char_eqb d c); [|reflexivity]. destruct (urun c us). reflexivity.
Qed.

(** The second character of a pair is unescaped. *)
Lemma pair_units : forall c us k t, pair_kind c (render us) = Some (k, t) ->
  t = c :: chars (firstn (List.length t - 1) us)
  /\ Forall (fun u => fst u = false) (firstn (List.length t - 1) us)
  /\ render us = chars (firstn (List.length t - 1) us) ++ render (skipn (List.length t - 1) us).
Proof.
  intros c us k t H. unfold pair_kind in H. destruct (char_eqb c c_nl); [injection H as <- <-; cbn; auto|].
  destruct us as [|[e d] us]; [discriminate|]. destruct e.
  - change (render ((true, d) :: us)) with (c_bslash :: d :: render us) in H. cbv beta iota in H.
    replace (char_eqb c_bslash c_nl) with false in H by reflexivity. replace (char_eqb c_bslash c_percent) with false in H by reflexivity.
    replace (char_eqb c_bslash c_rcurly) with false in H by reflexivity. rewrite !andb_false_r in H. discriminate.
  - change (render ((false, d) :: us)) with (d :: render us) in *. cbv beta iota in H.
    assert (G : t = [c; d]).
    { destruct (char_eqb c c_cr && char_eqb d c_nl); [congruence|]. destruct (char_eqb c c_lcurly && char_eqb d c_percent); [congruence|].
      destruct (char_eqb c c_percent && char_eqb d c_rcurly); congruence. }
    subst t. cbn. repeat split. constructor; [reflexivity|constructor].
Qed.

Lemma skipn_pair : forall c us k t, pair_kind c (render us) = Some (k, t) ->
  skipn (List.length t - 1) (render us) = render (skipn (List.length t - 1) us).
Proof.
  intros c us k t H. destruct (pair_units _ _ _ _ H) as (E & _ & R). rewrite R at 1.
  assert (L : List.length t - 1 = List.length (chars (firstn (List.length t - 1) us))) by (rewrite E at 1; cbn; lia).
  rewrite L at 1. rewrite skipn_app, skipn_all, Nat.sub_diag. reflexivity.
Qed.

Lemma valid_ulit : forall us, valid us -> valid (snd (ulit us)).
Proof.
  induction us as [|u us IH]; intros V; [exact V|]. cbn [ulit]. destruct (fst u || _); [exact V|].
  apply valid_cons in V. destruct V as [_ V]. specialize (IH V). destruct (ulit us). exact IH.
Qed.

Lemma scan_units : forall us, valid us ->
  scan_one (render us) = match uraw us with
                         | Some (k, g, r) => Some (mk_piece k (chars g) (first_esc g), render r)
                         | None => None
                         end.
Proof.
  intros [|[e c] us] V; [reflexivity|]. apply valid_cons in V. destruct V as [V0 V]. cbn [fst snd] in V0. unfold uraw. cbn [fst snd]. destruct e.
  - change (render ((true, c) :: us)) with (c_bslash :: c :: render us).
    unfold scan_one. replace (pair_kind c_bslash (c :: render us)) with (@None (token_kind * str)) by reflexivity. cbn [char_eqb].
    rewrite char_eqb_refl. rewrite (lit_run_units us V). destruct (ulit us). reflexivity.
  - specialize (V0 eq_refl). change (render ((false, c) :: us)) with (c :: render us). unfold scan_one.
    destruct (pair_kind c (render us)) as [[k t]|] eqn:E.
    + rewrite (skipn_pair _ _ _ _ E). destruct (pair_units _ _ _ _ E) as (E1 & _). cbn [chars first_esc fst snd]. rewrite <- E1. reflexivity.
    + replace (char_eqb c c_bslash) with false by (symmetry; apply N.eqb_neq; exact V0).
      destruct (run_kind c) as [k|].
      * rewrite (char_run_units c us V0). destruct (urun c us). reflexivity.
      * destruct (single_kind c); [reflexivity|]. rewrite (lit_run_units us V). destruct (ulit us). reflexivity.
Qed.

Lemma ulit_split : forall us, us = fst (ulit us) ++ snd (ulit us).
Proof.
  induction us as [|u us IH]; [reflexivity|]. cbn [ulit]. destruct (fst u || _); [reflexivity|]. destruct (ulit us). cbn in *. congruence.
Qed.
Lemma urun_split : forall c us, us = fst (urun c us) ++ snd (urun c us).
Proof.
  induction us as [|u us IH]; [reflexivity|]. cbn [urun]. destruct (negb (fst u) && _); [|reflexivity]. destruct (urun c us). cbn in *. congruence.
Qed.
Lemma ulit_raw : forall us, Forall (fun u => fst u = false /\ special (snd u) = false) (fst (ulit us)).
Proof.
  induction us as [|u us IH]; [constructor|]. cbn [ulit]. destruct (fst u || _) eqn:E; [constructor|]. apply orb_false_iff in E.
  destruct (ulit us). constructor; [|exact IH]. destruct E as [E1 E2]. split; [exact E1|]. eapply special_stops; exact E2.
Qed.
Lemma urun_raw : forall c us, fst (urun c us) = repeat (raw c) (List.length (fst (urun c us))).
Proof.
  induction us as [|[e d] us IH]; [reflexivity|]. cbn [urun fst snd]. destruct (negb e && _) eqn:E; [|reflexivity]. apply andb_true_iff in E. destruct E as [E1 E2].
  apply char_eqb_eq in E2. destruct e; [discriminate|]. subst d. destruct (urun c us). cbn in *. f_equal. exact IH.
Qed.

(** The character of a kind. *)
Definition kind_char (k : token_kind) : option char :=
  match k with
  | Tilde => Some c_tilde | Star => Some c_star | RightCurlyBrace => Some c_rcurly | LeftCurlyBrace => Some c_lcurly
  | Space => Some c_space | Minus => Some c_minus | Hash => Some c_hash | GreaterThan => Some c_gt | Bang => Some c_bang
  | Backtick => Some c_backtick | Plus => Some c_plus
  | LeftSquareBracket => Some c_lsquare | RightSquareBracket => Some c_rsquare | LeftParenthesis => Some c_lparen
  | RightParenthesis => Some c_rparen | Underscore => Some c_underscore | Pipe => Some c_pipe
  | _ => None
  end.

(** What the units of a token look like. *)
Definition group_ok (k : token_kind) (g : list uchar) : Prop :=
  match k with
  | Literal => exists u g', g = u :: g' /\ Forall (fun v => fst v = false /\ special (snd v) = false) g'
                 /\ (fst u = true \/ special (snd u) = false)
  | Eol => g = [raw c_nl]
  | Terminator => g = [raw c_nl; raw c_nl]
  | CollapsibleStart => g = [raw c_lcurly; raw c_percent]
  | CollapsibleEnd => g = [raw c_percent; raw c_rcurly]
  | _ => exists c n, kind_char k = Some c /\ g = repeat (raw c) (S n)
  end.

Definition fine (us : list uchar) : Prop := valid us /\ absent c_cr us.
Lemma fine_app : forall a b, fine (a ++ b) <-> fine a /\ fine b.
Proof. intros a b. unfold fine. rewrite valid_app, absent_app. tauto. Qed.
Lemma fine_cons : forall u us, fine (u :: us) -> fine us.
Proof. intros u us [V A]. apply valid_cons in V. split; [apply V|]. intros H. apply A. right. exact H. Qed.

Lemma run_kind_char : forall c k, run_kind c = Some k -> kind_char k = Some c /\ k <> Literal /\ k <> Eol /\ k <> Terminator /\ k <> CollapsibleStart /\ k <> CollapsibleEnd.
Proof.
  intros c k H. unfold run_kind in H.
  repeat match type of H with
  | (if char_eqb c ?d then _ else _) = _ =>
      let E := fresh in destruct (char_eqb c d) eqn:E; [apply char_eqb_eq in E; subst c; injection H as <-; repeat split; discriminate|]
  end. discriminate.
Qed.
Lemma single_kind_char : forall c k, single_kind c = Some k -> kind_char k = Some c /\ k <> Literal /\ k <> Eol /\ k <> Terminator /\ k <> CollapsibleStart /\ k <> CollapsibleEnd.
Proof.
  intros c k H. unfold single_kind in H.
  repeat match type of H with
  | (if char_eqb c ?d then _ else _) = _ =>
      let E := fresh in destruct (char_eqb c d) eqn:E; [apply char_eqb_eq in E; subst c; injection H as <-; repeat split; discriminate|]
  end. discriminate.
Qed.

Lemma not_special : forall c s, pair_kind c s = None -> run_kind c = None -> single_kind c = None -> c <> c_bslash -> special c = false.
Proof.
  intros c s H1 H2 H3 H4. apply (special_stops c s). unfold stops_literal. rewrite H1, H2, H3. cbn.
  destruct (char_eqb c c_bslash) eqn:E; [apply char_eqb_eq in E; contradiction|reflexivity].
Qed.

Lemma group_char : forall k c n, kind_char k = Some c -> k <> Literal -> group_ok k (repeat (raw c) (S n)).
Proof. intros k c n H NL. destruct k; try discriminate H; exists c, n; auto. Qed.

Lemma uraw_ok : forall us k g r, fine us -> uraw us = Some (k, g, r) ->
  us = g ++ r /\ g <> [] /\ k <> Terminator /\ group_ok k g.
Proof.
  intros [|[e c] us] k g r [V A] H; [discriminate|]. apply valid_cons in V. destruct V as [V0 V]. cbn in V0.
  unfold uraw in H. cbn [fst snd] in H. destruct e.
  - pose proof (ulit_split us) as S1. pose proof (ulit_raw us) as S2. destruct (ulit us) as [a b]. injection H as <- <- <-. cbn in *.
    split; [congruence|]. split; [discriminate|]. split; [discriminate|]. exists (true, c), a. auto.
  - specialize (V0 eq_refl). destruct (pair_kind c (render us)) as [[k0 t]|] eqn:E.
    + injection H as <- <- <-. destruct (pair_units _ _ _ _ E) as (E1 & E2 & E3).
      split; [cbn; rewrite firstn_skipn; reflexivity|]. split; [discriminate|].
      unfold pair_kind in E. destruct (char_eqb c c_nl) eqn:En.
      { apply char_eqb_eq in En. subst c. injection E as <- <-. cbn. split; [discriminate|reflexivity]. }
      destruct (render us) as [|d x] eqn:Er; [discriminate|].
      destruct us as [|[e' d'] us]; [discriminate|].
      destruct (char_eqb c c_cr && char_eqb d c_nl) eqn:Ecr.
      { apply andb_true_iff in Ecr. destruct Ecr as [Ecr _]. apply char_eqb_eq in Ecr. subst c. exfalso. apply A. left. reflexivity. }
      assert (Hd : List.length t - 1 = 1 -> e' = false /\ d' = d).
      { intros L. rewrite L in E2. cbn in E2. inversion E2; subst. cbn in H1. subst e'. injection Er as -> _. auto. }
      destruct (char_eqb c c_lcurly && char_eqb d c_percent) eqn:E4.
      { injection E as <- <-. apply andb_true_iff in E4. destruct E4 as [E4 E5]. apply char_eqb_eq in E4. apply char_eqb_eq in E5. subst c d.
        destruct (Hd eq_refl) as [-> ->]. split; [discriminate|reflexivity]. }
      destruct (char_eqb c c_percent && char_eqb d c_rcurly) eqn:E6; [|discriminate].
      injection E as <- <-. apply andb_true_iff in E6. destruct E6 as [E6 E5]. apply char_eqb_eq in E6. apply char_eqb_eq in E5. subst c d.
      destruct (Hd eq_refl) as [-> ->]. split; [discriminate|reflexivity].
    + destruct (run_kind c) as [k0|] eqn:E1.
      * pose proof (urun_split c us) as S1. pose proof (urun_raw c us) as S2. destruct (urun c us) as [a b]. injection H as <- <- <-. cbn in S1, S2.
        destruct (run_kind_char _ _ E1) as (K1 & K2 & K3 & K4 & K5).
        split; [cbn; congruence|]. split; [discriminate|]. split; [exact K4|]. change ((false, c) :: a) with (raw c :: a). rewrite S2. apply (group_char k0 c (List.length a) K1 K2).
      * destruct (single_kind c) as [k0|] eqn:E2.
        { injection H as <- <- <-. destruct (single_kind_char _ _ E2) as (K1 & K2 & K3 & K4 & K5). split; [reflexivity|]. split; [discriminate|]. split; [exact K4|].
          apply (group_char k0 c 0 K1 K2). }
        pose proof (ulit_split us) as S1. pose proof (ulit_raw us) as S2. destruct (ulit us) as [a b]. injection H as <- <- <-. cbn in S1, S2.
        split; [cbn; congruence|]. split; [discriminate|]. split; [discriminate|]. exists (false, c), a. split; [reflexivity|]. split; [exact S2|].
        right. cbn. eapply not_special; eassumption.
Qed.

Lemma uraw_some : forall us, us <> [] -> exists k g r, uraw us = Some (k, g, r).
Proof.
  intros [|[e c] us] H; [congruence|]. unfold uraw. cbn [fst snd]. destruct e; [destruct (ulit us); eauto|].
  destruct (pair_kind c (render us)) as [[k t]|]; [eauto|]. destruct (run_kind c); [destruct (urun c us); eauto|].
  destruct (single_kind c); [eauto|]. destruct (ulit us); eauto.
Qed.

Lemma utok_cases : forall us k g r, utok us = Some (k, g, r) ->
  (uraw us = Some (k, g, r) /\ (k = Eol -> forall g' r', uraw r <> Some (Eol, g', r')))
  \/ (k = Terminator /\ exists g1 r1 g2, uraw us = Some (Eol, g1, r1) /\ uraw r1 = Some (Eol, g2, r) /\ g = g1 ++ g2).
Proof.
  intros us k g r H. unfold utok in H. destruct (uraw us) as [[[k0 g0] r0]|] eqn:E; [|discriminate].
  destruct (kind_eqb k0 Eol) eqn:K.
  - apply kind_eqb_eq in K. subst k0. destruct (uraw r0) as [[[k1 g1] r1]|] eqn:E1.
    + destruct (kind_eqb k1 Eol) eqn:K1.
      * apply kind_eqb_eq in K1. subst k1. injection H as <- <- <-. right. split; [reflexivity|]. exists g0, r0, g1. auto.
      * left. destruct k1; try discriminate K1; injection H as <- <- <-; (split; [reflexivity|]); intros _ g' r' X; rewrite E1 in X; discriminate.
    + injection H as <- <- <-. left. split; [reflexivity|]. intros _ g' r' X. rewrite E1 in X. discriminate.
  - left. destruct k0; try discriminate K; injection H as <- <- <-; (split; [reflexivity|]); discriminate.
Qed.

Lemma utok_ok : forall us k g r, fine us -> utok us = Some (k, g, r) -> us = g ++ r /\ g <> [] /\ group_ok k g.
Proof.
  intros us k g r Hf H. destruct (utok_cases _ _ _ _ H) as [[H0 _]|(-> & g1 & r1 & g2 & H1 & H2 & ->)].
  - destruct (uraw_ok _ _ _ _ Hf H0) as (A & B & _ & C). auto.
  - destruct (uraw_ok _ _ _ _ Hf H1) as (A & B & _ & C). subst us. apply fine_app in Hf. destruct Hf as [_ Hf].
    destruct (uraw_ok _ _ _ _ Hf H2) as (A & _ & _ & D). subst r1. cbn in C, D. subst g1 g2. cbn. auto using app_assoc. repeat split. discriminate.
Qed.
Lemma utok_some : forall us, us <> [] -> exists k g r, utok us = Some (k, g, r).
Proof.
  intros us H. destruct (uraw_some us H) as (k & g & r & E). unfold utok. rewrite E.
  destruct k; eauto. destruct (uraw r) as [[[[] ?] ?]|]; eauto.
Qed.

Lemma pieces_units : forall us, fine us ->
  pieces (render us) = match utok us with
                       | Some (k, g, r) => mk_piece k (chars g) (first_esc g) :: pieces (render r)
                       | None => []
                       end.
Proof.
  intros us Hf. unfold pieces. rewrite raw_unfold, scan_units by apply Hf. unfold utok.
  destruct (uraw us) as [[[k g] r]|] eqn:E; [|reflexivity].
  destruct (uraw_ok _ _ _ _ Hf E) as (A & B & NT & C). subst us. apply fine_app in Hf. destruct Hf as [_ Hf].
  destruct (kind_eqb k Eol) eqn:K.
  - apply kind_eqb_eq in K. subst k. cbn in C. subst g. rewrite raw_unfold, scan_units by apply Hf.
    destruct (uraw r) as [[[k1 g1] r1]|] eqn:E1; [|rewrite raw_unfold, scan_units, E1 by apply Hf; reflexivity].
    destruct k1; try (cbn [merge p_kind kind_eqb andb]; rewrite (raw_unfold (render r)), scan_units, E1 by apply Hf; reflexivity).
    reflexivity.
  - destruct k; try discriminate K; try congruence; cbn [merge p_kind kind_eqb andb]; destruct (raw_pieces (render r)); reflexivity.
Qed.

(** ** Tokens that cover units *)

Definition line_end (k : token_kind) : bool := match k with Eol | Terminator => true | _ => false end.

Inductive cov (s : str) : bool -> list token -> list uchar -> Prop :=
| cov_nil : forall b, cov s b [] []
| cov_cons : forall b t ts us g r,
    fine us -> utok us = Some (kind t, g, r) -> col0 t = b -> ttext s t = chars g -> tlen t = byte_len (chars g) ->
    cov s (line_end (kind t)) ts r -> cov s b (t :: ts) us.

Lemma render_group : forall k g, group_ok k g -> render g = (if first_esc g then [c_bslash] else []) ++ chars g.
Proof.
  assert (R : forall g, Forall (fun u : uchar => fst u = false) g -> render g = chars g).
  { induction 1 as [|[e c] g H F IH]; [reflexivity|]. cbn in *. subst e. cbn. rewrite IH. reflexivity. }
  assert (R0 : forall g, Forall (fun u : uchar => fst u = false) g -> first_esc g = false).
  { intros g F. destruct F; auto. }
  intros k g H. assert (C : (exists u g', g = u :: g' /\ Forall (fun v => fst v = false) g') \/ Forall (fun v => fst v = false) g).
  { assert (Rp : forall c n, Forall (fun v : uchar => fst v = false) (repeat (raw c) n)).
    { intros c n. apply Forall_forall. intros x Hx. apply repeat_spec in Hx. subst x. reflexivity. }
    destruct k; cbn in H; try (destruct H as (c & n & _ & ->); right; apply (Rp c (S n))); try (subst g; right; repeat constructor).
    destruct H as (u & g' & -> & F & _). left. exists u, g'. split; [reflexivity|]. eapply Forall_impl; [|exact F]. intros v Hv. apply Hv. }
  destruct C as [([[] c] & g' & -> & F)|F].
  - cbn. rewrite (R g' F). reflexivity.
  - cbn. rewrite (R g' F). reflexivity.
  - rewrite (R0 g F), (R g F). reflexivity.
Qed.

Lemma chars_nonempty : forall g, g <> [] -> chars g <> [].
Proof. intros [|u g] H; [congruence|discriminate]. Qed.

Lemma cov_annotate : forall n us s x y o col r0, List.length us <= n -> fine us -> s = x ++ render us ++ y -> byte_len x = o ->
  cov s (col =? 0) (annotate o col r0 (pieces (render us))) us.
Proof.
  induction n as [|n IH]; intros us s x y o col r0 L Hf -> <-.
  { destruct us; [|cbn in L; lia]. constructor. }
  rewrite pieces_units by exact Hf. destruct (utok us) as [[[k g] r]|] eqn:E.
  - destruct (utok_ok _ _ _ _ Hf E) as (-> & NE & G). pose proof Hf as Hf0. apply fine_app in Hf. destruct Hf as [_ Hf].
    pose proof (render_group k g G) as Rg. cbn [annotate p_kind p_text p_esc].
    set (e := if first_esc g then 1 else 0) in *.
    assert (Le : byte_len (if first_esc g then [c_bslash] else []) = e) by (unfold e; destruct (first_esc g); reflexivity).
    econstructor; [exact Hf0|exact E|reflexivity| | |].
    + unfold ttext. cbn [t_start t_end]. rewrite render_app, Rg.
      replace (x ++ (((if first_esc g then [c_bslash] else []) ++ chars g) ++ render r) ++ y)
        with ((x ++ (if first_esc g then [c_bslash] else [])) ++ chars g ++ (render r ++ y)) by (rewrite <- !app_assoc; reflexivity).
      rewrite <- Le. rewrite <- byte_len_app, slice_app. reflexivity.
    + unfold tlen. cbn. lia.
    + cbn [kind]. assert (C : line_end k = ((if kind_rows k =? 0 then col + List.length (chars g) else 0) =? 0)).
      { apply chars_nonempty in NE. destruct (chars g); [congruence|]. destruct k; cbn; symmetry; try reflexivity; apply Nat.eqb_neq; lia. }
      rewrite C. eapply (IH r _ (x ++ render g) y); [|exact Hf| |].
      * rewrite app_length in L. destruct g; [congruence|cbn in L; lia].
      * rewrite render_app, <- !app_assoc. reflexivity.
      * pose proof (f_equal byte_len Rg) as Lg. rewrite byte_len_app in Lg. rewrite byte_len_app, Lg. unfold e. clear. destruct (first_esc g); cbn; lia.
  - destruct us as [|u us]; [constructor|]. destruct (utok_some (u :: us)) as (k & g & r & X); [discriminate|]. congruence.
Qed.

Lemma cov_tokens : forall us, fine us -> cov (render us) true (spec_tokens (render us)) us.
Proof.
  intros us Hf. unfold spec_tokens. apply (cov_annotate (List.length us) us (render us) [] [] 0 0 0); auto. cbn. rewrite app_nil_r. reflexivity.
Qed.

Lemma cov_fine : forall s b ts us, cov s b ts us -> fine us.
Proof. intros s b ts us H. destruct H; [split; [constructor|intros []]|assumption]. Qed.
Lemma cov_inv : forall s b ts us, cov s b ts us -> us <> [] -> exists t ts' g r,
  ts = t :: ts' /\ utok us = Some (kind t, g, r) /\ us = g ++ r /\ g <> [] /\ group_ok (kind t) g /\ col0 t = b /\ ttext s t = chars g
  /\ tlen t = byte_len (chars g) /\ cov s (line_end (kind t)) ts' r.
Proof.
  intros s b ts us H NE. destruct H; [congruence|]. destruct (utok_ok _ _ _ _ H H0) as (A & B & C).
  exists t, ts, g, r. repeat (split; [assumption || reflexivity|]). exact H4.
Qed.

(** ** Cutting *)

(** [a] and [b], next to each other, are in different tokens. *)
Definition joint (a b : uchar) : bool :=
  fst b
  || (if fst a then special (snd b)
      else if char_eqb (snd a) c_nl then negb (char_eqb (snd b) c_nl)
      else if is_some (single_kind (snd a)) then true
      else if is_some (run_kind (snd a)) && negb (char_eqb (snd a) c_space)
      then negb (char_eqb (snd a) (snd b)) && negb (char_eqb (snd a) c_lcurly && char_eqb (snd b) c_percent)
      else special (snd b) && negb (char_eqb (snd a) c_percent && char_eqb (snd b) c_rcurly)).

Definition seam (A B : list uchar) : Prop :=
  A = [] \/ B = [] \/ exists a' a b b', A = a' ++ [a] /\ B = b :: b' /\ joint a b = true.

Lemma seam_tail : forall g r B, seam (g ++ r) B -> r = [] \/ seam r B.
Proof.
  intros g r B H. destruct r as [|u r]; [auto|]. right. destruct H as [H|[H|(a' & a & b & b' & H & -> & J)]].
  - destruct g; discriminate.
  - right. left. exact H.
  - destruct (@exists_last _ (u :: r)) as (x & y & E); [discriminate|]. rewrite E in *. rewrite app_assoc in H.
    apply app_inj_tail in H. destruct H as [_ <-]. right. right. exists x, y, b, b'. auto.
Qed.

Lemma render_hd : forall us B, us <> [] -> exists x y z, render us = x :: y /\ render (us ++ B) = x :: z.
Proof. intros [|[[] c] us] B H; [congruence| |]; cbn; eauto. Qed.

Lemma pair_hd : forall c us B, us <> [] -> pair_kind c (render (us ++ B)) = pair_kind c (render us).
Proof. intros c us B H. destruct (render_hd us B H) as (x & y & z & -> & ->). reflexivity. Qed.
Lemma stops_hd : forall c us B, us <> [] -> stops_literal c (render (us ++ B)) = stops_literal c (render us).
Proof. intros c us B H. unfold stops_literal. rewrite pair_hd by exact H. reflexivity. Qed.

Lemma special_stop : forall c s, special c = true -> stops_literal c s = true.
Proof.
  intros c s H. unfold special in H. cbn [existsb] in H.
  repeat match type of H with
  | char_eqb c ?d || _ = true => let E := fresh in destruct (char_eqb c d) eqn:E; [apply char_eqb_eq in E; subst c; try reflexivity; unfold stops_literal; rewrite ?orb_true_r; reflexivity|cbn [orb] in H]
  end. discriminate.
Qed.

Lemma ulit_stop : forall b B, fst b = true \/ special (snd b) = true -> ulit (b :: B) = ([], b :: B).
Proof. intros b B [H|H]; cbn [ulit]; [rewrite H; reflexivity|]. rewrite (special_stop _ _ H), orb_true_r. reflexivity. Qed.

Lemma nonspecial_single : forall c, special c = false -> single_kind c = None.
Proof.
  intros c H. destruct (single_kind c) eqn:E; [|reflexivity]. unfold single_kind in E.
  repeat match type of E with (if char_eqb c ?d then _ else _) = _ => destruct (char_eqb c d) eqn:Q; [apply char_eqb_eq in Q; subst c; discriminate H|clear Q] end.
  discriminate.
Qed.
Lemma nonspecial_run : forall c, special c = false -> is_some (run_kind c) && negb (char_eqb c c_space) = false.
Proof.
  intros c H. destruct (run_kind c) eqn:E; [|reflexivity]. unfold run_kind in E.
  repeat match type of E with (if char_eqb c ?d then _ else _) = _ => destruct (char_eqb c d) eqn:Q; [apply char_eqb_eq in Q; subst c; try discriminate H; reflexivity|clear Q] end.
  discriminate.
Qed.
Lemma nonspecial_neq : forall c d, special c = false -> special d = true -> char_eqb c d = false.
Proof. intros c d H1 H2. destruct (char_eqb c d) eqn:E; [apply char_eqb_eq in E; congruence|reflexivity]. Qed.
Lemma nonspecial_stops : forall c s, special c = false -> pair_kind c s = None -> stops_literal c s = false.
Proof.
  intros c s H P. unfold stops_literal. rewrite P, (nonspecial_neq c c_bslash H eq_refl), (nonspecial_run c H), (nonspecial_single c H). reflexivity.
Qed.

(** The literal class: characters on which [joint] asks for a special one. *)
Lemma joint_lit : forall a b, fst a = false -> special (snd a) = false -> joint a b = true ->
  (fst b = true \/ special (snd b) = true) /\ (fst b = false -> char_eqb (snd a) c_percent && char_eqb (snd b) c_rcurly = false).
Proof.
  intros [ea a] [eb b] Ha Sa J. cbn in Ha. subst ea. unfold joint in J. cbn [fst snd] in *. destruct eb; [split; [left; reflexivity|discriminate]|]. cbn [orb] in J.
  assert (char_eqb a c_nl = false) as En by (unfold special in Sa; cbn [existsb] in Sa; apply orb_false_iff in Sa; apply Sa). rewrite En in J.
  rewrite (nonspecial_single a Sa) in J. cbn [is_some] in J.
  rewrite (nonspecial_run a Sa) in J. apply andb_true_iff in J. destruct J as [J1 J2]. split; [right; exact J1|]. intros _. apply negb_true_iff. exact J2.
Qed.

Lemma ulit_cons : forall u r, ulit (u :: r) = if fst u || stops_literal (snd u) (render r) then ([], u :: r) else let (a, b) := ulit r in (u :: a, b).
Proof. reflexivity. Qed.

Lemma ulit_app : forall r B, seam r B -> r <> [] -> fine (r ++ B) -> ulit (r ++ B) = (fst (ulit r), snd (ulit r) ++ B).
Proof.
  induction r as [|u r IH]; intros B H NE Hf; [congruence|]. destruct r as [|v r].
  - clear IH. destruct H as [H|[H|(a' & a & b & b' & H & -> & J)]]; [discriminate|subst B; rewrite !app_nil_r; destruct (ulit [u]); reflexivity|].
    assert (a = u) by (destruct a' as [|? [|? ?]]; [injection H as <-; reflexivity|discriminate|discriminate]). subst u.
    cbn [app ulit]. destruct (fst a) eqn:Fa; cbn [orb]; [reflexivity|].
    destruct (special (snd a)) eqn:Sa; [rewrite !(special_stop _ _ Sa); reflexivity|].
    destruct (joint_lit a b Fa Sa J) as [J1 J2].
    assert (S1 : stops_literal (snd a) (render (b :: b')) = false /\ stops_literal (snd a) (render []) = false).
    { pose proof (fun s => nonspecial_stops (snd a) s Sa) as G.
      assert (Q1 : char_eqb (snd a) c_nl = false) by (unfold special in Sa; cbn [existsb] in Sa; apply orb_false_iff in Sa; apply Sa).
      assert (Q2 : char_eqb (snd a) c_cr = false).
      { destruct (char_eqb (snd a) c_cr) eqn:Q; [|reflexivity]. apply char_eqb_eq in Q. destruct Hf as [_ Hf]. exfalso. apply Hf. left. destruct a. cbn in *. subst. reflexivity. }
      assert (Q3 : char_eqb (snd a) c_lcurly = false).
      { destruct (char_eqb (snd a) c_lcurly) eqn:Q; [|reflexivity]. apply char_eqb_eq in Q. rewrite Q in Sa. discriminate. }
      split; apply G; unfold pair_kind; rewrite Q1; [|reflexivity]. destruct b as [[] b]; cbn [render render1 fst snd app]; rewrite Q2, Q3; cbn [andb].
      - replace (char_eqb c_bslash c_rcurly) with false by reflexivity. rewrite andb_false_r. reflexivity.
      - cbn [snd] in J2; rewrite (J2 eq_refl). reflexivity. }
    destruct S1 as [S1 S2]. rewrite S1, S2.
    assert (U : fst b || stops_literal (snd b) (render b') = true) by (destruct J1 as [->|J1]; [reflexivity|rewrite (special_stop _ _ J1); apply orb_true_r]).
    rewrite U. reflexivity.
  - assert (Hs : seam (v :: r) B) by (destruct (seam_tail [u] (v :: r) B H) as [X|X]; [discriminate|exact X]).
    specialize (IH B Hs ltac:(discriminate) (fine_cons _ _ Hf)).
    change ((u :: v :: r) ++ B) with (u :: (v :: r) ++ B). rewrite (ulit_cons u ((v :: r) ++ B)), (ulit_cons u (v :: r)), IH.
    rewrite (stops_hd (snd u) (v :: r) B) by discriminate.
    destruct (fst u || stops_literal (snd u) (render (v :: r))); [reflexivity|]. destruct (ulit (v :: r)). reflexivity.
Qed.

Lemma urun_app : forall c r B, seam r B -> r <> [] -> run_kind c <> None -> c <> c_space -> urun c (r ++ B) = (fst (urun c r), snd (urun c r) ++ B).
Proof.
  induction r as [|u r IH]; intros B H NE K Ns; [congruence|]. change ((u :: r) ++ B) with (u :: r ++ B). cbn [urun].
  destruct (negb (fst u) && char_eqb (snd u) c) eqn:E; [|reflexivity]. destruct r as [|v r].
  - clear IH. destruct H as [H|[H|(a' & a & b & b' & H & -> & J)]]; [discriminate|subst B; reflexivity|].
    assert (a = u) by (destruct a' as [|? [|? ?]]; [injection H as <-; reflexivity|discriminate|discriminate]). subst u.
    cbn [app urun]. replace (negb (fst b) && char_eqb (snd b) c) with false; [reflexivity|]. symmetry.
    apply andb_true_iff in E. destruct E as [E1 E2]. apply char_eqb_eq in E2. apply negb_true_iff in E1. unfold joint in J. rewrite E1, E2 in J.
    destruct (fst b); [reflexivity|]. cbn [negb andb orb] in *. destruct (char_eqb (snd b) c) eqn:Q; [|reflexivity]. apply char_eqb_eq in Q. rewrite Q in J.
    replace (char_eqb c c_nl) with false in J. 2:{ symmetry. apply N.eqb_neq. intros ->. apply K. reflexivity. }
    replace (is_some (single_kind c)) with false in J.
    2:{ destruct (single_kind c) eqn:S1; [|reflexivity]. exfalso. apply K. destruct (single_kind_char _ _ S1) as (C1 & _).
        unfold single_kind in S1. repeat match type of S1 with (if char_eqb c ?d then _ else _) = _ => destruct (char_eqb c d) eqn:Q1; [apply char_eqb_eq in Q1; rewrite Q1; reflexivity|clear Q1] end. discriminate. }
    replace (char_eqb c c_space) with false in J by (symmetry; apply N.eqb_neq; exact Ns).
    destruct (run_kind c); [|congruence]. cbn in J. rewrite char_eqb_refl in J. discriminate.
  - assert (Hs : seam (v :: r) B) by (destruct (seam_tail [u] (v :: r) B H) as [X|X]; [discriminate|exact X]).
    rewrite (IH B Hs ltac:(discriminate) K Ns). destruct (urun c (v :: r)). reflexivity.
Qed.

(** For spaces the neighbour is special. *)
Lemma urun_space : forall r B, seam r B -> r <> [] -> urun c_space (r ++ B) = (fst (urun c_space r), snd (urun c_space r) ++ B).
Proof.
  induction r as [|u r IH]; intros B H NE; [congruence|]. change ((u :: r) ++ B) with (u :: r ++ B). cbn [urun].
  destruct (negb (fst u) && char_eqb (snd u) c_space) eqn:E; [|reflexivity]. destruct r as [|v r].
  - clear IH. destruct H as [H|[H|(a' & a & b & b' & H & -> & J)]]; [discriminate|subst B; reflexivity|].
    assert (a = u) by (destruct a' as [|? [|? ?]]; [injection H as <-; reflexivity|discriminate|discriminate]). subst u.
    cbn [app urun]. replace (negb (fst b) && char_eqb (snd b) c_space) with false; [reflexivity|]. symmetry.
    apply andb_true_iff in E. destruct E as [E1 E2]. apply char_eqb_eq in E2. apply negb_true_iff in E1. unfold joint in J. rewrite E1, E2 in J.
    destruct (fst b); [reflexivity|]. cbn [negb andb orb] in *. destruct (char_eqb (snd b) c_space) eqn:Q; [|reflexivity]. apply char_eqb_eq in Q. rewrite Q in J. discriminate.
  - assert (Hs : seam (v :: r) B) by (destruct (seam_tail [u] (v :: r) B H) as [X|X]; [discriminate|exact X]).
    rewrite (IH B Hs ltac:(discriminate)). destruct (urun c_space (v :: r)). reflexivity.
Qed.

Lemma seam_one : forall a B, seam [a] B -> B = [] \/ exists b b', B = b :: b' /\ joint a b = true.
Proof.
  intros a B [H|[H|(a' & x & b & b' & H & -> & J)]]; [discriminate|auto|]. right.
  assert (x = a) by (destruct a' as [|? [|? ?]]; [injection H as <-; reflexivity|discriminate|discriminate]). subst x. eauto.
Qed.

Lemma pair_raw : forall c b B k t, pair_kind c (render (b :: B)) = Some (k, t) -> char_eqb c c_nl = false -> char_eqb c c_cr = false ->
  fst b = false /\ (char_eqb c c_lcurly && char_eqb (snd b) c_percent = true \/ char_eqb c c_percent && char_eqb (snd b) c_rcurly = true).
Proof.
  intros c [e d] B k t H H1 H2. unfold pair_kind in H. rewrite H1 in H. destruct e; cbn [render render1 fst snd app] in H; rewrite H2 in H; cbn [andb] in H.
  - replace (char_eqb c_bslash c_percent) with false in H by reflexivity. replace (char_eqb c_bslash c_rcurly) with false in H by reflexivity.
    rewrite !andb_false_r in H. discriminate.
  - split; [reflexivity|]. cbn [snd]. destruct (char_eqb c c_lcurly && char_eqb d c_percent); [left; reflexivity|].
    destruct (char_eqb c c_percent && char_eqb d c_rcurly); [right; reflexivity|discriminate].
Qed.

Lemma uraw_app : forall A B, A <> [] -> seam A B -> fine (A ++ B) -> exists k g r,
  uraw A = Some (k, g, r) /\ uraw (A ++ B) = Some (k, g, r ++ B).
Proof.
  intros [|[e c] A] B NE Hs Hf; [congruence|]. clear NE. change (((e, c) :: A) ++ B) with ((e, c) :: A ++ B) in *. unfold uraw. cbn [fst snd].
  assert (Hv : e = false -> c <> c_bslash) by (destruct Hf as [V _]; apply valid_cons in V; apply V).
  assert (Hc : e = false -> char_eqb c c_cr = false).
  { intros ->. apply N.eqb_neq. intros ->. destruct Hf as [_ Hf]. apply Hf. left. reflexivity. }
  destruct A as [|v A].
  - apply seam_one in Hs. destruct Hs as [->|(b & b' & -> & J)].
    { cbn [app]. destruct e; [cbn; eauto|]. destruct (pair_kind c (render [])) as [[k t]|]; [|destruct (run_kind c); [cbn; eauto|destruct (single_kind c); cbn; eauto]].
      rewrite firstn_nil, skipn_nil. eauto. }
    cbn [app]. destruct e.
    { rewrite ulit_stop. cbn. eauto. unfold joint in J. cbn [fst] in J. apply orb_true_iff in J. exact J. }
    specialize (Hv eq_refl). specialize (Hc eq_refl). destruct (char_eqb c c_nl) eqn:En.
    { unfold pair_kind. rewrite En. cbn. eauto. }
    assert (P0 : pair_kind c (render []) = None) by (unfold pair_kind; rewrite En; reflexivity). rewrite P0.
    assert (P1 : pair_kind c (render (b :: b')) = None).
    { destruct (pair_kind c (render (b :: b'))) as [[k t]|] eqn:P; [|reflexivity]. destruct (pair_raw _ _ _ _ _ P En Hc) as (Fb & [X|X]);
      apply andb_true_iff in X; destruct X as [X1 X2]; apply char_eqb_eq in X1; apply char_eqb_eq in X2; subst c; unfold joint in J; rewrite Fb, X2 in J; discriminate J. }
    rewrite P1. destruct (run_kind c) as [k|] eqn:Ek.
    { replace (urun c (b :: b')) with (@nil uchar, b :: b'); [cbn; eauto|]. cbn [urun]. replace (negb (fst b) && char_eqb (snd b) c) with false; [reflexivity|]. symmetry.
      destruct (fst b) eqn:Fb; [reflexivity|]. cbn [negb andb]. destruct (char_eqb (snd b) c) eqn:Q; [|reflexivity]. apply char_eqb_eq in Q.
      unfold joint in J. cbn [fst snd] in J. rewrite Fb, Q, En, Ek in J. cbn [orb is_some andb] in J.
      destruct (single_kind c) eqn:S1.
      { unfold single_kind in S1. repeat match type of S1 with (if char_eqb c ?d then _ else _) = _ => destruct (char_eqb c d) eqn:Q1; [apply char_eqb_eq in Q1; rewrite Q1 in Ek; discriminate Ek|clear Q1] end. discriminate. }
      cbn [is_some] in J. destruct (char_eqb c c_space) eqn:Qs; cbn [negb] in J.
      { apply char_eqb_eq in Qs. subst c. discriminate J. }
      rewrite char_eqb_refl in J. discriminate J. }
    destruct (single_kind c) eqn:Es; [cbn; eauto|].
    assert (Sc : special c = false) by (eapply not_special; eassumption).
    destruct (joint_lit (false, c) b eq_refl Sc J) as [J1 _]. rewrite ulit_stop by exact J1. cbn. eauto.
  - assert (Hs' : seam (v :: A) B) by (destruct (seam_tail [(e, c)] (v :: A) B Hs) as [X|X]; [discriminate|exact X]).
    pose proof (fine_cons _ _ Hf) as Hf'. rewrite (pair_hd c (v :: A) B) by discriminate. destruct e.
    { rewrite (ulit_app (v :: A) B Hs' ltac:(discriminate) Hf'). destruct (ulit (v :: A)). eauto. }
    destruct (pair_kind c (render (v :: A))) as [[k t]|] eqn:P.
    { exists k, ((false, c) :: firstn (List.length t - 1) (v :: A)), (skipn (List.length t - 1) (v :: A)). split; [reflexivity|].
      assert (L : List.length t - 1 <= 1).
      { unfold pair_kind in P. destruct (char_eqb c c_nl); [injection P as <- <-; cbn; lia|]. destruct (render (v :: A)); [discriminate|].
        repeat match type of P with (if ?x then _ else _) = _ => destruct x; [injection P as <- <-; cbn; lia|] end. discriminate. }
      destruct (List.length t - 1) as [|[|n]]; [reflexivity|reflexivity|lia]. }
    destruct (run_kind c) as [k|] eqn:Ek.
    { destruct (N.eq_dec c c_space) as [->|Ns].
      - rewrite (urun_space (v :: A) B Hs' ltac:(discriminate)). destruct (urun c_space (v :: A)). eauto.
      - rewrite (urun_app c (v :: A) B Hs' ltac:(discriminate) ltac:(congruence) Ns). destruct (urun c (v :: A)). eauto. }
    destruct (single_kind c); [eauto|]. rewrite (ulit_app (v :: A) B Hs' ltac:(discriminate) Hf'). destruct (ulit (v :: A)). eauto.
Qed.

Lemma utok_app : forall A B, A <> [] -> seam A B -> fine (A ++ B) -> exists k g r,
  utok A = Some (k, g, r) /\ utok (A ++ B) = Some (k, g, r ++ B) /\ A = g ++ r.
Proof.
  intros A B NE Hs Hf. destruct (uraw_app A B NE Hs Hf) as (k & g & r & E1 & E2).
  assert (Hfa : fine A) by (apply fine_app in Hf; apply Hf). destruct (uraw_ok _ _ _ _ Hfa E1) as (Eq & NG & _ & G).
  unfold utok. rewrite E1, E2. destruct (kind_eqb k Eol) eqn:K.
  2:{ exists k, g, r. destruct k; try discriminate K; auto. }
  apply kind_eqb_eq in K. subst k. cbn in G. subst g. subst A. destruct r as [|v r].
  - assert (Hb : forall g' r', uraw ([] ++ B) <> Some (Eol, g', r')).
    { intros g' r' X. cbn [app] in X. apply fine_app in Hf. destruct Hf as [_ Hf]. destruct (uraw_ok _ _ _ _ Hf X) as (-> & _ & _ & G). cbn in G. subst g'.
      apply seam_one in Hs. destruct Hs as [Hs|(b & b' & E & J)]; [discriminate|]. injection E as <- <-. discriminate J. }
    exists Eol, [raw c_nl], []. split; [reflexivity|]. split; [|reflexivity].
    destruct (uraw ([] ++ B)) as [[[k1 g1] r1]|] eqn:X; [|reflexivity]. destruct k1; try reflexivity. exfalso. eapply Hb. reflexivity.
  - assert (Hs' : seam (v :: r) B) by (destruct (seam_tail [raw c_nl] (v :: r) B Hs) as [X|X]; [discriminate|exact X]).
    rewrite <- app_assoc in Hf. apply fine_app in Hf. destruct Hf as [_ Hf].
    destruct (uraw_app (v :: r) B ltac:(discriminate) Hs' Hf) as (k & g & r' & F1 & F2). rewrite F1, F2.
    apply fine_app in Hf. destruct Hf as [Hf _]. destruct (uraw_ok _ _ _ _ Hf F1) as (E & _).
    destruct (kind_eqb k Eol) eqn:K.
    + apply kind_eqb_eq in K. subst k. rewrite E. exists Terminator, ([raw c_nl] ++ g), r'. auto.
    + exists Eol, [raw c_nl], (v :: r). destruct k; try discriminate K; auto.
Qed.


(** ** Recognizing tokens *)

Definition raw_at (c : char) (us : list uchar) : bool :=
  match us with u :: _ => negb (fst u) && char_eqb (snd u) c | [] => false end.
Definition raw2_at (c d : char) (us : list uchar) : bool :=
  match us with u :: r => negb (fst u) && char_eqb (snd u) c && raw_at d r | [] => false end.
(** Number of unescaped [c] in front. *)
Fixpoint lead (c : char) (us : list uchar) : nat :=
  match us with u :: r => if negb (fst u) && char_eqb (snd u) c then S (lead c r) else 0 | [] => 0 end.

Lemma raw_at_true : forall c us, raw_at c us = true -> exists r, us = raw c :: r.
Proof.
  intros c [|[[] d] us] H; try discriminate. apply char_eqb_eq in H. cbn in H. subst d. eexists. reflexivity.
Qed.
Lemma raw_at_raw : forall c r, raw_at c (raw c :: r) = true.
Proof. intros. cbn. rewrite char_eqb_refl. reflexivity. Qed.
Lemma raw2_at_true : forall c d us, raw2_at c d us = true -> exists r, us = raw c :: raw d :: r.
Proof.
  intros c d [|[[] x] us] H; try discriminate. cbn [raw2_at fst snd negb andb] in H. apply andb_true_iff in H. destruct H as [H1 H2].
  apply char_eqb_eq in H1. subst x. apply raw_at_true in H2. destruct H2 as (r & ->). exists r. reflexivity.
Qed.
Lemma raw2_at_raw : forall c d r, raw2_at c d (raw c :: raw d :: r) = true.
Proof. intros. cbn. rewrite !char_eqb_refl. reflexivity. Qed.

Lemma lead_split : forall c us, us = repeat (raw c) (lead c us) ++ skipn (lead c us) us /\ raw_at c (skipn (lead c us) us) = false.
Proof.
  intros c us. induction us as [|[e d] us [IH1 IH2]]; [split; reflexivity|]. cbn [lead fst snd]. destruct (negb e && char_eqb d c) eqn:E.
  - apply andb_true_iff in E. destruct E as [E1 E2]. apply char_eqb_eq in E2. destruct e; [discriminate|]. subst d. cbn [repeat skipn app]. split; [|exact IH2].
    rewrite <- IH1. reflexivity.
  - cbn. split; [reflexivity|exact E].
Qed.
Lemma lead_repeat : forall c n r, raw_at c r = false -> lead c (repeat (raw c) n ++ r) = n.
Proof.
  intros c n r H. induction n as [|n IH]; cbn [repeat app].
  - destruct r as [|u r]; [reflexivity|]. cbn in *. rewrite H. reflexivity.
  - cbn [lead fst snd raw negb andb]. rewrite char_eqb_refl, IH. reflexivity.
Qed.
Lemma skipn_repeat : forall (u : uchar) n r, skipn n (repeat u n ++ r) = r.
Proof. intros u n r. induction n as [|n IH]; [reflexivity|exact IH]. Qed.
Lemma lead_0 : forall c us, raw_at c us = false <-> lead c us = 0.
Proof. intros c [|u us]; cbn; [tauto|]. destruct (negb (fst u) && char_eqb (snd u) c); split; congruence. Qed.
Lemma lead_ge1 : forall c us, 1 <= lead c us -> exists r, us = raw c :: r /\ lead c r = lead c us - 1.
Proof.
  intros c us H. destruct us as [|[e d] us]; [cbn in H; lia|]. cbn [lead fst snd] in *. destruct (negb e && char_eqb d c) eqn:E; [|lia]. apply andb_true_iff in E. destruct E as [E1 E2]. destruct e; [discriminate|].
  apply char_eqb_eq in E2. subst d. exists us. split; [reflexivity|lia].
Qed.

Lemma urun_lead : forall c us, urun c us = (repeat (raw c) (lead c us), skipn (lead c us) us).
Proof.
  intros c us. induction us as [|[e d] us IH]; [reflexivity|]. cbn [urun lead fst snd]. destruct (negb e && char_eqb d c) eqn:E; [|reflexivity].
  rewrite IH. apply andb_true_iff in E. destruct E as [E1 E2]. apply char_eqb_eq in E2. destruct e; [discriminate|]. subst d. reflexivity.
Qed.

Lemma uraw_utok : forall us k g r, uraw us = Some (k, g, r) -> k <> Eol -> utok us = Some (k, g, r).
Proof. intros us k g r H NE. unfold utok. rewrite H. destruct k; try reflexivity. congruence. Qed.

Lemma run_not_pair : forall c k, run_kind c = Some k -> char_eqb c c_nl = false /\ char_eqb c c_cr = false /\ char_eqb c c_percent = false.
Proof.
  intros c k H. repeat split; destruct (char_eqb c _) eqn:E; try reflexivity; apply char_eqb_eq in E; subst c; discriminate H.
Qed.
Lemma single_not_pair : forall c k us, single_kind c = Some k -> pair_kind c us = None /\ run_kind c = None.
Proof.
  intros c k us H. unfold single_kind in H.
  repeat match type of H with (if char_eqb c ?d then _ else _) = _ => destruct (char_eqb c d) eqn:Q; [apply char_eqb_eq in Q; subst c; destruct us; split; reflexivity|clear Q] end.
  discriminate.
Qed.

Lemma utok_lead : forall c k us n, run_kind c = Some k -> lead c us = S n -> (c = c_lcurly -> n = 0 -> raw_at c_percent (skipn 1 us) = false) ->
  utok us = Some (k, repeat (raw c) (S n), skipn (S n) us).
Proof.
  intros c k us n K L C. destruct us as [|[e d] us]; [discriminate|]. cbn [lead fst snd] in L. destruct (negb e && char_eqb d c) eqn:E; [|discriminate].
  apply andb_true_iff in E. destruct E as [E1 E2]. apply char_eqb_eq in E2. destruct e; [discriminate|]. subst d. injection L as L.
  apply uraw_utok; [|destruct (run_kind_char _ _ K) as (_ & _ & X & _); exact X]. unfold uraw. cbn [fst snd].
  destruct (run_not_pair _ _ K) as (N1 & N2 & N3).
  assert (P : pair_kind c (render us) = None).
  { destruct us as [|b us]; [unfold pair_kind; rewrite N1; reflexivity|].
    destruct (pair_kind c (render (b :: us))) as [[k' t]|] eqn:P; [|reflexivity]. destruct (pair_raw _ _ _ _ _ P N1 N2) as (Fb & [X|X]); [|rewrite N3 in X; discriminate].
    apply andb_true_iff in X. destruct X as [X1 X2]. apply char_eqb_eq in X1. subst c. assert (n = 0).
    { destruct n; [reflexivity|]. cbn [lead] in L. apply char_eqb_eq in X2. rewrite Fb, X2 in L. discriminate L. }
    specialize (C eq_refl H). cbn [skipn raw_at] in C. rewrite Fb, X2 in C. discriminate. }
  rewrite P, K, urun_lead, L. reflexivity.
Qed.

Lemma utok_run_inv : forall c k us g r, fine us -> run_kind c = Some k -> utok us = Some (k, g, r) ->
  g = repeat (raw c) (lead c us) /\ r = skipn (lead c us) us /\ 1 <= lead c us
  /\ (c = c_lcurly -> lead c us = 1 -> raw_at c_percent (skipn 1 us) = false).
Proof.
  intros c k us g r Hf K H. destruct (run_kind_char _ _ K) as (K1 & K2 & K3 & K4 & K5 & K6).
  destruct (utok_cases _ _ _ _ H) as [[H0 _]|(-> & _)]; [|congruence].
  destruct (uraw_ok _ _ _ _ Hf H0) as (E & NG & _ & G).
  assert (Hd : exists us', us = raw c :: us').
  { assert (X : exists n, g = repeat (raw c) (S n)).
    { destruct k; try congruence; destruct G as (c' & n & G1 & G2); cbn in G1, K1; exists n; congruence. }
    destruct X as (n & ->). rewrite E. eexists. reflexivity. }
  destruct Hd as (us' & ->). clear E. unfold uraw in H0. cbn [fst snd raw] in H0.
  destruct (pair_kind c (render us')) as [[k' t]|] eqn:P.
  { injection H0 as -> <- <-. exfalso. unfold pair_kind in P. destruct (run_not_pair _ _ K) as (N1 & N2 & N3). rewrite N1 in P. destruct (render us'); [discriminate|].
    rewrite N2, N3 in P. cbn [andb] in P. destruct (char_eqb c c_lcurly && _); [injection P as <- _; congruence|discriminate]. }
  rewrite K, urun_lead in H0. injection H0 as <- <-. cbn [lead raw fst snd negb andb]. rewrite char_eqb_refl. repeat split; [lia|].
  intros -> _. cbn [skipn]. destruct (raw_at c_percent us') eqn:R; [|reflexivity]. apply raw_at_true in R. destruct R as (x & ->). discriminate P.
Qed.

Lemma utok_single : forall c k r, single_kind c = Some k -> utok (raw c :: r) = Some (k, [raw c], r).
Proof.
  intros c k r H. destruct (single_not_pair c k (render r) H) as [P1 P2]. apply uraw_utok; [|destruct (single_kind_char _ _ H) as (_ & _ & X & _); exact X].
  unfold uraw. cbn [fst snd raw]. rewrite P1, P2, H. reflexivity.
Qed.
Lemma utok_term : forall r, utok (raw c_nl :: raw c_nl :: r) = Some (Terminator, [raw c_nl; raw c_nl], r).
Proof. reflexivity. Qed.
Lemma utok_eol : forall r, absent c_cr r -> raw_at c_nl r = false -> utok (raw c_nl :: r) = Some (Eol, [raw c_nl], r).
Proof.
  intros r A H. unfold utok. cbn [uraw raw fst snd]. replace (pair_kind c_nl (render r)) with (Some (Eol, [c_nl])) by reflexivity.
  cbn [List.length Nat.sub firstn skipn].
  destruct (uraw r) as [[[k g] r']|] eqn:E; [|reflexivity]. destruct k; try reflexivity. exfalso.
  destruct r as [|[e c] r]; [discriminate|]. unfold uraw in E. cbn [fst snd] in E. destruct e; [destruct (ulit r); discriminate|].
  destruct (pair_kind c (render r)) as [[k t]|] eqn:P.
  - injection E as -> _ _. unfold pair_kind in P. cbn [raw_at fst snd negb andb] in H. rewrite H in P. destruct (render r); [discriminate|].
    destruct (char_eqb c c_cr) eqn:Q; [apply char_eqb_eq in Q; subst c; apply A; left; reflexivity|]. cbn [andb] in P.
    repeat match type of P with (if ?x then _ else _) = _ => destruct x; [discriminate|] end. discriminate.
  - destruct (run_kind c) eqn:K; [destruct (run_kind_char _ _ K) as (_ & _ & X & _); destruct (urun c r); injection E as -> _ _; congruence|].
    destruct (single_kind c) eqn:K2; [destruct (single_kind_char _ _ K2) as (_ & _ & X & _); injection E as -> _ _; congruence|].
    destruct (ulit r); discriminate.
Qed.
Lemma utok_cstart : forall r, utok (raw c_lcurly :: raw c_percent :: r) = Some (CollapsibleStart, [raw c_lcurly; raw c_percent], r).
Proof. reflexivity. Qed.
Lemma utok_cend : forall r, utok (raw c_percent :: raw c_rcurly :: r) = Some (CollapsibleEnd, [raw c_percent; raw c_rcurly], r).
Proof. reflexivity. Qed.

(** Token tests as tests on the units. *)
Lemma byte_len_repeat : forall c n, utf8_len c = 1 -> byte_len (chars (repeat (raw c) n)) = n.
Proof. intros c n H. induction n as [|n IH]; [reflexivity|]. cbn. rewrite IH, H. reflexivity. Qed.
Lemma run_ascii : forall c k, run_kind c = Some k -> utf8_len c = 1.
Proof.
  intros c k H. unfold run_kind in H.
  repeat match type of H with (if char_eqb c ?d then _ else _) = _ => destruct (char_eqb c d) eqn:Q; [apply char_eqb_eq in Q; subst c; reflexivity|clear Q] end.
  discriminate.
Qed.

Lemma cov_step : forall s b ts us k g r, cov s b ts us -> utok us = Some (k, g, r) -> exists t ts',
  ts = t :: ts' /\ kind t = k /\ col0 t = b /\ ttext s t = chars g /\ tlen t = byte_len (chars g) /\ cov s (line_end k) ts' r.
Proof.
  intros s b ts us k g r H U. destruct H; [discriminate|]. rewrite U in H0. injection H0 as -> -> ->. exists t, ts. auto 10.
Qed.

Lemma run_test : forall s b t ts us c k n, cov s b (t :: ts) us -> run_kind c = Some k -> 1 <= n -> (c <> c_lcurly \/ 2 <= n) ->
  kind_eqb (kind t) k && (tlen t =? n) = (lead c us =? n).
Proof.
  intros s b t ts us c k n H K Hn Hc. pose proof (run_ascii _ _ K) as Ka. pose proof (cov_fine _ _ _ _ H) as Hf. inversion H as [|? ? ? ? g r _ U Cb Ct Cl Cr]; subst.
  destruct (lead c us =? n) eqn:L.
  - apply Nat.eqb_eq in L. destruct n as [|n]; [lia|]. rewrite (utok_lead c k us n K L) in U.
    + injection U as U1 U2 U3. rewrite <- U1. replace (kind_eqb k k) with true by (symmetry; apply kind_eqb_eq; reflexivity). cbn [andb].
      rewrite Cl, <- U2. pose proof (byte_len_repeat c (S n) Ka) as Lb. cbn [repeat] in Lb. rewrite Lb. apply Nat.eqb_refl.
    + intros -> ->. destruct Hc as [Hc|Hc]; [congruence|lia].
  - destruct (kind_eqb (kind t) k) eqn:E; [|reflexivity]. apply kind_eqb_eq in E. rewrite E in U. destruct (utok_run_inv c k us g r Hf K U) as (-> & _).
    rewrite Cl, byte_len_repeat by exact Ka. exact L.
Qed.
Lemma single_test : forall s b t ts us c k, cov s b (t :: ts) us -> single_kind c = Some k -> kind_eqb (kind t) k = raw_at c us.
Proof.
  intros s b t ts us c k H K. pose proof (cov_fine _ _ _ _ H) as Hf. inversion H as [|? ? ? ? g r _ U Cb Ct Cl Cr]; subst.
  destruct (raw_at c us) eqn:R.
  - apply raw_at_true in R. destruct R as (x & ->). rewrite (utok_single c k x K) in U. injection U as U1 _ _. rewrite <- U1. apply kind_eqb_eq. reflexivity.
  - destruct (kind_eqb (kind t) k) eqn:E; [|reflexivity]. apply kind_eqb_eq in E. rewrite E in U. destruct (utok_ok _ _ _ _ Hf U) as (-> & _ & G).
    destruct (single_kind_char _ _ K) as (K1 & K2 & K3 & K4 & K5 & K6). exfalso.
    assert (X : exists n, g = repeat (raw c) (S n)) by (destruct k; try congruence; destruct G as (c' & n & G1 & G2); cbn in G1, K1; exists n; congruence).
    destruct X as (n & ->). cbn in R. rewrite char_eqb_refl in R. discriminate.
Qed.
Lemma term_test : forall s b t ts us, cov s b (t :: ts) us -> kind_eqb (kind t) Terminator = raw2_at c_nl c_nl us.
Proof.
  intros s b t ts us H. pose proof (cov_fine _ _ _ _ H) as Hf. inversion H as [|? ? ? ? g r _ U Cb Ct Cl Cr]; subst.
  destruct (raw2_at c_nl c_nl us) eqn:R.
  - apply raw2_at_true in R. destruct R as (x & ->). rewrite utok_term in U. injection U as U _ _. rewrite <- U. reflexivity.
  - destruct (kind_eqb (kind t) Terminator) eqn:E; [|reflexivity]. apply kind_eqb_eq in E. rewrite E in U. destruct (utok_ok _ _ _ _ Hf U) as (-> & _ & G).
    cbn in G. subst g. discriminate R.
Qed.
Lemma eol_test : forall s b t ts us, cov s b (t :: ts) us -> kind_eqb (kind t) Eol = raw_at c_nl us && negb (raw2_at c_nl c_nl us).
Proof.
  intros s b t ts us H. pose proof (cov_fine _ _ _ _ H) as Hf. pose proof (term_test _ _ _ _ _ H) as T2. inversion H as [|? ? ? ? g r _ U Cb Ct Cl Cr]; subst.
  destruct (raw2_at c_nl c_nl us) eqn:R2; [apply kind_eqb_eq in T2; rewrite T2, andb_false_r; reflexivity|]. rewrite andb_true_r.
  destruct (raw_at c_nl us) eqn:R.
  - apply raw_at_true in R. destruct R as (x & ->). assert (Rx : raw_at c_nl x = false) by exact R2.
    rewrite (utok_eol x) in U; [injection U as U _ _; rewrite <- U; reflexivity| |exact Rx]. apply fine_cons in Hf. apply Hf.
  - destruct (kind_eqb (kind t) Eol) eqn:E; [|reflexivity]. apply kind_eqb_eq in E. rewrite E in U. destruct (utok_ok _ _ _ _ Hf U) as (-> & _ & G).
    cbn in G. subst g. discriminate R.
Qed.
Lemma cend_test : forall s b t ts us, cov s b (t :: ts) us -> kind_eqb (kind t) CollapsibleEnd = raw2_at c_percent c_rcurly us.
Proof.
  intros s b t ts us H. pose proof (cov_fine _ _ _ _ H) as Hf. inversion H as [|? ? ? ? g r _ U Cb Ct Cl Cr]; subst.
  destruct (raw2_at c_percent c_rcurly us) eqn:R.
  - apply raw2_at_true in R. destruct R as (x & ->). rewrite utok_cend in U. injection U as U _ _. rewrite <- U. reflexivity.
  - destruct (kind_eqb (kind t) CollapsibleEnd) eqn:E; [|reflexivity]. apply kind_eqb_eq in E. rewrite E in U. destruct (utok_ok _ _ _ _ Hf U) as (-> & _ & G).
    cbn in G. subst g. discriminate R.
Qed.
Lemma cstart_test : forall s b t ts us, cov s b (t :: ts) us -> kind_eqb (kind t) CollapsibleStart = raw2_at c_lcurly c_percent us.
Proof.
  intros s b t ts us H. pose proof (cov_fine _ _ _ _ H) as Hf. inversion H as [|? ? ? ? g r _ U Cb Ct Cl Cr]; subst.
  destruct (raw2_at c_lcurly c_percent us) eqn:R.
  - apply raw2_at_true in R. destruct R as (x & ->). rewrite utok_cstart in U. injection U as U _ _. rewrite <- U. reflexivity.
  - destruct (kind_eqb (kind t) CollapsibleStart) eqn:E; [|reflexivity]. apply kind_eqb_eq in E. rewrite E in U. destruct (utok_ok _ _ _ _ Hf U) as (-> & _ & G).
    cbn in G. subst g. discriminate R.
Qed.
