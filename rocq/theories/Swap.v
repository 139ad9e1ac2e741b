(** The tokens of a source whose ordinary text or line endings are rewritten. *)
From Verif Require Import Base Lexer LexSpec LexProofs LexFacts Ops Parser FParser TokFacts ShapeSpec Shapes.

Section Swap.
  Variable g : char -> str.
  Hypothesis RW : rewording g.
  Notation G := (flat_map g).

  Definition fits (s : str) : Prop := same_lines g \/ crlf_lines g s.
  Definition pmap (p : piece) : piece := mk_piece (p_kind p) (G (p_text p)) (p_esc p).

  Lemma keep : forall c, c <> c_nl -> syntax c = true -> g c = [c].
  Proof. intros c N S. pose proof (RW c N) as H. rewrite S in H. exact H. Qed.
  Lemma ordinary_special : forall c, syntax c = false -> special c = false.
  Proof. intros c H. unfold syntax in H. apply orb_false_iff in H. apply H. Qed.
  Lemma change : forall c, syntax c = false -> exists d a, g c = d :: a /\ syntax d = false /\ Forall (fun d => syntax d = false) a.
  Proof.
    intros c S. assert (N : c <> c_nl) by (intros ->; discriminate S). pose proof (RW c N) as H. rewrite S in H. destruct H as [H1 H2].
    destruct (g c) as [|d a]; [congruence|]. inversion H2; subst. eauto.
  Qed.
  Lemma g_nonempty : forall s c, fits s -> g c <> [].
  Proof.
    intros s c F. destruct (N.eq_dec c c_nl) as [->|N].
    - destruct F as [F|[F _]]; unfold same_lines in *; rewrite F; discriminate.
    - pose proof (RW c N) as H. destruct (syntax c); [rewrite H; discriminate|apply H].
  Qed.

  (** Ordinary characters start nothing. *)
  Lemma ordinary_ne : forall c d, syntax c = false -> syntax d = true -> char_eqb c d = false.
  Proof. intros c d H1 H2. destruct (char_eqb c d) eqn:E; [|reflexivity]. apply char_eqb_eq in E. congruence. Qed.
  Ltac ord S := rewrite ?(ordinary_ne _ c_nl S eq_refl), ?(ordinary_ne _ c_cr S eq_refl), ?(ordinary_ne _ c_lcurly S eq_refl), ?(ordinary_ne _ c_percent S eq_refl),
     ?(ordinary_ne _ c_bslash S eq_refl), ?(ordinary_ne _ c_tilde S eq_refl), ?(ordinary_ne _ c_star S eq_refl), ?(ordinary_ne _ c_rcurly S eq_refl), ?(ordinary_ne _ c_space S eq_refl),
     ?(ordinary_ne _ c_minus S eq_refl), ?(ordinary_ne _ c_hash S eq_refl), ?(ordinary_ne _ c_gt S eq_refl), ?(ordinary_ne _ c_bang S eq_refl), ?(ordinary_ne _ c_backtick S eq_refl),
     ?(ordinary_ne _ c_plus S eq_refl), ?(ordinary_ne _ c_lsquare S eq_refl), ?(ordinary_ne _ c_rsquare S eq_refl), ?(ordinary_ne _ c_lparen S eq_refl), ?(ordinary_ne _ c_rparen S eq_refl),
     ?(ordinary_ne _ c_underscore S eq_refl), ?(ordinary_ne _ c_pipe S eq_refl).
  Lemma ordinary_pair : forall c s, syntax c = false -> pair_kind c s = None.
  Proof. intros c s S. unfold pair_kind. ord S. destruct s; reflexivity. Qed.
  Lemma ordinary_run : forall c, syntax c = false -> run_kind c = None.
  Proof. intros c S. unfold run_kind. ord S. reflexivity. Qed.
  Lemma ordinary_single : forall c, syntax c = false -> single_kind c = None.
  Proof. intros c S. unfold single_kind. ord S. reflexivity. Qed.
  Lemma ordinary_stops : forall c s, syntax c = false -> stops_literal c s = false.
  Proof. intros c s S. unfold stops_literal. rewrite ordinary_pair, ordinary_run, ordinary_single by exact S. ord S. reflexivity. Qed.

  Lemma fits_tl : forall c s, char_eqb c c_bslash = false -> fits (c :: s) -> fits s.
  Proof.
    intros c s Nb [F|(F1 & F2 & F3)]; [left; exact F|right]. split; [exact F1|]. split; [intros H; apply F2; right; exact H|].
    intros a b E. specialize (F3 (c :: a) b). subst s. specialize (F3 eq_refl). cbn in F3. rewrite Nb in F3. exact F3.
  Qed.
  Lemma fits_piece : forall s p r, scan_one s = Some (p, r) -> fits s -> fits r.
  Proof.
    intros s p r H [F|(F1 & F2 & F3)]; [left; exact F|right]. destruct (scan_one_app _ _ _ H) as [E _]. split; [exact F1|].
    split; [intros Hi; apply F2; rewrite E; apply in_or_app; right; exact Hi|].
    intros a b Er. specialize (F3 (p_src p ++ a) b). rewrite dangling_piece in F3 by (eapply scan_one_ok; eauto). apply F3. rewrite E, Er, <- app_assoc. reflexivity.
  Qed.

  (** The first character of the rewritten text. *)
  Lemma head_rcurly : forall d s, fits (d :: s) -> exists e a, G (d :: s) = e :: a /\ char_eqb e c_rcurly = char_eqb d c_rcurly /\ char_eqb e c_percent = char_eqb d c_percent
    /\ (same_lines g -> char_eqb e c_nl = char_eqb d c_nl) /\ (char_eqb d c_rcurly = true \/ char_eqb d c_percent = true -> a = G s)
    /\ (same_lines g -> char_eqb d c_nl = true -> a = G s).
  Proof.
    intros d s F. cbn [flat_map]. destruct (N.eq_dec d c_nl) as [->|N].
    - destruct F as [F|(F & _)]; [rewrite F|rewrite F]; eexists _, _; (split; [reflexivity|]); repeat split; try reflexivity; try (intros [X|X]; discriminate X).
      + intros X. unfold same_lines in X. rewrite X in F. discriminate F.
      + intros X. unfold same_lines in X. rewrite X in F. discriminate F.
    - destruct (syntax d) eqn:S.
      + rewrite (keep d N S). eexists _, _. split; [reflexivity|]. repeat split; reflexivity.
      + destruct (change d S) as (e & a & E & Se & Sa). rewrite E. eexists _, _. split; [reflexivity|]. ord Se. ord S. repeat split; try reflexivity; try discriminate. intros [X|X]; discriminate X.
  Qed.

  Lemma pair_kind_G : forall c s, c <> c_nl -> syntax c = true -> fits (c :: s) -> char_eqb c c_bslash = false ->
    pair_kind c (G s) = option_map (fun kt => (fst kt, G (snd kt))) (pair_kind c s)
    /\ (forall k t, pair_kind c s = Some (k, t) -> G (skipn (length t - 1) s) = skipn (length (G t) - 1) (G s)).
  Proof.
    intros c s N S F Nb. pose proof (fits_tl c s Nb F) as F'. unfold pair_kind. assert (N' : char_eqb c c_nl = false) by (destruct (char_eqb c c_nl) eqn:E; [apply char_eqb_eq in E; congruence|reflexivity]).
    rewrite N'. destruct s as [|d s]; [split; [reflexivity|discriminate]|]. destruct (head_rcurly d s F') as (e & a & E & H1 & H2 & H3 & H4 & H5). rewrite E.
    destruct (char_eqb c c_cr) eqn:Cr.
    - apply char_eqb_eq in Cr. subst c. assert (X : same_lines g). { destruct F as [F|(_ & F & _)]; [exact F|]. exfalso. apply F. left. reflexivity. }
      rewrite (H3 X). destruct (char_eqb d c_nl) eqn:D; cbn [andb].
      + pose proof D as D'. apply char_eqb_eq in D'. subst d. specialize (H3 X). try rewrite D in H3. apply char_eqb_eq in H3. subst e. rewrite (H5 X eq_refl).
        cbn [option_map fst snd flat_map]. rewrite (keep c_cr) by (discriminate || reflexivity). unfold same_lines in X. rewrite X. cbn [app]. split; [reflexivity|].
        intros k t Hk. injection Hk as <- <-. cbn [flat_map]. rewrite (keep c_cr), X by (discriminate || reflexivity). reflexivity.
      + cbn. split; [reflexivity|discriminate].
    - cbn [andb]. destruct (char_eqb c c_lcurly) eqn:L; cbn [andb].
      + apply char_eqb_eq in L. subst c. rewrite H2. destruct (char_eqb d c_percent) eqn:D.
        * rewrite (H4 (or_intror eq_refl)). apply char_eqb_eq in D. subst d. apply char_eqb_eq in H2. subst e. cbn [option_map fst snd flat_map].
          rewrite (keep c_lcurly), (keep c_percent) by (discriminate || reflexivity). cbn [app]. split; [reflexivity|].
          intros k t Hk. injection Hk as <- <-. cbn [flat_map]. rewrite (keep c_lcurly), (keep c_percent) by (discriminate || reflexivity). reflexivity.
        * cbn. split; [reflexivity|discriminate].
      + destruct (char_eqb c c_percent) eqn:P; cbn [andb]; [|split; [reflexivity|discriminate]].
        apply char_eqb_eq in P. subst c. rewrite H1. destruct (char_eqb d c_rcurly) eqn:D.
        * rewrite (H4 (or_introl eq_refl)). apply char_eqb_eq in D. subst d. apply char_eqb_eq in H1. subst e. cbn [option_map fst snd flat_map].
          rewrite (keep c_rcurly), (keep c_percent) by (discriminate || reflexivity). cbn [app]. split; [reflexivity|].
          intros k t Hk. injection Hk as <- <-. cbn [flat_map]. rewrite (keep c_rcurly), (keep c_percent) by (discriminate || reflexivity). reflexivity.
        * cbn. split; [reflexivity|discriminate].
  Qed.

  Lemma lit_run_ordinary : forall a s, Forall (fun d => syntax d = false) a -> lit_run (a ++ s) = (a ++ fst (lit_run s), snd (lit_run s)).
  Proof.
    intros a s F. induction F as [|c a S F IH]; [cbn [app]; destruct (lit_run s); reflexivity|]. cbn [app lit_run]. rewrite ordinary_stops by exact S. rewrite IH. reflexivity.
  Qed.
  Lemma change_all : forall c, syntax c = false -> Forall (fun d => syntax d = false) (g c).
  Proof. intros c S. destruct (change c S) as (d & a & -> & H1 & H2). constructor; assumption. Qed.
  Lemma nl_stops : forall s t, stops_literal c_nl s = true /\ (g c_nl = [c_nl] \/ g c_nl = [c_cr; c_nl] -> forall x, g c_nl ++ t = x -> lit_run x = ([], x)).
  Proof. intros s t. split; [reflexivity|]. intros [E|E] x <-; rewrite E; reflexivity. Qed.
  Lemma lit_run_G : forall s, fits s -> lit_run (G s) = (G (fst (lit_run s)), G (snd (lit_run s))).
  Proof.
    intros s. induction s as [|c s IH]; intros F; [reflexivity|]. destruct (N.eq_dec c c_nl) as [->|N].
    - cbn [flat_map]. rewrite (proj2 (nl_stops [] (G s)) ltac:(destruct F as [F|[F _]]; auto) _ eq_refl). reflexivity.
    - destruct (syntax c) eqn:S.
      + cbn [flat_map]. rewrite (keep c N S). cbn [app lit_run]. destruct (char_eqb c c_bslash) eqn:B.
        * apply char_eqb_eq in B. subst c. assert (X : forall x, stops_literal c_bslash x = true) by (intros [|]; reflexivity). rewrite !X. cbn [fst snd flat_map]. rewrite (keep c_bslash N S). reflexivity.
        * assert (X : stops_literal c (G s) = stops_literal c s).
          { unfold stops_literal. destruct (pair_kind_G c s N S F B) as [E _]. rewrite E. destruct (pair_kind c s); reflexivity. }
          rewrite X. destruct (stops_literal c s).
          -- cbn [fst snd flat_map]. rewrite (keep c N S). reflexivity.
          -- rewrite (IH (fits_tl c s B F)). destruct (lit_run s) as [a b]. cbn [fst snd flat_map]. rewrite (keep c N S). reflexivity.
      + cbn [flat_map lit_run]. rewrite (ordinary_stops c s S). rewrite (lit_run_ordinary _ _ (change_all c S)). rewrite IH.
        * destruct (lit_run s) as [a b]. reflexivity.
        * apply (fits_tl c); [|exact F]. ord S. reflexivity.
  Qed.
  Lemma char_run_G : forall c s, run_kind c <> None -> fits s -> char_run c (G s) = (G (fst (char_run c s)), G (snd (char_run c s))).
  Proof.
    intros c s R. assert (Hc : c <> c_nl /\ syntax c = true /\ char_eqb c c_bslash = false /\ char_eqb c_cr c = false /\ char_eqb c_nl c = false).
    { destruct (run_kind c) as [k|] eqn:E; [|congruence]. clear R. unfold run_kind in E.
      repeat match type of E with (if char_eqb c ?x then _ else _) = _ => destruct (char_eqb c x) eqn:?X; [apply char_eqb_eq in X; subst c; repeat split; discriminate|clear X] end. discriminate. }
    destruct Hc as (Nc & Sc & Bc & Rc & Lc). induction s as [|d s IH]; intros F; [reflexivity|]. destruct (N.eq_dec d c_nl) as [->|N].
    - cbn [flat_map char_run]. rewrite Lc. destruct F as [F|(F & _)]; unfold same_lines in *; rewrite ?F; cbn [app char_run fst snd flat_map]; rewrite ?F, ?Lc, ?Rc; reflexivity.
    - destruct (syntax d) eqn:S.
      + cbn [flat_map char_run]. rewrite (keep d N S). cbn [app char_run]. destruct (char_eqb d c) eqn:D.
        * apply char_eqb_eq in D. subst d. rewrite (IH (fits_tl c s Bc F)). destruct (char_run c s) as [a b]. cbn [fst snd flat_map]. rewrite (keep c N S). reflexivity.
        * cbn [fst snd flat_map]. rewrite (keep d N S). reflexivity.
      + cbn [flat_map char_run]. destruct (change d S) as (e & a & E & Se & Sa). rewrite E. cbn [app char_run]. rewrite (ordinary_ne e c Se Sc), (ordinary_ne d c S Sc). cbn [fst snd flat_map].
        rewrite E. reflexivity.
  Qed.

  Lemma scan_one_G : forall s, fits s -> scan_one (G s) = option_map (fun pr => (pmap (fst pr), G (snd pr))) (scan_one s).
  Proof.
    intros s F. destruct s as [|c s]; [reflexivity|]. destruct (N.eq_dec c c_nl) as [->|N].
    - cbn [scan_one]. change (pair_kind c_nl s) with (Some (Eol, [c_nl])). cbn [option_map fst snd length]. unfold pmap. cbn [p_kind p_text p_esc flat_map]. rewrite app_nil_r.
      destruct F as [F|(F & _)]; unfold same_lines in *; rewrite F; reflexivity.
    - destruct (syntax c) eqn:S.
      + cbn [flat_map]. rewrite (keep c N S). cbn [app scan_one]. destruct (char_eqb c c_bslash) eqn:B.
        * apply char_eqb_eq in B. subst c. destruct s as [|d s]; [reflexivity|].
          assert (P : forall x, pair_kind c_bslash x = None) by (intros [|]; reflexivity). rewrite !P.
          assert (Fs : fits s).
          { destruct F as [F|(F1 & F2 & F3)]; [left; exact F|right]. split; [exact F1|]. split; [intros H; apply F2; right; right; exact H|].
            intros a b E. specialize (F3 (c_bslash :: d :: a) b). subst s. exact (F3 eq_refl). }
          pose proof (lit_run_G s Fs) as L. destruct (lit_run s) as [a b]. cbn [fst snd] in L.
          cbn [option_map fst snd]. unfold pmap. cbn [p_kind p_text p_esc flat_map]. destruct (N.eq_dec d c_nl) as [->|Nd].
          -- destruct F as [F|(_ & _ & F)]; [|specialize (F [c_bslash] s eq_refl); discriminate F]. unfold same_lines in F. rewrite F. cbn [app]. rewrite L. reflexivity.
          -- destruct (syntax d) eqn:Sd.
             ++ rewrite (keep d Nd Sd). cbn [app]. rewrite L. reflexivity.
             ++ destruct (change d Sd) as (e & x & E & Se & Sx). rewrite E. cbn [app]. rewrite lit_run_ordinary by exact Sx. rewrite L. reflexivity.
        * destruct (pair_kind_G c s N S F B) as [E1 E2]. rewrite E1. destruct (pair_kind c s) as [[k t]|] eqn:P; cbn [option_map fst snd].
          -- rewrite <- (E2 k t eq_refl). reflexivity.
          -- pose proof (fits_tl c s B F) as F'. destruct (run_kind c) as [k|] eqn:R.
             ++ rewrite char_run_G by (congruence || exact F'). destruct (char_run c s) as [a b]. unfold pmap. cbn. rewrite (keep c N S). reflexivity.
             ++ destruct (single_kind c) as [k|]; [cbn; unfold pmap; cbn; rewrite (keep c N S); reflexivity|].
                rewrite lit_run_G by exact F'. destruct (lit_run s) as [a b]. unfold pmap. cbn. rewrite (keep c N S). reflexivity.
      + assert (B : char_eqb c c_bslash = false) by (ord S; reflexivity). pose proof (fits_tl c s B F) as F'.
        cbn [flat_map]. destruct (change c S) as (e & x & E & Se & Sx). cbn [scan_one]. rewrite ordinary_pair, B, ordinary_run, ordinary_single by exact S.
        rewrite E. cbn [app scan_one]. rewrite ordinary_pair, ordinary_run, ordinary_single by exact Se. ord Se. rewrite lit_run_ordinary by exact Sx. rewrite lit_run_G by exact F'.
        destruct (lit_run s) as [a b]. unfold pmap. cbn. rewrite E. reflexivity.
  Qed.

  Lemma raw_G : forall s, fits s -> raw_pieces (G s) = map pmap (raw_pieces s).
  Proof.
    apply (raw_ind (fun s => fits s -> raw_pieces (G s) = map pmap (raw_pieces s))).
    - intros s H F. rewrite !raw_unfold, (scan_one_G s F), H. reflexivity.
    - intros s p r H IH F. rewrite !raw_unfold, (scan_one_G s F), H. cbn [option_map fst snd map]. rewrite (IH (fits_piece _ _ _ H F)). reflexivity.
  Qed.
  Lemma merge_G : forall l, merge (map pmap l) = map pmap (merge l).
  Proof.
    apply (merge_ind (fun l m => merge (map pmap l) = map pmap m)).
    - reflexivity.
    - reflexivity.
    - intros p q l K1 K2 IH. cbn [map merge]. cbn [pmap p_kind p_text]. rewrite K1, K2. cbn [kind_eqb kind_eq_dec andb]. rewrite IH, <- flat_map_app. reflexivity.
    - intros p q l K IH. cbn [map] in *. change (merge (pmap p :: pmap q :: map pmap l)) with
        (if kind_eqb (p_kind p) Eol && kind_eqb (p_kind q) Eol then mk_piece Terminator (p_text (pmap p) ++ p_text (pmap q)) false :: merge (map pmap l) else pmap p :: merge (pmap q :: map pmap l)).
      assert (X : kind_eqb (p_kind p) Eol && kind_eqb (p_kind q) Eol = false).
      { destruct K as [K|K]; apply kind_eqb_neq in K; rewrite K; [reflexivity|apply andb_false_r]. }
      rewrite X. f_equal. exact IH.
  Qed.
  Lemma pieces_G : forall s, fits s -> pieces (G s) = map pmap (pieces s).
  Proof. intros s F. unfold pieces. rewrite raw_G by exact F. apply merge_G. Qed.

  (** The tokens look the same. *)
  Lemma kept_run : forall c n, c <> c_nl -> syntax c = true -> G (repeat c n) = repeat c n.
  Proof. intros c n N S. induction n; [reflexivity|]. cbn. rewrite (keep c N S), IHn. reflexivity. Qed.
  Lemma sized_kept : forall p, piece_ok p -> sized (p_kind p) = true -> G (p_text p) = p_text p.
  Proof.
    intros p [H _] Z. destruct (p_kind p) eqn:K; try discriminate Z; cbn in H;
      first [rewrite H; cbn; rewrite ?(keep c_lcurly), ?(keep c_rcurly), ?(keep c_percent), ?(keep c_lsquare), ?(keep c_rsquare), ?(keep c_lparen), ?(keep c_rparen), ?(keep c_underscore), ?(keep c_pipe)
               by (discriminate || reflexivity); reflexivity
            |destruct H as [n H]; rewrite H; apply (kept_run _ (S n)); [discriminate|reflexivity]].
  Qed.
  Lemma annotate_G : forall s ps, fits s -> Forall piece_ok ps -> forall o o' col col' r r', (col = 0 <-> col' = 0) ->
    Forall2 alike (annotate o col r ps) (annotate o' col' r' (map pmap ps)).
  Proof.
    intros s ps F K. induction K as [|p ps Kp K IH]; intros o o' col col' r r' C; [constructor|]. cbn [annotate map]. cbn [pmap p_kind p_text p_esc]. constructor.
    - split; [reflexivity|]. split.
      + unfold col0. cbn. destruct col, col'; try reflexivity; destruct C as [C1 C2]; [specialize (C1 eq_refl)|specialize (C2 eq_refl)]; discriminate.
      + cbn [kind]. intros S. unfold tlen. cbn [t_start t_end]. rewrite (sized_kept p Kp S). lia.
    - apply IH. destruct (kind_rows (p_kind p) =? 0); [|split; reflexivity].
      assert (X : length (p_text p) <> 0 /\ length (G (p_text p)) <> 0).
      { destruct Kp as [Kp _]. apply kind_text_nonempty in Kp. destruct (p_text p) as [|c x]; [congruence|]. cbn. split; [discriminate|]. rewrite app_length.
        pose proof (g_nonempty s c F). destruct (g c); [congruence|cbn; lia]. }
      lia.
  Qed.
  Lemma swap_alike : forall s, fits s -> Forall2 alike (spec_tokens s) (spec_tokens (G s)).
  Proof. intros s F. unfold spec_tokens. rewrite pieces_G by exact F. apply (annotate_G s); [exact F|apply pieces_ok|tauto]. Qed.

  Lemma swap_token : forall s i t u, fits s -> nth_error (spec_tokens s) i = Some t -> nth_error (spec_tokens (G s)) i = Some u -> exists x, token_text s t = Ok x /\ token_text (G s) u = Ok (G x).
  Proof.
    intros s i t u F Ht Hu. destruct (token_text_piece s _ i t (lex_correct s) Ht) as (p & P1 & P2 & _). destruct (token_text_piece (G s) _ i u (lex_correct _) Hu) as (q & Q1 & Q2 & _).
    exists (p_text p). split; [exact P2|]. rewrite pieces_G in Q1 by exact F. rewrite (map_nth_error pmap _ _ P1) in Q1. injection Q1 as <-. exact Q2.
  Qed.
  Definition reworded (s : str) (t u : token) : Prop := alike t u /\ exists x, token_text s t = Ok x /\ token_text (G s) u = Ok (G x).
  Lemma swap_reworded : forall s, fits s -> Forall2 (reworded s) (spec_tokens s) (spec_tokens (G s)).
  Proof.
    intros s F. pose proof (swap_alike s F) as A. pose proof (swap_token s) as T.
    assert (T' : forall i t u, nth_error (spec_tokens s) i = Some t -> nth_error (spec_tokens (G s)) i = Some u -> exists x, token_text s t = Ok x /\ token_text (G s) u = Ok (G x)) by (intros; eauto).
    clear T. induction A as [|t u ts us H A IH]; constructor.
    - split; [exact H|]. apply (T' 0); reflexivity.
    - apply IH. intros i x y Hx Hy. apply (T' (S i)); assumption.
  Qed.
  Lemma reworded_concat : forall s a b, Forall2 (reworded s) a b -> exists x, concat_texts s a = Ok x /\ concat_texts (G s) b = Ok (G x).
  Proof.
    intros s a b F. induction F as [|t u a b (_ & x & H1 & H2) F (y & I1 & I2)]; [exists []; split; reflexivity|]. exists (x ++ y). cbn. rewrite H1, H2, I1, I2. cbn. rewrite flat_map_app. split; reflexivity.
  Qed.
  Lemma swap_ops : forall s ops ops', fits s -> parse s = Ok ops -> parse (G s) = Ok ops' ->
    Forall2 (fun o o' => op_kind_of o = op_kind_of o' /\ exists x, as_str s (op_content o) = Ok x /\ as_str (G s) (op_content o') = Ok (G x)) ops ops'.
  Proof.
    intros s ops ops' F P P'. pose proof (swap_reworded s F) as R. pose proof (swap_alike s F) as A.
    pose proof (same_kinds s (G s) _ _ ops ops' (lex_correct _) (lex_correct _) A P P') as K.
    destruct (same_cuts s (G s) _ _ ops ops' (lex_correct _) (lex_correct _) A P P') as (cs & _ & S1 & S2). clear P P'. revert ops' K S2.
    induction S1 as [|o c os cs H S1 IH]; intros ops' K S2; inversion S2 as [|o' ? os' ? H' S2']; subst; [constructor|]. cbn in K. injection K as K1 K2. constructor; [|apply IH; assumption].
    split; [exact K1|]. unfold stands in H, H'. rewrite H, H'. apply reworded_concat. apply flips_cut. exact R.
  Qed.
End Swap.

Lemma crlf_rewording : rewording (fun c => if char_eqb c c_nl then [c_cr; c_nl] else [c]).
Proof.
  intros c N. assert (E : char_eqb c c_nl = false) by (destruct (char_eqb c c_nl) eqn:E; [apply char_eqb_eq in E; congruence|reflexivity]). rewrite E.
  destruct (syntax c) eqn:S; [reflexivity|]. split; [discriminate|]. constructor; [exact S|constructor].
Qed.
Lemma crlf_ops : forall s ops ops', unix s -> parse s = Ok ops -> parse (crlf s) = Ok ops' ->
  Forall2 (fun o o' => op_kind_of o = op_kind_of o' /\ exists x, as_str s (op_content o) = Ok x /\ as_str (crlf s) (op_content o') = Ok (crlf x)) ops ops'.
Proof. intros s ops ops' [U1 U2]. apply (swap_ops _ crlf_rewording s ops ops'). right. split; [reflexivity|]. split; assumption. Qed.
