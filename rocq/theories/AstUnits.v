(** The text of document nodes as units. *)
From Coq Require Import String.
From Verif Require Import Base Lexer LexSpec LexProofs LexFacts Ops Parser FParser TokFacts TreeAst Ast AstSpec Tame Units ULex Stops Inline.

(** ** Escaped characters of the escaping functions *)

Lemma escd_esc : forall c us d, In (escd d) (esc c us) -> In (escd d) us \/ c = d.
Proof. intros c us d H. exact (more_escd _ _ _ _ (esc_more c us) H). Qed.
Lemma escd_umark : forall pat us d, In (escd d) (umark pat [] us) -> In (escd d) us \/ In (true, d) pat.
Proof. intros pat us d H. exact (more_escd _ _ _ _ (umark0_more pat us) H). Qed.

(** [noesc] proves that a character is not escaped yet. *)
Ltac noesc :=
  let H := fresh in
  intros H;
  repeat first [apply escd_esc in H; destruct H as [H|H]; [|discriminate H]
               |progress unfold nn, nn2, pp, stars, bangs, fences in H
               |apply escd_umark in H; destruct H as [H|H]; [|cbn in H; repeat (destruct H as [H|H]; [discriminate H|]); exact H]];
  first [apply u0_escd in H; discriminate H | apply bare_raw in H; discriminate H].

Lemma esc_chars : forall c us, chars (esc c us) = chars us.
Proof. intros. exact (more_chars _ _ _ (esc_more c us)). Qed.

(** What the escaping functions keep. *)
Lemma keep_esc : forall c us d, absent d us -> absent d (esc c us).
Proof. intros c us d. apply (more_absent _ _ _ _ (esc_more c us)). Qed.
Lemma keep_umark : forall pat us d, absent d us -> absent d (umark pat [] us).
Proof. intros pat us d. apply (more_absent _ _ _ _ (umark0_more pat us)). Qed.
Lemma valid_esc : forall c us, valid us -> valid (esc c us).
Proof. intros c us. apply (more_valid _ _ _ (esc_more c us)). Qed.
Lemma valid_umark : forall pat us, valid us -> valid (umark pat [] us).
Proof. intros pat us. apply (more_valid _ _ _ (umark0_more pat us)). Qed.
Lemma absent_u0 : forall c x, ~ In c x -> absent c (u0 x).
Proof.
  intros c x H. apply keep_esc. intros Hi. apply H. clear H. induction x as [|d x IH]; [contradiction|]. destruct Hi as [Hi|Hi]; [left; inversion Hi; reflexivity|right; auto].
Qed.
Lemma fine_esc : forall c us, fine us -> fine (esc c us).
Proof. intros c us [V A]. split; [apply valid_esc; exact V|apply keep_esc; exact A]. Qed.
Lemma fine_umark : forall pat us, fine us -> fine (umark pat [] us).
Proof. intros pat us [V A]. split; [apply valid_umark; exact V|apply keep_umark; exact A]. Qed.
Lemma fine_u0 : forall x, ~ In c_cr x -> fine (u0 x).
Proof. intros x H. split; [apply u0_valid|apply absent_u0; exact H]. Qed.
Lemma nonempty_chars : forall us, chars us <> [] -> us <> [].
Proof. intros [|u us] H; [exfalso; apply H; reflexivity|discriminate]. Qed.

(** [keeps] finds a missing character through the escaping functions. *)
Ltac keeps := unfold nn, nn2, pp, stars, bangs, fences; repeat first [apply absent_esc | apply keep_umark | apply keep_esc].
Ltac fines := unfold nn, nn2, pp, stars, bangs, fences; repeat first [apply fine_u0; assumption | apply fine_umark | apply fine_esc].
Ltac charss := unfold nn, nn2, pp, stars, bangs, fences; repeat first [rewrite umark_chars | rewrite esc_chars]; apply u0_chars.

(** ** The units of the texts *)

Definition u_delim (c : char) (x : str) : list uchar := nn (esc c (u0 x)).
Definition u_text (x : str) : list uchar :=
  pp (nn2 (esc c_lcurly (esc c_lsquare (esc c_backtick (esc c_tilde (esc c_underscore (esc c_star (u0 x)))))))).
Definition u_title (x : str) : list uchar := nn (esc c_rsquare (esc c_lsquare (u0 x))).
Definition u_dest (x : str) : list uchar := nn (esc c_rparen (esc c_lparen (u0 x))).
Definition u_alt (x : str) : list uchar := nn (esc c_rsquare (u0 x)).
Definition u_btext (x : str) : list uchar := nn (esc c_tilde (esc c_underscore (esc c_star (u0 x)))).
Definition u_htext (x : str) : list uchar := esc c_hash (nn (u0 x)).
Definition u_lang (x : str) : list uchar := esc c_nl (esc c_backtick (u0 x)).
Definition u_code (x : str) : list uchar := fences (u0 x).
Definition u_kind (x : str) : list uchar := esc c_pipe (esc c_lcurly (u0 x)).
Definition u_args (x : str) : list uchar := esc c_rcurly (esc c_percent (esc c_lcurly (u0 x))).
Definition u_ctitle (x : str) : list uchar := pp (u0 x).

Definition u_bold (b : bold_node) : vitem :=
  match b with
  | BText x => VText (u_btext x)
  | BItalic x => VItalic (stars (u_delim c_underscore x))
  | BStrike x => VStrike (stars (u_delim c_tilde x))
  end.
Definition u_par (p : par_node) : uitem :=
  match p with
  | PText x => UText (u_text x)
  | PItalic x => UItalic (u_delim c_underscore x)
  | PStrike x => UStrike (u_delim c_tilde x)
  | PEmphasis x => UEmph (u_delim c_star x)
  | PCodeSpan x => UCode (u_delim c_backtick x)
  | PAnchor t u => UAnchor (u_title t) (u_dest u)
  | PBold l => UBold (map u_bold l)
  end.
Definition u_head (h : head_node) : uitem :=
  match h with HText x => UText (u_htext x) | HAnchor t u => UAnchor (u_title t) (u_dest u) end.

(** *** Their characters *)

Lemma u_delim_chars : forall c x, chars (u_delim c x) = x.
Proof. intros. unfold u_delim. charss. Qed.
Lemma u_text_chars : forall x, chars (u_text x) = x.
Proof. intros. unfold u_text. charss. Qed.
Lemma u_title_chars : forall x, chars (u_title x) = x.
Proof. intros. unfold u_title. charss. Qed.
Lemma u_dest_chars : forall x, chars (u_dest x) = x.
Proof. intros. unfold u_dest. charss. Qed.
Lemma u_alt_chars : forall x, chars (u_alt x) = x.
Proof. intros. unfold u_alt. charss. Qed.
Lemma u_btext_chars : forall x, chars (u_btext x) = x.
Proof. intros. unfold u_btext. charss. Qed.
Lemma u_htext_chars : forall x, chars (u_htext x) = x.
Proof. intros. unfold u_htext. charss. Qed.
Lemma u_lang_chars : forall x, chars (u_lang x) = x.
Proof. intros. unfold u_lang. charss. Qed.
Lemma u_code_chars : forall x, chars (u_code x) = x.
Proof. intros. unfold u_code. charss. Qed.
Lemma u_kind_chars : forall x, chars (u_kind x) = x.
Proof. intros. unfold u_kind. charss. Qed.
Lemma u_args_chars : forall x, chars (u_args x) = x.
Proof. intros. unfold u_args. charss. Qed.
Lemma u_ctitle_chars : forall x, chars (u_ctitle x) = x.
Proof. intros. unfold u_ctitle. charss. Qed.

Lemma u_bold_erase : forall b, verase (u_bold b) = b.
Proof. intros [x|x|x]; cbn; f_equal; [unfold stars; rewrite umark_chars; apply u_delim_chars|unfold stars; rewrite umark_chars; apply u_delim_chars|apply u_btext_chars]. Qed.
Lemma u_par_erase : forall p, uerase (u_par p) = p.
Proof.
  intros [t u|l|x|x|x|x|x]; cbn; f_equal; try apply u_delim_chars; try apply u_text_chars; try apply u_title_chars; try apply u_dest_chars.
  rewrite map_map. rewrite <- (map_id l) at 2. apply map_ext. apply u_bold_erase.
Qed.
Lemma u_head_erase : forall h, herase (u_head h) = h.
Proof. intros [x|t u]; cbn; f_equal; try apply u_htext_chars; try apply u_title_chars; try apply u_dest_chars. Qed.

(** *** They are what [Display] writes *)

Lemma render_delim : forall c x, c <> c_bslash -> replace nlnl esc_nlnl (esc_char c (esc_char c_bslash x)) = render (nn (esc c (u0 x))) \/ c = c_nl.
Proof.
  intros c x Hc. destruct (N.eq_dec c c_nl) as [->|Hn]; [right; reflexivity|left]. rewrite esc_bslash_render, esc_char_render; [|exact Hc|].
  - apply nn_render. intros H. apply escd_esc in H. destruct H as [H|H]; [apply u0_escd in H; discriminate|congruence].
  - intros H. apply u0_escd in H. congruence.
Qed.
Ltac disp := repeat first [rewrite esc_bslash_render | rewrite esc_char_render by (discriminate || noesc) | rewrite nn_render by noesc | rewrite nn2_render by noesc | rewrite pp_render by noesc | rewrite fences_render by noesc].

Lemma u_italic_render : forall x, display_italic x = render (wrap d_italic (u_delim c_underscore x)).
Proof. intros x. unfold display_italic. disp. unfold wrap. rewrite !render_app. reflexivity. Qed.
Lemma u_strike_render : forall x, display_strike x = render (wrap d_strike (u_delim c_tilde x)).
Proof. intros x. unfold display_strike. disp. unfold wrap. rewrite !render_app. reflexivity. Qed.
Lemma u_emph_render : forall x, display_emphasis x = render (wrap d_emph (u_delim c_star x)).
Proof. intros x. unfold display_emphasis. disp. unfold wrap. rewrite !render_app. reflexivity. Qed.
Lemma u_codespan_render : forall x, x <> [] -> display_code_span x = render (wrap d_code (u_delim c_backtick x)).
Proof. intros [|d x] H; [congruence|]. unfold display_code_span. disp. unfold wrap. rewrite !render_app. reflexivity. Qed.
Lemma u_text_render : forall x, display_text x = render (u_text x).
Proof. intros x. unfold display_text. disp. reflexivity. Qed.
Lemma u_link_render : forall t u, display_anchor t u = render (ulink (u_title t) (u_dest u)).
Proof. intros t u. unfold display_anchor. disp. unfold ulink. rewrite !render_app. reflexivity. Qed.

(** A character that does not occur in the pattern keeps the parts separate. *)
Lemma follows_barrier : forall qs A v B, ~ In (snd v) (chars qs) -> follows qs (A ++ v :: B) = follows qs A.
Proof.
  induction qs as [|q qs IH]; intros A v B H; [reflexivity|]. destruct A as [|u A]; cbn [follows app].
  - destruct (char_eqb (snd q) (snd v)) eqn:E; [apply char_eqb_eq in E; exfalso; apply H; left; exact E|]. rewrite andb_false_r. reflexivity.
  - rewrite IH; [reflexivity|]. intros X. apply H. right. exact X.
Qed.
Lemma umark_barrier : forall pat A pend v B, ~ In (snd v) (chars pat) -> (forall q, In q pend -> In q pat) -> follows pend A = true ->
  umark pat pend (A ++ v :: B) = umark pat pend A ++ v :: umark pat [] B.
Proof.
  intros pat A. induction A as [|u A IH]; intros pend v B H Hp Fo.
  - destruct pend as [|q pend]; [|discriminate]. cbn [app umark]. replace (umatch pat (v :: B)) with false; [reflexivity|].
    destruct pat as [|q qs]; [reflexivity|]. cbn [umatch]. destruct (char_eqb (snd q) (snd v)) eqn:E; [apply char_eqb_eq in E; exfalso; apply H; left; exact E|reflexivity].
  - change ((u :: A) ++ v :: B) with (u :: A ++ v :: B). cbn [umark]. destruct pend as [|q pend].
    + assert (M : umatch pat (u :: A ++ v :: B) = umatch pat (u :: A)).
      { destruct pat as [|q qs]; [reflexivity|]. cbn [umatch]. rewrite follows_barrier; [reflexivity|]. intros X. apply H. right. exact X. }
      rewrite M. destruct (umatch pat (u :: A)) eqn:E.
      * destruct pat as [|q qs]; [discriminate|]. cbn [umatch] in E. apply andb_true_iff in E. destruct E as [_ E].
        rewrite IH; [reflexivity|exact H|intros; right; assumption|exact E].
      * rewrite IH; [reflexivity|exact H|intros ? []|reflexivity].
    + cbn [follows] in Fo. apply andb_true_iff in Fo. destruct Fo as [_ Fo]. rewrite IH; [reflexivity|exact H|intros; apply Hp; right; assumption|exact Fo].
Qed.
Lemma stars_wrap : forall c n us, c <> c_star -> stars (wrap (repeat (raw c) (S n)) us) = wrap (repeat (raw c) (S n)) (stars us).
Proof.
  intros c n us H. assert (Hc : forall v : uchar, snd v = c -> ~ In (snd v) (chars [escd c_star; raw c_star])) by (intros v Hv [X|[X|[]]]; cbn in X; congruence).
  unfold stars, wrap.
  assert (R : forall m X, umark [escd c_star; raw c_star] [] (repeat (raw c) m ++ X) = repeat (raw c) m ++ umark [escd c_star; raw c_star] [] X).
  { induction m as [|m IH]; intros X; [reflexivity|]. cbn [repeat app]. rewrite <- IH.
    exact (umark_barrier [escd c_star; raw c_star] [] [] (raw c) _ (Hc (raw c) eq_refl) ltac:(intros ? []) eq_refl). }
  rewrite R. apply f_equal. cbn [repeat]. rewrite umark_barrier; [|apply Hc; reflexivity|intros ? []|reflexivity].
  rewrite <- (app_nil_r (repeat (raw c) n)) at 1. rewrite R. cbn [umark]. rewrite app_nil_r. reflexivity.
Qed.

Lemma u_bold_render : forall b, replace (s_ "**") (c_bslash :: s_ "**") (display_bold_node b) = render (vflat (u_bold b)).
Proof.
  intros [x|x|x]; cbn [display_bold_node u_bold vflat].
  - rewrite u_italic_render, stars_render.
    + f_equal. exact (stars_wrap c_underscore 0 _ ltac:(discriminate)).
    + left. unfold wrap, d_italic, u_delim. intros H. rewrite !in_app_iff in H. destruct H as [[H|[]]|[H|[H|[]]]]; try discriminate H. revert H. noesc.
  - rewrite u_strike_render, stars_render.
    + f_equal. exact (stars_wrap c_tilde 1 _ ltac:(discriminate)).
    + left. unfold wrap, d_strike, u_delim. intros H. rewrite !in_app_iff in H. destruct H as [[H|[H|[]]]|[H|[H|[H|[]]]]]; try discriminate H. revert H. noesc.
  - disp. rewrite stars_render; [|right; keeps]. rewrite stars_absent by keeps. reflexivity.
Qed.
Lemma u_bolds_render : forall l, bold_has_content l = true -> display_bold l = render (uflat (UBold (map u_bold l))).
Proof.
  intros l H. unfold display_bold. rewrite H. cbn [uflat]. unfold wrap. rewrite !render_app. apply (f_equal2 (@app char)); [reflexivity|]. apply (f_equal2 (@app char)); [|reflexivity].
  clear H. induction l as [|b l IH]; [reflexivity|]. cbn [map flat_map]. rewrite render_app, IH, u_bold_render. reflexivity.
Qed.

(** ** Inline nodes that can be written and read back *)

Definition bold_next (a b : bold_node) : Prop :=
  match a, b with BText _, BText _ | BStrike _, BStrike _ => False | _, _ => True end.
Definition par_next (a b : par_node) : Prop :=
  match a, b with
  | PText _, PText _ | PStrike _, PStrike _ | PCodeSpan _, PCodeSpan _ | (PEmphasis _ | PBold _), (PEmphasis _ | PBold _) => False
  | _, _ => True
  end.

Lemma bold_chain : forall l, no_neighbours (both is_btext) l -> no_neighbours (both is_bstrike) l -> chain bold_next l.
Proof.
  induction l as [|a l IH]; intros H1 H2; [exact I|]. destruct l as [|b l]; [split; exact I|]. destruct H1 as [A1 B1], H2 as [A2 B2]. split; [|exact (IH B1 B2)]. destruct a, b; cbn in *; try discriminate; exact I.
Qed.
Lemma par_chain : forall l, no_neighbours (both is_ptext) l -> no_neighbours fuse l -> chain par_next l.
Proof.
  induction l as [|a l IH]; intros H1 H2; [exact I|]. destruct l as [|b l]; [split; exact I|]. destruct H1 as [A1 B1], H2 as [A2 B2]. split; [|exact (IH B1 B2)]. destruct a, b; cbn in *; try discriminate; exact I.
Qed.

Lemma chain_map : forall X Y (f : X -> Y) (R : X -> X -> Prop) (Q : Y -> Y -> Prop) l, (forall a b, R a b -> Q (f a) (f b)) -> chain R l -> chain Q (map f l).
Proof.
  intros X Y f R Q l H. induction l as [|a l IH]; intros C; [exact I|]. destruct C as [C0 C]. split; [|exact (IH C)]. destruct l as [|b l]; [exact I|]. apply H. exact C0.
Qed.

Lemma u_par_render : forall coll p, tame_inline coll p -> display_par_node p = render (uflat (u_par p)).
Proof.
  intros coll [t u|l|x|x|x|x|x] T; cbn [display_par_node u_par uflat].
  - apply u_link_render.
  - apply u_bolds_render. destruct T as (NE & T & _). unfold bold_has_content. destruct l as [|b l]; [congruence|]. inversion T as [|? ? Tb _]; subst.
    cbn [existsb]. destruct b as [x|x|x]; try reflexivity. destruct x as [|d x]; [destruct Tb as [Tb _]; congruence|reflexivity].
  - apply u_italic_render.
  - apply u_strike_render.
  - apply u_text_render.
  - apply u_codespan_render. apply T.
  - apply u_emph_render.
Qed.
Definition u_pars (l : list par_node) : list uchar := uflats (map u_par l).
Lemma u_pars_render : forall coll l, Forall (tame_inline coll) l -> display_paragraph l = render (u_pars l).
Proof.
  intros coll l T. unfold display_paragraph, u_pars, uflats. induction T as [|p l Tp T IH]; [reflexivity|]. cbn [map flat_map]. rewrite render_app, IH, (u_par_render _ _ Tp). reflexivity.
Qed.
Lemma u_pars_erase : forall l, map uerase (map u_par l) = l.
Proof. intros l. rewrite map_map. rewrite <- (map_id l) at 2. apply map_ext. apply u_par_erase. Qed.

Lemma chars_ne : forall us x, chars us = x -> x <> [] -> us <> [].
Proof. intros us x H NE ->. apply NE. rewrite <- H. reflexivity. Qed.

Lemma u_bold_good : forall coll b, tame_bold coll b -> vgood (u_bold b).
Proof.
  intros coll [x|x|x] T; cbn in *.
  - unfold u_delim. keeps.
  - split; [apply (chars_ne _ x); [unfold stars; rewrite umark_chars; apply u_delim_chars|apply T]|]. unfold u_delim. keeps.
  - split; [apply (chars_ne _ x); [apply u_btext_chars|apply T]|]. unfold u_btext. split; [|split]; keeps.
Qed.
Lemma u_par_good : forall coll p, tame_inline coll p -> ugood (u_par p).
Proof.
  intros coll [t u|l|x|x|x|x|x] T; cbn in *.
  - unfold u_title, u_dest. split; [|split]; keeps.
  - destruct T as (NE & T & C1 & C2). pose proof (bold_chain _ C1 C2) as C. split; [destruct l; [congruence|discriminate]|]. split.
    + apply Forall_map. eapply Forall_impl; [|exact T]. intros b. apply u_bold_good.
    + apply (chain_map _ _ u_bold bold_next vnext); [|exact C]. intros [] []; auto.
  - unfold u_delim. keeps.
  - split; [apply (chars_ne _ x); [apply u_delim_chars|apply T]|]. unfold u_delim. keeps.
  - split; [apply (chars_ne _ x); [apply u_text_chars|apply T]|]. unfold u_text. split; [|split; [|split; [|split]]]; keeps.
  - split; [apply (chars_ne _ x); [apply u_delim_chars|apply T]|]. unfold u_delim. keeps.
  - split; [apply (chars_ne _ x); [apply u_delim_chars|apply T]|]. unfold u_delim. keeps.
Qed.
Lemma u_pars_good : forall coll l, tame_inlines coll l -> ugoods (map u_par l).
Proof.
  intros coll l (T & C1 & C2). pose proof (par_chain _ C1 C2) as C. split.
  - apply Forall_map. eapply Forall_impl; [|exact T]. intros p. apply u_par_good.
  - apply (chain_map _ _ u_par par_next unext); [|exact C]. intros [] []; auto.
Qed.
