(** The text of blocks as units, and that the parser reads tame blocks back. *)
From Coq Require Import String.
From Verif Require Import Base Lexer LexSpec LexProofs LexFacts Ops Parser FParser TokFacts ToYamd TreeAst Ast AstSpec Tame Units ULex Stops Inline AstUnits Calm Blocks Docs Highlight Lists.

(** ** More escapes *)

Lemma more_raw_at : forall C a b c, more C a b -> raw_at c a = false -> raw_at c b = false.
Proof.
  intros C a b c M H. destruct M as [|u v a b (H1 & H2 & H3) M]; [reflexivity|]. cbn in *. destruct (fst v) eqn:E; [reflexivity|]. destruct (fst u) eqn:Eu; [specialize (H2 eq_refl); discriminate|]. rewrite <- H1. exact H.
Qed.
Lemma more_raw2 : forall C a b c d, more C a b -> raw2_at c d a = false -> raw2_at c d b = false.
Proof.
  intros C a b c d M H. destruct M as [|u v a b (H1 & H2 & H3) M]; [reflexivity|]. cbn in *. destruct (fst v) eqn:E; [reflexivity|]. destruct (fst u) eqn:Eu; [specialize (H2 eq_refl); discriminate|]. rewrite <- H1.
  apply andb_false_iff in H. destruct H as [H|H]; [rewrite H; reflexivity|]. rewrite (more_raw_at _ _ _ _ M H). apply andb_false_r.
Qed.
Lemma more_skipn : forall C n a b, more C a b -> more C (skipn n a) (skipn n b).
Proof. intros C n. induction n as [|n IH]; intros a b M; [exact M|]. destruct M as [|u v a b H M]; [constructor|]. exact (IH _ _ M). Qed.
Lemma more_ends : forall C a b c, more C a b -> ends c b -> ends c a.
Proof.
  intros C a b c M (r & ->). apply Forall2_app_inv_r in M. destruct M as (a' & x & _ & M & ->). inversion M as [|u v ? ? (H1 & H2 & H3) M']; subst. inversion M'; subst.
  exists a'. destruct u as [e d]. cbn in *. subst d. destruct e; [specialize (H2 eq_refl); discriminate|]. reflexivity.
Qed.
Lemma more_tame : forall C n b A A', more C A A' -> tame_at n b A -> tame_at n b A'.
Proof.
  intros C n b A A' M [T1 T2]. split; [eapply more_nosub; [|exact M|exact T1]; repeat constructor|]. intros Hn. destruct (T2 Hn) as [T3 T4]. split; [intros Hb; exact (more_raw2 _ _ _ _ _ M (T3 Hb))|].
  eapply more_nosub; [|exact M|exact T4]. repeat constructor.
Qed.
Lemma more_starts : forall C A A', more C A A' -> starts A -> starts A'.
Proof.
  intros C A A' M (S1 & S2 & S3 & S4). split; [exact (more_ne _ _ _ M S1)|]. split; [exact (more_raw2 _ _ _ _ _ M S2)|]. split; [exact (more_raw2 _ _ _ _ _ M S3)|].
  intros H. apply (more_raw2 _ _ _ _ _ (more_skipn _ 1 _ _ M)). apply S4. destruct (raw_at c_nl A) eqn:E; [reflexivity|]. rewrite (more_raw_at _ _ _ _ M E) in H. discriminate.
Qed.
Lemma more_fine : forall C A A', more C A A' -> fine A -> fine A'.
Proof. intros C A A' M [F1 F2]. split; [exact (more_valid _ _ _ M F1)|exact (more_absent _ _ _ _ M F2)]. Qed.

(** ** The escaped first marker *)

Definition blockmark (c : char) : Prop := In c [c_minus; c_plus; c_hash; c_bang].
Definition lead_pats : list (list uchar) :=
  [[raw c_minus; raw c_space]; [raw c_plus; raw c_space]; [raw c_hash; raw c_space]; [raw c_bang; raw c_bang]; [raw c_minus; raw c_minus; raw c_minus]].
Definition u_lead (us : list uchar) : list uchar :=
  if existsb (fun p => follows p us) lead_pats then match us with u :: r => escd (snd u) :: r | [] => [] end else us.

Lemma u_lead_render : forall us, escape_leading_block_marker (render us) = render (u_lead us).
Proof.
  intros us. unfold escape_leading_block_marker, u_lead. cbn [lead_pats existsb].
  change (s_ "- ") with (chars [raw c_minus; raw c_space]). change (s_ "+ ") with (chars [raw c_plus; raw c_space]). change (s_ "# ") with (chars [raw c_hash; raw c_space]).
  change (s_ "!!") with (chars [raw c_bang; raw c_bang]). change (s_ "---") with (chars [raw c_minus; raw c_minus; raw c_minus]).
  rewrite !starts_with_render by (intros c Hc; cbn in Hc; repeat (destruct Hc as [<-|Hc]; [discriminate|]); destruct Hc).
  rewrite orb_false_r, !orb_assoc. set (X := _ || _). destruct X eqn:E; [|reflexivity]. subst X.
  destruct us as [|[e d] us]; [discriminate|]. destruct e; [cbn in E; discriminate|]. reflexivity.
Qed.
Lemma u_lead_raw : forall us, existsb (fun p => follows p us) lead_pats = true -> exists c r, us = raw c :: r /\ blockmark c.
Proof.
  intros us H. destruct us as [|[e d] us]; [discriminate|]. exists d, us. apply existsb_exists in H. destruct H as (p & Hp & F).
  assert (X : e = false /\ In d (map (fun p => match p with q :: _ => snd q | [] => d end) lead_pats)).
  { destruct p as [|[pe pc] p]; [cbn in Hp; repeat (destruct Hp as [Hp|Hp]; [discriminate|]); destruct Hp|]. cbn [follows fst snd] in F. apply andb_true_iff in F. destruct F as [F _]. apply andb_true_iff in F. destruct F as [F1 F2].
    destruct e; [discriminate|]. split; [reflexivity|]. apply char_eqb_eq in F2. subst d. apply in_map_iff. eexists. split; [|exact Hp]. reflexivity. }
  destruct X as [-> X]. split; [reflexivity|]. cbn in X. unfold blockmark. cbn. tauto.
Qed.
Lemma u_lead_more : forall us, more blockmark us (u_lead us).
Proof.
  intros us. unfold u_lead. destruct (existsb _ _) eqn:E; [|apply more_refl]. apply u_lead_raw in E. destruct E as (c & r & -> & Hc). constructor; [|apply more_refl].
  split; [reflexivity|]. cbn. split; [discriminate|]. intros _. right. exact Hc.
Qed.
Lemma blockmark_free : forall c, blockmark c -> ~ In c delims.
Proof. intros c H. cbn in H. repeat (destruct H as [<-|H]; [cbn; intros X; repeat (destruct X as [X|X]; [discriminate|]); exact X|]). destruct H. Qed.

(** ** Inline nodes *)

Lemma u_par_parts : forall p, map chars (uparts (u_par p)) = strings p.
Proof.
  intros [t u|l|x|x|x|x|x]; cbn [u_par uparts map strings]; rewrite ?u_title_chars, ?u_dest_chars, ?u_delim_chars, ?u_text_chars; try reflexivity.
  induction l as [|b l IH]; [reflexivity|]. cbn [map flat_map]. rewrite map_app, IH. destruct b as [x|x|x]; cbn [u_bold vparts map app bold_string]; f_equal.
  - unfold stars. rewrite umark_chars. apply u_delim_chars.
  - unfold stars. rewrite umark_chars. apply u_delim_chars.
  - apply u_btext_chars.
Qed.
Lemma parts_nosub : forall p pat, (forall x, In x (strings p) -> ~ has (chars pat) x) -> Forall (nosub pat) (uparts (u_par p)).
Proof.
  intros p pat H. apply Forall_forall. intros us Hu. apply nosub_chars. apply H. rewrite <- u_par_parts. apply in_map. exact Hu.
Qed.
Lemma nn_nosub : forall us, ~ In (escd c_nl) us -> even_runs (chars us) -> nosub [raw c_nl; raw c_nl] (nn us).
Proof. intros us N H. apply no2_nosub. apply nn_no2; assumption. Qed.
Lemma stars_nosub : forall us, nosub [raw c_nl; raw c_nl] us -> nosub [raw c_nl; raw c_nl] (stars us).
Proof. intros us H. eapply more_nosub; [|apply umark0_more|exact H]. repeat constructor. Qed.
Ltac nn_part := apply nn_nosub; [noesc|rewrite ?esc_chars, u0_chars; assumption].
Lemma u_text_no2 : forall x, nosub [raw c_nl; raw c_nl] (u_text x).
Proof. intros x. unfold u_text, pp. eapply more_nosub; [|apply umark0_more|]; [repeat constructor|]. apply no2_nosub. apply nn2_no2. Qed.
Lemma u_text_pp : forall x, nosub [raw c_percent; raw c_rcurly] (u_text x).
Proof. intros x. apply no2_nosub. apply pp_no2. Qed.
Lemma u_bold_no2 : forall coll b, tame_bold coll b -> Forall (nosub [raw c_nl; raw c_nl]) (vparts (u_bold b)).
Proof.
  intros coll [x|x|x] T; cbn in *; (constructor; [|constructor]).
  - destruct T as (_ & T & _). apply stars_nosub. nn_part.
  - destruct T as (_ & _ & T & _). apply stars_nosub. nn_part.
  - destruct T as (_ & _ & T & _). unfold u_btext. nn_part.
Qed.
Lemma u_par_no2 : forall coll p, tame_inline coll p -> Forall (nosub [raw c_nl; raw c_nl]) (uparts (u_par p)).
Proof.
  intros coll [t u|l|x|x|x|x|x] T; cbn in *.
  - destruct T as [(_ & T1 & _) (_ & T2 & _)]. constructor; [unfold u_title; nn_part|]. constructor; [unfold u_dest; nn_part|constructor].
  - destruct T as (_ & T & _). induction T as [|b l Tb T IH]; [constructor|]. cbn. apply Forall_app. split; [exact (u_bold_no2 _ _ Tb)|exact IH].
  - destruct T as (_ & T & _). constructor; [unfold u_delim; nn_part|constructor].
  - destruct T as (_ & _ & T & _). constructor; [unfold u_delim; nn_part|constructor].
  - constructor; [apply u_text_no2|constructor].
  - destruct T as (_ & _ & T & _). constructor; [unfold u_delim; nn_part|constructor].
  - destruct T as (_ & _ & T & _). constructor; [unfold u_delim; nn_part|constructor].
Qed.
Lemma tame_strings : forall p, tame_inline true p -> (forall x, p = PText x -> False) -> forall x, In x (strings p) -> ~ has [c_nl; c_percent; c_rcurly] x.
Proof.
  assert (I0 : forall x, inner_text true x -> ~ has [c_nl; c_percent; c_rcurly] x) by (intros x (_ & _ & T); exact (T eq_refl)).
  intros [t u|l|y|y|y|y|y] T NT x Hx; cbn in *; try (destruct Hx as [<-|[]]; apply I0; solve [exact T | apply T]).
  - destruct T as [T1 T2]. destruct Hx as [<-|[<-|[]]]; auto.
  - destruct T as (_ & T & _). apply in_map_iff in Hx. destruct Hx as (b & <- & Hb). rewrite Forall_forall in T. specialize (T b Hb). destruct b; cbn in *; apply I0; solve [exact T | apply T].
  - exfalso. exact (NT y eq_refl).
Qed.
Lemma u_par_cpat : forall p, tame_inline true p -> Forall (nosub cpat) (uparts (u_par p)).
Proof.
  intros p T. assert (X : (exists x, p = PText x) \/ forall x, p <> PText x) by (destruct p; eauto; right; discriminate). destruct X as [(x & ->)|X].
  - constructor; [|constructor]. intros a b E. apply (u_text_pp x (a ++ [raw c_nl]) b). rewrite <- app_assoc. exact E.
  - apply parts_nosub. apply tame_strings; [exact T|]. intros x ->. exact (X x eq_refl).
Qed.

(** Where the text of a paragraph starts. *)
Lemma u_par_hd : forall p, is_ptext p = false -> hd_in delims (uflat (u_par p)).
Proof. intros p H. apply uflat_ends. destruct p; try reflexivity. discriminate. Qed.
Lemma u_pars_hd : forall p l, is_ptext p = false -> hd_in delims (u_pars (p :: l)).
Proof. intros p l H. unfold u_pars, uflats. cbn [map flat_map]. destruct (u_par_hd p H) as (c & r & -> & Hc). exists c. eexists. split; [reflexivity|exact Hc]. Qed.
Lemma u_pars_cons : forall p l, u_pars (p :: l) = uflat (u_par p) ++ u_pars l.
Proof. reflexivity. Qed.
Lemma u_pars_shape : forall coll l, tame_inlines coll l ->
  l = [] \/ hd_in delims (u_pars l) \/ exists x r, l = PText x :: r /\ u_pars l = u_text x ++ u_pars r /\ x <> [] /\ (r = [] \/ hd_in delims (u_pars r)).
Proof.
  intros coll [|p l] (T & C & _); [left; reflexivity|right]. destruct (is_ptext p) eqn:E; [right|left; apply u_pars_hd; exact E].
  destruct p; try discriminate. inversion T as [|? ? Tp _]; subst. exists s, l. split; [reflexivity|]. split; [reflexivity|]. split; [apply Tp|].
  destruct l as [|q l]; [left; reflexivity|right]. destruct C as [C _]. cbn in C. apply u_pars_hd. exact C.
Qed.
Lemma hd_in_raw : forall cs us c, hd_in cs us -> ~ In c cs -> raw_at c us = false.
Proof. intros cs us c (d & r & -> & Hd) H. cbn. apply N.eqb_neq. intros ->. contradiction. Qed.
Lemma hd_in_raw2 : forall cs us c d, hd_in cs us -> ~ In c cs -> raw2_at c d us = false.
Proof. intros cs us c d H Hc. destruct (raw2_at c d us) eqn:E; [|reflexivity]. apply raw2_at_true in E. destruct E as (r & E). pose proof (hd_in_raw _ _ c H Hc) as X. rewrite E, raw_at_raw in X. discriminate. Qed.
Ltac nodel := let X := fresh in cbn; intros X; repeat (destruct X as [X|X]; [discriminate X|]); exact X.
Lemma nosub_raw2 : forall c d us, nosub [raw c; raw d] us -> raw2_at c d us = false.
Proof. intros c d us H. destruct (raw2_at c d us) eqn:E; [|reflexivity]. apply raw2_at_true in E. destruct E as (r & ->). exfalso. exact (H [] r eq_refl). Qed.
Lemma text_raw2 : forall c d us R, nosub [raw c; raw d] us -> us <> [] -> raw_at d R = false -> raw2_at c d (us ++ R) = false.
Proof.
  intros c d us R H NE HR. destruct (raw2_at c d (us ++ R)) eqn:E; [|reflexivity]. destruct (raw2_app _ _ _ _ E NE) as [X|[_ X]]; [rewrite nosub_raw2 in X by exact H; discriminate|rewrite X in HR; discriminate].
Qed.
Lemma u_text_ne : forall x, x <> [] -> u_text x <> [].
Proof. intros x H. apply (chars_ne _ x); [apply u_text_chars|exact H]. Qed.
Lemma hd_or_nil : forall (r : list par_node) c, r = [] \/ hd_in delims (u_pars r) -> ~ In c delims -> raw_at c (u_pars r) = false.
Proof. intros r c [->|H] Hc; [reflexivity|exact (hd_in_raw _ _ _ H Hc)]. Qed.

Lemma u_pars_tame : forall coll n b l, tame_inlines coll l -> (n <> 0 -> coll = true) -> tame_at n b (u_pars l).
Proof.
  intros coll n b l T Hn. pose proof (u_pars_good _ _ T) as G. pose proof (u_pars_shape _ _ T) as Sh. destruct T as (T & _).
  assert (N2 : nosub [raw c_nl; raw c_nl] (u_pars l)).
  { apply ugoods_nosub; [discriminate|exact nodelim_term|exact G|]. intros x Hx. apply in_map_iff in Hx. destruct Hx as (p & <- & Hp). rewrite Forall_forall in T. exact (u_par_no2 _ _ (T p Hp)). }
  split; [exact N2|]. intros H. rewrite (Hn H) in T. split.
  - intros _. destruct Sh as [->|[Sh|(x & r & -> & E & NE & Sh)]]; [reflexivity|apply (hd_in_raw2 _ _ _ _ Sh); nodel|]. rewrite E. apply text_raw2; [apply u_text_pp|apply u_text_ne; exact NE|]. apply hd_or_nil; [exact Sh|nodel].
  - apply ugoods_nosub; [discriminate|exact nodelim_cpat|exact G|]. intros x Hx. apply in_map_iff in Hx. destruct Hx as (p & <- & Hp). rewrite Forall_forall in T. exact (u_par_cpat _ (T p Hp)).
Qed.
Lemma u_pars_ne : forall coll l, tame_inlines coll l -> l <> [] -> u_pars l <> [].
Proof. intros coll l T NE. apply ugoods_ne; [exact (u_pars_good _ _ T)|]. destruct l; [congruence|discriminate]. Qed.
Lemma u_pars_pct : forall coll l, tame_inlines coll l -> raw2_at c_percent c_rcurly (u_pars l) = false.
Proof.
  intros coll l T. pose proof (u_pars_shape _ _ T) as Sh. destruct Sh as [->|[Sh|(x & r & -> & E & Nx & Sh)]]; [reflexivity|apply (hd_in_raw2 _ _ _ _ Sh); nodel|].
  rewrite E. apply text_raw2; [apply u_text_pp|apply u_text_ne; exact Nx|]. apply hd_or_nil; [exact Sh|nodel].
Qed.
Lemma u_pars_starts : forall coll l, tame_inlines coll l -> l <> [] -> starts (u_pars l).
Proof.
  intros coll l T NE. pose proof (u_pars_shape _ _ T) as Sh. pose proof (u_pars_tame coll 0 true l T ltac:(congruence)) as [N2 _]. split; [exact (u_pars_ne _ _ T NE)|]. split; [exact (nosub_raw2 _ _ _ N2)|].
  split; [exact (u_pars_pct _ _ T)|]. destruct Sh as [->|[Sh|(x & r & -> & E & Nx & Sh)]].
  - discriminate.
  - intros H. rewrite (hd_in_raw _ _ _ Sh) in H by nodel. discriminate.
  - intros _. rewrite E. pose proof (u_text_ne x Nx) as NE1. pose proof (u_text_pp x) as P. destruct (u_text x) as [|a w]; [congruence|]. cbn [app skipn]. destruct w as [|b w].
    + cbn [app]. destruct Sh as [->|Sh]; [reflexivity|]. apply (hd_in_raw2 _ _ _ _ Sh); nodel.
    + apply text_raw2; [|discriminate|apply hd_or_nil; [exact Sh|nodel]]. exact (nosub_suffix _ [a] _ P).
Qed.

(** *** Characters of the text *)

Definition plainc (u : uchar) : bool := negb (char_eqb (snd u) c_bslash) && negb (char_eqb (snd u) c_cr).
Lemma fine_lit : forall us, forallb plainc us = true -> fine us.
Proof.
  intros us H. rewrite forallb_forall in H. split.
  - apply Forall_forall. intros u Hu _ E. specialize (H u Hu). unfold plainc in H. rewrite E in H. discriminate.
  - intros Hu. specialize (H _ Hu). discriminate.
Qed.
Lemma fine_repeat : forall c n, plainc (raw c) = true -> fine (repeat (raw c) n).
Proof. intros c n H. apply fine_lit. induction n as [|n IH]; [reflexivity|]. cbn [repeat forallb]. rewrite H. exact IH. Qed.
(** [fineparts] splits a text into literals and parts. *)
Ltac fineparts := repeat first [apply fine_app; split | apply fine_lit; reflexivity | assumption].
Lemma vflat_fine : forall v, Forall fine (vparts v) -> fine (vflat v).
Proof. intros [us|us|us] H; inversion H; subst; cbn [vflat]; unfold wrap; fineparts. Qed.
Lemma uflat_fine : forall x, Forall fine (uparts x) -> fine (uflat x).
Proof.
  intros [us|us|us|us|us|t u|l] H; cbn [uflat uparts] in *.
  1-5: inversion H; subst; unfold wrap; fineparts.
  - inversion H as [|? ? ? Hu]; subst. inversion Hu; subst. unfold ulink. fineparts.
  - unfold wrap. apply fine_app. split; [apply fine_lit; reflexivity|]. apply fine_app. split; [|apply fine_lit; reflexivity].
    induction l as [|v l IH]; [apply fine_lit; reflexivity|]. cbn [flat_map] in *. apply Forall_app in H. destruct H as [H1 H2]. apply fine_app. split; [exact (vflat_fine _ H1)|exact (IH H2)].
Qed.
Lemma u_par_fine : forall coll p, tame_inline coll p -> fine (uflat (u_par p)).
Proof.
  intros coll p T. apply uflat_fine. destruct p as [t u|l|x|x|x|x|x]; cbn in *.
  - destruct T as [[T1 _] [T2 _]]. constructor; [unfold u_title; fines|]. constructor; [unfold u_dest; fines|constructor].
  - destruct T as (_ & T & _). induction T as [|b l Tb T IH]; [constructor|]. cbn. apply Forall_app. split; [|exact IH].
    destruct b as [x|x|x]; cbn in *; (constructor; [|constructor]); [destruct Tb as [Tb _]|destruct Tb as [_ [Tb _]]|destruct Tb as [_ [Tb _]]]; unfold u_delim, u_btext; fines.
  - destruct T as [T _]. constructor; [unfold u_delim; fines|constructor].
  - destruct T as [_ [T _]]. constructor; [unfold u_delim; fines|constructor].
  - destruct T as [_ T]. constructor; [unfold u_text; fines|constructor].
  - destruct T as [_ [T _]]. constructor; [unfold u_delim; fines|constructor].
  - destruct T as [_ [T _]]. constructor; [unfold u_delim; fines|constructor].
Qed.
Lemma u_pars_fine : forall coll l, Forall (tame_inline coll) l -> fine (u_pars l).
Proof.
  intros coll l T. induction T as [|p l Tp T IH]; [apply fine_lit; reflexivity|]. rewrite u_pars_cons. apply fine_app. split; [exact (u_par_fine _ _ Tp)|exact IH].
Qed.

(** *** The last text *)

Lemma last_text_snoc : forall l x, last_text (l ++ [PText x]) = x.
Proof. intros l x. unfold last_text. rewrite rev_app_distr. reflexivity. Qed.
Lemma ends_chars : forall c us, ends c us -> exists y, chars us = y ++ [c].
Proof. intros c us (r & ->). exists (chars r). rewrite chars_app. reflexivity. Qed.
Lemma ends_app : forall c A B, B <> [] -> ends c (A ++ B) -> ends c B.
Proof.
  intros c A B NE (r & E). destruct B as [|b B _] using rev_ind; [congruence|]. rewrite app_assoc in E. apply app_inj_tail in E. destruct E as [_ ->]. exists B. reflexivity.
Qed.
Lemma last_not_ends : forall cs us c, last_in cs us -> ~ In c cs -> ~ ends c us.
Proof. intros cs us c (d & r & -> & Hd) H (r' & E). apply app_inj_tail in E. destruct E as [_ E]. injection E as ->. contradiction. Qed.
(** In a text an even number of line feeds comes before one that is not escaped. *)
Lemma more_at : forall C A a c b, more C A (a ++ raw c :: b) -> exists a' b', A = a' ++ raw c :: b' /\ more C a' a /\ more C b' b.
Proof.
  intros C A a c b M. unfold more in M. apply Forall2_app_inv_r in M. destruct M as (a' & r & M1 & M2 & ->). inversion M2 as [|u v r' ? U R]; subst. exists a', r'. split; [|split; assumption].
  destruct u as [e d]. destruct U as (U1 & U2 & _). cbn in U1, U2. destruct e; [discriminate (U2 eq_refl)|]. subst d. reflexivity.
Qed.
Lemma u_text_nl : forall x a b, u_text x = a ++ raw c_nl :: b -> Nat.Even (leading c_nl (rev (chars a))).
Proof.
  intros x a b E. unfold u_text, pp in E. pose proof (umark0_more [escd c_percent; raw c_rcurly] (nn2 (esc c_lcurly (esc c_lsquare (esc c_backtick (esc c_tilde (esc c_underscore (esc c_star (u0 x))))))))) as M. rewrite E in M.
  destruct (more_at _ _ _ _ _ M) as (a' & b' & E' & M' & _). rewrite (more_chars _ _ _ M'). eapply nn2_even; [|exact E']. noesc.
Qed.
Lemma u_text_nl0 : forall x, leading c_nl x <> 1 -> raw_at c_nl (u_text x) = false.
Proof.
  intros x H. destruct (raw_at c_nl (u_text x)) eqn:R; [|reflexivity]. exfalso. apply raw_at_true in R. destruct R as (r & R). unfold u_text, pp in R.
  pose proof (umark0_more [escd c_percent; raw c_rcurly] (nn2 (esc c_lcurly (esc c_lsquare (esc c_backtick (esc c_tilde (esc c_underscore (esc c_star (u0 x))))))))) as M. rewrite R in M.
  destruct (more_at _ _ [] _ _ M) as (a' & b' & E' & M' & _). inversion M'; subst. eapply nn2_start; [| |exact E']; [noesc|]. rewrite !esc_chars, u0_chars. exact H.
Qed.
Lemma u_pars_odd : forall coll l, Forall (tame_inline coll) l -> ends c_nl (u_pars l) -> Nat.Odd (leading c_nl (rev (last_text l))).
Proof.
  intros coll l T H. destruct l as [|p l _] using rev_ind; [destruct H as (r & H); destruct r; discriminate|]. unfold u_pars in H. rewrite map_app, uflats_app in H. apply Forall_app in T. destruct T as [_ T]. inversion T as [|? ? Tp _]; subst.
  assert (E : uflats (map u_par [p]) = uflat (u_par p)) by (unfold uflats; cbn; apply app_nil_r). rewrite E in H. pose proof (u_par_good _ _ Tp) as G. apply ends_app in H; [|exact (uflat_nonempty _ G)].
  destruct (is_ptext p) eqn:Ep.
  - destruct p; try discriminate. cbn [u_par uflat] in H. rewrite last_text_snoc. destruct H as (r & H). pose proof (u_text_nl _ _ _ H) as Ev. apply (f_equal chars) in H. rewrite u_text_chars, chars_app in H. rewrite H, rev_app_distr.
    apply Nat.Odd_succ. exact Ev.
  - exfalso. revert H. apply (last_not_ends delims); [|nodel]. apply uflat_ends. destruct p; try reflexivity. discriminate.
Qed.
Lemma u_pars_ends : forall coll l, Forall (tame_inline coll) l -> ends c_nl (u_pars l) -> ends_with_nl (last_text l).
Proof.
  intros coll l T H. destruct l as [|p l _] using rev_ind; [destruct H as (r & H); destruct r; discriminate|]. unfold u_pars in H. rewrite map_app, uflats_app in H. apply Forall_app in T. destruct T as [_ T]. inversion T as [|? ? Tp _]; subst.
  assert (E : uflats (map u_par [p]) = uflat (u_par p)) by (unfold uflats; cbn; apply app_nil_r). rewrite E in H. pose proof (u_par_good _ _ Tp) as G. apply ends_app in H; [|exact (uflat_nonempty _ G)].
  destruct (is_ptext p) eqn:Ep.
  - destruct p; try discriminate. cbn [u_par uflat] in H. rewrite last_text_snoc. apply ends_chars in H. rewrite u_text_chars in H. exact H.
  - exfalso. revert H. apply (last_not_ends delims); [|nodel]. apply uflat_ends. destruct p; try reflexivity. discriminate.
Qed.
Lemma trim_end_keep : forall x, ~ ends_with_nl x -> trim_end c_nl x = x.
Proof.
  intros x H. destruct x as [|c x _] using rev_ind; [reflexivity|]. unfold trim_end. rewrite rev_app_distr. cbn [rev app trim_start]. destruct (char_eqb c_nl c) eqn:E.
  - apply char_eqb_eq in E. subst c. exfalso. apply H. exists x. reflexivity.
  - cbn [rev]. rewrite rev_involutive. reflexivity.
Qed.
Lemma trim_ok_last : forall l p, map uerase l = p -> ~ ends_with_nl (last_text p) -> trim_ok l.
Proof.
  intros l p E H r us ->. apply trim_end_keep. rewrite map_app in E. cbn [map uerase] in E. rewrite <- E, last_text_snoc in H. exact H.
Qed.

(** *** Where a paragraph starts *)

Lemma raw_absent : forall c us, absent c us -> raw_at c us = false.
Proof. intros c us H. destruct (raw_at c us) eqn:E; [|reflexivity]. apply raw_at_true in E. destruct E as (r & ->). exfalso. apply H. left. reflexivity. Qed.
Lemma raw_app : forall c A B, A <> [] -> raw_at c (A ++ B) = raw_at c A.
Proof. intros c [|a A] B H; [congruence|reflexivity]. Qed.
Lemma raw2_hd : forall c d us, raw_at c us = false -> raw2_at c d us = false.
Proof. intros c d us H. destruct (raw2_at c d us) eqn:E; [|reflexivity]. apply raw2_at_true in E. destruct E as (r & ->). rewrite raw_at_raw in H. discriminate. Qed.
Lemma u_pars_bt : forall coll l, tame_inlines coll l -> raw2_at c_backtick c_backtick (u_pars l) = false.
Proof.
  intros coll [|p l] (T & _); [reflexivity|]. inversion T as [|? ? Tp _]; subst. rewrite u_pars_cons. pose proof (u_par_good _ _ Tp) as G. destruct p; cbn [u_par uflat]; try reflexivity.
  - destruct G as (NE & _ & _ & _ & G & _). apply raw2_hd. rewrite raw_app by exact NE. apply raw_absent. exact G.
  - destruct G as (NE & G). unfold wrap, d_code. cbn [app]. change (raw_at c_backtick ((u_delim c_backtick s ++ [raw c_backtick]) ++ u_pars l) = false). rewrite <- app_assoc, raw_app by exact NE. apply raw_absent. exact G.
Qed.
Lemma u_pars_lcurly : forall coll l, tame_inlines coll l -> raw_at c_lcurly (u_pars l) = false.
Proof.
  intros coll [|p l] (T & _); [reflexivity|]. inversion T as [|? ? Tp _]; subst. rewrite u_pars_cons. pose proof (u_par_good _ _ Tp) as G. destruct p; cbn [u_par uflat]; try reflexivity.
  destruct G as (NE & _). rewrite raw_app by exact NE. apply raw_absent. unfold u_text. keeps.
Qed.
Lemma u_pars_anchor : forall coll l, tame_inlines coll l -> raw_at c_lsquare (u_pars l) = true -> exists t u r, l = PAnchor t u :: r.
Proof.
  intros coll [|p l] (T & _) H; [discriminate|]. inversion T as [|? ? Tp _]; subst. rewrite u_pars_cons in H. pose proof (u_par_good _ _ Tp) as G. destruct p; cbn [u_par uflat] in H; try discriminate; eauto.
  destruct G as (NE & _ & _ & _ & _ & G). rewrite raw_app in H by exact NE. rewrite raw_absent in H by exact G. discriminate.
Qed.
Lemma tame_tail : forall coll p l, tame_inlines coll (p :: l) -> tame_inlines coll l.
Proof.
  intros coll p l (T & C1 & C2). inversion T; subst. split; [assumption|]. destruct l as [|q l]; [split; exact I|]. destruct C1 as [_ C1], C2 as [_ C2]. auto.
Qed.
Lemma lead_chars : forall c us, ~ In (escd c) us -> lead c us = leading c (chars us).
Proof.
  intros c us H. induction us as [|[e d] us IH]; [reflexivity|]. cbn [lead chars leading fst snd]. destruct (char_eqb d c) eqn:E; [|rewrite andb_false_r; reflexivity].
  apply char_eqb_eq in E. subst d. destruct e; [exfalso; apply H; left; reflexivity|]. cbn [negb andb]. rewrite IH; [reflexivity|]. intros X. apply H. right. exact X.
Qed.
Lemma chars_skipn : forall n us, chars (skipn n us) = skipn n (chars us).
Proof. induction n as [|n IH]; intros [|u us]; try reflexivity. cbn [skipn chars]. apply IH. Qed.
Lemma lead_le : forall c us, lead c us <= List.length us.
Proof. intros c us. induction us as [|u us IH]; [apply le_n|]. cbn [lead List.length]. destruct (negb (fst u) && char_eqb (snd u) c); lia. Qed.
Lemma skipn_off : forall n (A B : list uchar), n <= List.length A -> skipn n (A ++ B) = skipn n A ++ B.
Proof. intros n A B H. rewrite skipn_app. replace (n - List.length A) with 0 by lia. reflexivity. Qed.
Lemma skipn_in : forall n (us : list uchar) u, In u (skipn n us) -> In u us.
Proof. intros n us u H. rewrite <- (firstn_skipn n us). apply in_app_iff. right. exact H. Qed.
Lemma u_text_escd : forall x c, In (escd c) (u_text x) -> In c [c_bslash; c_star; c_underscore; c_tilde; c_backtick; c_lsquare; c_lcurly; c_nl; c_percent].
Proof.
  intros x c H. unfold u_text, pp, nn2 in H. cbn [In].
  repeat first [apply u0_escd in H; subst c; tauto
               |apply escd_umark in H; destruct H as [H|H]; [|cbn in H; repeat (destruct H as [H|H]; [first [injection H as <-; tauto|discriminate H]|]); destruct H]
               |apply escd_esc in H; destruct H as [H|<-]; [|tauto]].
Qed.
Ltac nochar := let H := fresh in intros H; apply u_text_escd in H; cbn in H; repeat (destruct H as [H|H]; [discriminate H|]); exact H.

Lemma follows2 : forall c d r, follows [raw c; raw d] (raw c :: raw d :: r) = true.
Proof. intros. cbn. rewrite !char_eqb_refl. reflexivity. Qed.
Lemma u_pars_plain : forall coll n l B, tame_paragraph coll l -> stail n B -> plain_start (u_lead (u_pars l) ++ B).
Proof.
  intros coll n l B (NE & T & P) TB. assert (NBc : forall c, c <> c_nl -> raw_at c B = false) by (intros; apply (stail_not n); assumption).
  unfold u_lead. destruct (existsb (fun p => follows p (u_pars l)) lead_pats) eqn:E.
  - apply u_lead_raw in E. destruct E as (c & r & -> & _). cbn [app snd raw]. repeat split; reflexivity.
  - cbn [lead_pats existsb] in E. repeat (apply orb_false_iff in E; destruct E as [? E]). clear E.
    match goal with A1 : follows _ _ = false, A2 : follows _ _ = false, A3 : follows _ _ = false, A4 : follows _ _ = false, A5 : follows _ _ = false |- _ => rename A1 into F1, A2 into F2, A3 into F3, A4 into F4, A5 into F5 end.
    pose proof (u_pars_ne _ _ T NE) as NU. set (U := u_pars l) in *.
    split; [|split; [|split; [|split; [|split]]]].
    + rewrite lead_off by (apply NBc; discriminate). apply Nat.eqb_neq. intros L. destruct (lead_ge1 c_backtick U ltac:(lia)) as (r & E & L1). destruct (lead_ge1 c_backtick r ltac:(lia)) as (r2 & E2 & _).
      pose proof (u_pars_bt _ _ T) as X. fold U in X. rewrite E, E2 in X. discriminate.
    + rewrite raw_app by exact NU. exact (u_pars_lcurly _ _ T).
    + rewrite lead_off by (apply NBc; discriminate). apply Nat.eqb_neq. intros L. destruct (lead_ge1 c_bang U ltac:(lia)) as (r & E & L1). destruct (lead_ge1 c_bang r ltac:(lia)) as (r2 & E2 & _).
      rewrite E, E2 in F4. discriminate.
    + rewrite uboundary_off by exact (stail_inert _ _ TB). destruct (uboundary 0 None U) eqn:Eb; [|reflexivity]. unfold uboundary in Eb. cbn [Nat.eqb orb andb umarker skipn] in Eb. apply andb_true_iff in Eb. destruct Eb as [Eb1 Eb2].
      apply Nat.eqb_eq in Eb2. apply orb_true_iff in Eb1. destruct Eb1 as [Eb1|Eb1]; apply Nat.eqb_eq in Eb1; destruct (lead_ge1 _ U ltac:(rewrite Eb1; apply le_n)) as (r & E & L1); rewrite E in *; cbn [skipn] in Eb2;
        destruct (lead_ge1 c_space r ltac:(lia)) as (r2 & E2 & _); rewrite E2 in *; discriminate.
    + rewrite lead_off by (apply NBc; discriminate). apply Nat.eqb_neq. intros L. destruct (lead_ge1 c_minus U ltac:(lia)) as (r & E & L1). destruct (lead_ge1 c_minus r ltac:(lia)) as (r2 & E2 & L2). destruct (lead_ge1 c_minus r2 ltac:(lia)) as (r3 & E3 & _).
      rewrite E, E2, E3 in F5. discriminate.
    + unfold heading_at. rewrite lead_off by (apply NBc; discriminate). rewrite skipn_off by apply lead_le. rewrite lead_off by (apply NBc; discriminate).
      destruct ((1 <=? lead c_hash U) && (lead c_hash U <=? 6)) eqn:Eb; [|reflexivity]. cbn [andb]. apply andb_true_iff in Eb. destruct Eb as [Eb1 Eb2]. apply Nat.leb_le in Eb1. apply Nat.leb_le in Eb2. apply Nat.eqb_neq. intros L.
      destruct (u_pars_shape _ _ T) as [->|[Sh|(x & r & -> & Eu & Nx & Sh)]]; [congruence|fold U in Sh; rewrite (proj1 (lead_0 _ _) (hd_in_raw _ _ c_hash Sh ltac:(nodel))) in Eb1; lia|]. fold U in Eu.
      assert (LH : lead c_hash U = leading c_hash x).
      { rewrite Eu, lead_off by (apply hd_or_nil; [exact Sh|nodel]). rewrite lead_chars by nochar. rewrite u_text_chars. reflexivity. }
      destruct P as [P _]. destruct (Nat.eq_dec (lead c_hash U) 1) as [L1|L1].
      * rewrite L1 in L. destruct (lead_ge1 c_hash U ltac:(lia)) as (r1 & E & _). rewrite E in L, F3. cbn [skipn] in L. destruct (lead_ge1 c_space r1 ltac:(lia)) as (r2 & E2 & _). rewrite E2 in F3. discriminate.
      * cbn [first_text] in P. apply P. split; [lia|]. rewrite <- LH. rewrite Eu in L at 2. assert (Le : lead c_hash U <= List.length (u_text x)) by (rewrite Eu, lead_off by (apply hd_or_nil; [exact Sh|nodel]); apply lead_le).
        rewrite skipn_off in L by exact Le. rewrite lead_off in L by (apply hd_or_nil; [exact Sh|nodel]). rewrite lead_chars in L by (intros X; apply skipn_in in X; revert X; nochar). rewrite chars_skipn, u_text_chars in L. exact L.
Qed.

(** ** Blocks *)

(** The text of a block below [n] collapsibles. *)
Definition good_block (n : nat) (A : list uchar) (y : ynode) : Prop := starts A /\ parses n A [y] /\ fine A.

Lemma starts_raw : forall c r, c <> c_nl -> c <> c_percent -> starts (raw c :: r).
Proof.
  intros c r H1 H2. split; [discriminate|]. assert (E1 : raw_at c_nl (raw c :: r) = false) by (apply N.eqb_neq; exact H1). assert (E2 : raw_at c_percent (raw c :: r) = false) by (apply N.eqb_neq; exact H2).
  split; [exact (raw2_hd _ _ _ E1)|]. split; [exact (raw2_hd _ _ _ E2)|]. rewrite E1. discriminate.
Qed.

Lemma paragraph_block : forall coll n l, tame_paragraph coll l -> (n <> 0 -> coll = true) -> good_block n (u_lead (u_pars l)) (YParagraph l).
Proof.
  intros coll n l H Hn. pose proof H as (NE & T & P). pose proof (u_lead_more (u_pars l)) as M.
  assert (St : starts (u_lead (u_pars l))) by exact (more_starts _ _ _ M (u_pars_starts _ _ T NE)).
  split; [exact St|]. split; [|exact (more_fine _ _ _ M (u_pars_fine _ _ (proj1 T)))].
  destruct (more_us blockmark blockmark_free (map u_par l) _ M) as (l' & E1 & E2 & _ & E4). rewrite u_pars_erase in E2. rewrite E1 in *. rewrite <- E2. apply paragraph_parses.
  - apply E4. exact (u_pars_good _ _ T).
  - apply St.
  - exact (more_tame _ _ _ _ _ M (u_pars_tame coll n true l T Hn)).
  - intros B TB _. rewrite <- E1. exact (u_pars_plain coll n l B H TB).
  - intros s t ts B C TB He. apply (no_images s n l' t ts B); [|intros ->; apply NE; symmetry; exact E2|rewrite E2; exact (proj2 P)| |exact C|exact TB|exact He].
    + apply E4. exact (u_pars_good _ _ T).
    + exact (more_tame _ _ _ _ _ M (u_pars_tame coll n true l T Hn)).
Qed.

Definition u_heads (l : list head_node) : list uchar := uflats (map u_head l).
Lemma u_head_render : forall h, display_head_node h = render (uflat (u_head h)).
Proof. intros [x|t u]; cbn [display_head_node u_head uflat]; [unfold u_htext; disp; reflexivity|apply u_link_render]. Qed.
Lemma u_heads_render : forall l, flat_map display_head_node l = render (u_heads l).
Proof. induction l as [|h l IH]; [reflexivity|]. cbn [flat_map]. rewrite IH, u_head_render. unfold u_heads, uflats. cbn [map flat_map]. rewrite render_app. reflexivity. Qed.
Lemma u_head_good : forall coll h, tame_head coll h -> hgood (u_head h).
Proof.
  intros coll [x|t u] T; cbn in *.
  - destruct T as (NE & _). apply (chars_ne _ x); [apply u_htext_chars|exact NE].
  - unfold u_title, u_dest. split; [|split]; keeps.
Qed.
Lemma u_htext_escd : forall x c, In (escd c) (u_htext x) -> In c [c_bslash; c_hash; c_nl].
Proof.
  intros x c H. unfold u_htext, nn in H. cbn [In].
  repeat first [apply u0_escd in H; subst c; tauto
               |apply escd_umark in H; destruct H as [H|H]; [|cbn in H; repeat (destruct H as [H|H]; [first [injection H as <-; tauto|discriminate H]|]); destruct H]
               |apply escd_esc in H; destruct H as [H|<-]; [|tauto]].
Qed.
(** In the text of a heading no closing bracket is escaped. *)
Lemma htext_rsquare : forall x a t b, u_htext x = a ++ t ++ b -> absent c_rsquare t -> ~ In c_rsquare (chars t).
Proof.
  intros x a t b E H X. assert (Y : exists e, In (e, c_rsquare) t).
  { clear - X. induction t as [|[e c] t IH]; [destruct X|]. cbn [chars snd] in X. destruct X as [->|X]; [exists e; left; reflexivity|]. destruct (IH X) as (e' & Y). exists e'. right. exact Y. }
  destruct Y as ([] & Y); [|exact (H Y)]. assert (Z : In (escd c_rsquare) (u_htext x)) by (rewrite E, !in_app_iff; auto).
  apply u_htext_escd in Z. cbn in Z. repeat (destruct Z as [Z|Z]; [discriminate Z|]). exact Z.
Qed.
Lemma cut_at : forall (us R a : list uchar) c b, us ++ R = a ++ c :: b -> List.length a < List.length us -> exists us', us = a ++ c :: us' /\ us' ++ R = b.
Proof.
  induction us as [|u us IH]; intros R a c b E L; [cbn in L; lia|]. destruct a as [|d a].
  - cbn [app] in E. injection E as -> E. exists us. auto.
  - cbn [app] in E. injection E as -> E. destruct (IH R a c b E ltac:(cbn in L; lia)) as (us' & -> & E'). exists us'. auto.
Qed.
Lemma cut_title : forall (us R t : list uchar) c b, us ++ R = t ++ c :: b -> (exists us', us = t ++ c :: us' /\ us' ++ R = b) \/ exists t', t = us ++ t'.
Proof.
  intros us R t c b E. destruct (Nat.ltb_spec (List.length t) (List.length us)) as [L|L]; [left; apply cut_at; assumption|]. right.
  destruct (app_eq_app _ _ _ _ E) as (l & [[X Y]|[X Y]]); [|eauto]. rewrite X, app_length in L. destruct l; [|cbn in L; lia]. exists []. rewrite X, !app_nil_r. reflexivity.
Qed.
Lemma u_head_fol : forall x r, no_neighbours (both is_htext) (HText x :: r) ->
  ~ opens_link x (match r with [] => [] | _ => [c_lsquare; c_rsquare; c_lparen; c_rparen] end) -> hfol (UText (u_htext x)) (map u_head r).
Proof.
  intros x r N H (a & t & u & v & E & L & A). apply H. pose proof (u_htext_chars x) as Ex.
  destruct (cut_at _ _ _ _ _ E L) as (us1 & E1 & E2). rewrite E1, chars_app in Ex. cbn [chars snd raw] in Ex.
  destruct (cut_title _ _ _ _ _ E2) as [(us2 & -> & E3)|(t' & ->)].
  - assert (Nt : ~ In c_rsquare (chars t)) by (apply (htext_rsquare x (a ++ [raw c_lsquare]) t (raw c_rsquare :: us2)); [rewrite E1; rewrite <- app_assoc; reflexivity|exact A]).
    rewrite chars_app in Ex. cbn [chars snd raw] in Ex.
    destruct r as [|h r].
    + cbn [map flat_map] in E3. rewrite app_nil_r in E3. subst us2. cbn [chars snd raw] in Ex. rewrite chars_app in Ex. cbn [chars snd raw] in Ex.
      exists (chars a), (chars t), (chars u), (chars v). rewrite app_nil_r. split; [symmetry; exact Ex|]. split; [|exact Nt]. rewrite <- Ex, app_length. cbn. lia.
    + destruct h as [y|t0 u0]; [destruct N as [N _]; discriminate N|]. destruct us2 as [|w us2]; [cbn in E3; discriminate E3|]. cbn [app] in E3. injection E3 as -> E3.
      exists (chars a), (chars t), (chars us2 ++ [c_lsquare; c_rsquare; c_lparen]), []. split; [|split; [|exact Nt]].
      * rewrite <- Ex. cbn [chars snd raw]. repeat (rewrite <- app_assoc; cbn [app]). reflexivity.
      * rewrite <- Ex, app_length. cbn. lia.
  - assert (Nt : ~ In c_rsquare (chars us1)) by (apply (htext_rsquare x (a ++ [raw c_lsquare]) us1 []); [rewrite E1, app_nil_r, <- app_assoc; reflexivity|intros X; apply A; apply in_app_iff; left; exact X]).
    destruct r as [|h r].
    + cbn [map flat_map] in E2. apply (f_equal (@List.length _)) in E2. rewrite !app_length in E2. cbn in E2. lia.
    + exists (chars a), (chars us1 ++ [c_lsquare]), [], []. split; [|split].
      * rewrite <- Ex. repeat (rewrite <- app_assoc; cbn [app]). reflexivity.
      * rewrite <- Ex, app_length. cbn. lia.
      * rewrite in_app_iff. intros [X|[X|[]]]; [auto|discriminate].
Qed.
Lemma u_heads_good : forall coll l, Forall (tame_head coll) l -> no_neighbours (both is_htext) l -> linkless l -> hgoods (map u_head l).
Proof.
  intros coll l T C K. split; [apply Forall_map; eapply Forall_impl; [|exact T]; intros h; apply u_head_good|]. clear T. split.
  - clear K. induction l as [|a l IH]; [exact I|]. destruct l as [|b l]; [split; exact I|]. destruct C as [C0 C]. split; [|exact (IH C)]. destruct a, b; cbn in *; try discriminate; exact I || (intros X; discriminate X) || (intros _; reflexivity) || auto.
  - induction l as [|a l IH]; [exact I|]. cbn [map fols]. assert (C' : no_neighbours (both is_htext) l) by (destruct l; [exact I|apply C]).
    destruct a as [x|t u]; cbn [linkless] in K.
    + destruct K as [K0 K]. split; [exact (u_head_fol x l C K0)|exact (IH C' K)].
    + split; [exact I|exact (IH C' K)].
Qed.
Lemma u_head_parts : forall coll h, tame_head coll h -> Forall (nosub [raw c_nl; raw c_nl]) (uparts (u_head h)) /\ (coll = true -> Forall (nosub cpat) (uparts (u_head h))) /\ Forall fine (uparts (u_head h)).
Proof.
  intros coll [x|t u] T; cbn in *.
  - destruct T as (_ & T1 & T2 & T3). split; [|split].
    + constructor; [|constructor]. unfold u_htext. eapply more_nosub; [|apply esc_more|]; [repeat constructor|]. nn_part.
    + intros Hc. constructor; [|constructor]. apply nosub_chars. rewrite u_htext_chars. exact (T3 Hc).
    + constructor; [|constructor]. unfold u_htext. fines.
  - destruct T as [(T1 & T2 & T3) (U1 & U2 & U3)]. split; [|split].
    + constructor; [unfold u_title; nn_part|]. constructor; [unfold u_dest; nn_part|constructor].
    + intros Hc. constructor; [apply nosub_chars; rewrite u_title_chars; exact (T3 Hc)|]. constructor; [apply nosub_chars; rewrite u_dest_chars; exact (U3 Hc)|constructor].
    + constructor; [unfold u_title; fines|]. constructor; [unfold u_dest; fines|constructor].
Qed.
Lemma begins_raw : forall c us x, chars us = x -> ~ begins [c] x -> raw_at c us = false.
Proof.
  intros c us x E H. destruct (raw_at c us) eqn:R; [|reflexivity]. apply raw_at_true in R. destruct R as (r & ->). exfalso. apply H. exists (chars r). rewrite <- E. reflexivity.
Qed.
Lemma heading_block : forall coll n k l, tame_heading coll k l -> (n <> 0 -> coll = true) -> good_block n (repeat (raw c_hash) k ++ [raw c_space] ++ u_heads l) (YHeading k l).
Proof.
  intros coll n k l ([K1 K2] & T & C & LK & F) Hn. destruct k as [|k]; [lia|]. pose proof (u_heads_good _ _ T C LK) as G. split; [apply starts_raw; discriminate|]. split.
  - assert (E : map herase (map u_head l) = l) by (rewrite map_map; rewrite <- (map_id l) at 2; apply map_ext; apply u_head_erase). rewrite <- E at 2. apply heading_parses; [lia|exact G| |].
    + destruct l as [|[x|t u] l]; [reflexivity| |reflexivity]. inversion T as [|? ? Tp _]; subst. unfold uflats. cbn [map flat_map u_head uflat]. rewrite raw_app by (apply (chars_ne _ x); [apply u_htext_chars|apply Tp]).
      apply (begins_raw _ _ x); [apply u_htext_chars|exact F].
    + assert (P : forall x, In x (map u_head l) -> exists h, x = u_head h /\ tame_head coll h).
      { intros x Hx. apply in_map_iff in Hx. destruct Hx as (h & <- & Hh). exists h. rewrite Forall_forall in T. auto. }
      split; [|intros H0; split; [discriminate|]].
      * apply hgoods_nosub; [discriminate|exact nodelim_term|exact G|]. intros x Hx. destruct (P x Hx) as (h & -> & Th). exact (proj1 (u_head_parts _ _ Th)).
      * apply hgoods_nosub; [discriminate|exact nodelim_cpat|exact G|]. intros x Hx. destruct (P x Hx) as (h & -> & Th). exact (proj1 (proj2 (u_head_parts _ _ Th)) (Hn H0)).
  - apply fine_app. split; [apply fine_repeat; reflexivity|]. apply fine_app. split; [apply fine_lit; reflexivity|]. unfold u_heads, uflats.
    clear - T. induction T as [|h l Th T IH]; [apply fine_lit; reflexivity|]. cbn [map flat_map]. apply fine_app. split; [|exact IH]. apply uflat_fine. apply (u_head_parts _ _ Th).
Qed.
Lemma u_heads_ends : forall coll l, Forall (tame_head coll) l -> ends c_nl (u_heads l) -> ends_with_nl (last_head l).
Proof.
  intros coll l T H. destruct l as [|p l _] using rev_ind; [destruct H as (r & H); destruct r; discriminate|]. unfold u_heads in H. rewrite map_app, uflats_app in H. apply Forall_app in T. destruct T as [_ T]. inversion T as [|? ? Tp _]; subst.
  assert (E : uflats (map u_head [p]) = uflat (u_head p)) by (unfold uflats; cbn; apply app_nil_r). rewrite E in H. pose proof (u_head_good _ _ Tp) as G. apply ends_app in H; [|exact (hflat_nonempty _ G)].
  destruct p as [x|t u].
  - cbn [u_head uflat] in H. unfold last_head. rewrite rev_app_distr. cbn [rev app]. apply ends_chars in H. rewrite u_htext_chars in H. exact H.
  - exfalso. revert H. apply (last_not_ends delims); [|nodel]. apply uflat_ends. reflexivity.
Qed.

(** *** Images *)

Definition u_image (i : image_node) : list uchar * list uchar := (u_alt (alt i), u_dest (src i)).
Lemma u_image_good : forall coll n i, tame_image coll i -> (n <> 0 -> coll = true) -> igood n (u_image i).
Proof.
  intros coll n [a s] [(A1 & A2 & A3) (S1 & S2 & S3)] Hn. unfold igood, u_image. cbn [fst snd alt src] in *. split; [unfold u_alt; keeps|]. split; [unfold u_dest; keeps|]. split; [unfold u_dest; keeps|].
  intros p [->|[H0 ->]].
  - split; [unfold u_alt; nn_part|unfold u_dest; nn_part].
  - split; apply nosub_chars; [rewrite u_alt_chars; exact (A3 (Hn H0))|rewrite u_dest_chars; exact (S3 (Hn H0))].
Qed.
Lemma u_image_erase : forall i, eimage (u_image i) = i.
Proof. intros [a s]. unfold eimage, u_image. cbn [fst snd alt src]. rewrite u_alt_chars, u_dest_chars. reflexivity. Qed.
Lemma u_image_render : forall i, display_image i = render (uimage (u_image i)).
Proof. intros [a s]. unfold display_image, uimage, u_image. cbn [fst snd alt src]. disp. unfold ulink. change (raw c_bang :: ?x) with ([raw c_bang] ++ x). rewrite !render_app. reflexivity. Qed.
Lemma u_image_fine : forall coll i, tame_image coll i -> fine (uimage (u_image i)).
Proof.
  intros coll [a s] [(A1 & _) (S1 & _)]. unfold uimage, u_image, ulink. cbn [fst snd alt src] in *. change (raw c_bang :: ?x) with ([raw c_bang] ++ x).
  assert (F1 : fine (u_alt a)) by (unfold u_alt; fines). assert (F2 : fine (u_dest s)) by (unfold u_dest; fines). fineparts.
Qed.
Lemma u_images_fine : forall coll l, Forall (tame_image coll) l -> fine (uimages (map u_image l)).
Proof.
  intros coll l T. induction T as [|i l Ti T IH]; [apply fine_lit; reflexivity|]. cbn [map uimages]. apply fine_app. split; [exact (u_image_fine _ _ Ti)|].
  destruct (map u_image l) as [|j r]; [apply fine_lit; reflexivity|]. change (fine ([raw c_nl] ++ uimages (j :: r))). apply fine_app. split; [apply fine_lit; reflexivity|exact IH].
Qed.
Lemma u_images_render : forall l, display_images l = render (uimages (map u_image l)).
Proof.
  unfold display_images. induction l as [|i l IH]; [reflexivity|]. destruct l as [|j l].
  - cbn [map join uimages]. rewrite app_nil_r. apply u_image_render.
  - change (join nl (map display_image (i :: j :: l))) with (display_image i ++ nl ++ join nl (map display_image (j :: l))). rewrite IH, u_image_render. change (uimages (map u_image (i :: j :: l))) with (uimage (u_image i) ++ [raw c_nl] ++ uimages (map u_image (j :: l))). rewrite !render_app. reflexivity.
Qed.
Lemma images_block : forall coll n l, l <> [] -> Forall (tame_image coll) l -> (n <> 0 -> coll = true) ->
  good_block n (uimages (map u_image l)) match l with [i] => YImage i | _ => YImages l end.
Proof.
  intros coll n l NE T Hn. split; [|split; [|exact (u_images_fine _ _ T)]].
  - destruct l as [|i l]; [congruence|]. cbn [map uimages]. unfold uimage at 1. cbn [app]. apply starts_raw; discriminate.
  - assert (G : Forall (igood n) (map u_image l)) by (apply Forall_map; eapply Forall_impl; [|exact T]; intros i Ti; exact (u_image_good _ _ _ Ti Hn)).
    assert (E : map eimage (map u_image l) = l) by (rewrite map_map; rewrite <- (map_id l) at 2; apply map_ext; apply u_image_erase).
    pose proof (images_parses n (map u_image l) ltac:(destruct l; [congruence|discriminate]) G) as X. rewrite E in X. destruct l as [|i [|j l]]; cbn [map] in X |- *; [congruence| |exact X]. rewrite u_image_erase in X. exact X.
Qed.

(** *** Code, embeds, breaks *)

Definition u_codeblock (lang code : str) : list uchar := fence ++ u_lang lang ++ [raw c_nl] ++ u_code code ++ [raw c_nl] ++ fence.
Definition u_embed (kind args : str) : list uchar := lcurly2 ++ u_kind kind ++ [raw c_pipe] ++ u_args args ++ rcurly2.
Lemma u_codeblock_render : forall lang code, display_code lang code = render (u_codeblock lang code).
Proof. intros lang code. unfold display_code, u_codeblock, u_lang, u_code. disp. rewrite !render_app. reflexivity. Qed.
Lemma u_embed_render : forall k a, display_embed k a = render (u_embed k a).
Proof. intros k a. unfold display_embed, u_embed, u_kind, u_args. disp. rewrite !render_app. reflexivity. Qed.
Lemma code_block : forall n lang code, tame_code lang code -> good_block n (u_codeblock lang code) (YCode lang code).
Proof.
  intros n lang code (T1 & T2 & T3 & T4). split; [apply starts_raw; discriminate|]. split.
  - assert (X : YCode lang code = YCode (chars (u_lang lang)) (trim_end c_nl (chars (u_code code) ++ [c_nl]))) by (rewrite u_lang_chars, u_code_chars, trim_end_nl, trim_end_keep by exact T4; reflexivity).
    rewrite X. apply code_parses.
    + unfold u_lang. keeps.
    + unfold u_lang. keeps.
    + apply (begins_raw _ _ code); [apply u_code_chars|]. intros (b & E). apply T3. exists b. exact E.
    + intros E. apply ends_chars in E. rewrite u_code_chars in E. exact (T4 E).
    + intros a b E. exact (fences_left _ _ _ E).
  - assert (F1 : fine (u_lang lang)) by (unfold u_lang; fines). assert (F2 : fine (u_code code)) by (unfold u_code; fines). unfold u_codeblock. fineparts.
Qed.
Lemma embed_block : forall coll n k a, tame_embed coll k a -> (n <> 0 -> coll = true) -> good_block n (u_embed k a) (YEmbed k a).
Proof.
  intros coll n k a (T1 & T2 & T3) Hn. split; [apply starts_raw; discriminate|]. split.
  - replace (YEmbed k a) with (YEmbed (chars (u_kind k)) (chars (u_args a))) by (rewrite u_kind_chars, u_args_chars; reflexivity). apply embed_parses.
    + unfold u_kind. keeps.
    + unfold u_kind. keeps.
    + unfold u_args. keeps.
    + unfold u_args. keeps.
    + intros H0. apply nosub_chars. rewrite u_kind_chars. exact (T3 (Hn H0)).
  - assert (F1 : fine (u_kind k)) by (unfold u_kind; fines). assert (F2 : fine (u_args a)) by (unfold u_args; fines). unfold u_embed. fineparts.
Qed.
Lemma break_block : forall n, good_block n (repeat (raw c_minus) 5) YThematicBreak.
Proof. intros n. split; [apply starts_raw; discriminate|]. split; [apply break_parses|apply fine_lit; reflexivity]. Qed.

(** *** Highlights *)

Definition escapable : list char :=
  [c_bslash; c_star; c_underscore; c_tilde; c_backtick; c_lsquare; c_rsquare; c_lparen; c_rparen; c_lcurly; c_nl; c_percent].
Lemma vflat_escd : forall v c, In (escd c) (vflat v) -> exists us, In us (vparts v) /\ In (escd c) us.
Proof.
  intros [us|us|us] c H; cbn [vflat vparts] in *; exists us; (split; [left; reflexivity|]); [exact H| |]; unfold wrap in H; rewrite !in_app_iff in H;
    (destruct H as [H|[H|H]]; [|exact H|]); cbn in H; repeat (destruct H as [H|H]; [discriminate H|]); destruct H.
Qed.
Lemma uflat_escd : forall x c, In (escd c) (uflat x) -> exists us, In us (uparts x) /\ In (escd c) us.
Proof.
  assert (W : forall d us c, Forall (fun u => fst u = false) d -> In (escd c) (wrap d us) -> In (escd c) us).
  { intros d us c F H. rewrite Forall_forall in F. unfold wrap in H. rewrite !in_app_iff in H. destruct H as [H|[H|H]]; [|exact H|]; specialize (F _ H); discriminate. }
  intros [us|us|us|us|us|t u|l] c H; cbn [uflat uparts] in *.
  1: exists us; split; [left; reflexivity|exact H].
  1-4: exists us; (split; [left; reflexivity|]); revert H; apply W; repeat constructor.
  - unfold ulink in H. rewrite !in_app_iff in H. destruct H as [H|[H|[H|[H|[H|H]]]]]; try (cbn in H; destruct H as [H|[]]; discriminate H); [exists t|exists u]; cbn; auto.
  - apply W in H; [|repeat constructor]. apply in_flat_map in H. destruct H as (v & Hv & H). destruct (vflat_escd _ _ H) as (us & H1 & H2). exists us. split; [apply in_flat_map; eauto|exact H2].
Qed.
Ltac escds H :=
  repeat first [apply u0_escd in H; subst; cbn; tauto
               |apply escd_umark in H; destruct H as [H|H]; [|cbn in H; repeat (destruct H as [H|H]; [first [injection H as <-; cbn; tauto|discriminate H]|]); destruct H]
               |apply escd_esc in H; destruct H as [H|<-]; [|cbn; tauto]].
Lemma u_par_escd : forall p us c, In us (uparts (u_par p)) -> In (escd c) us -> In c escapable.
Proof.
  intros [t u|l|x|x|x|x|x] us c Hu H; cbn [u_par uparts] in Hu.
  - destruct Hu as [<-|[<-|[]]]; unfold u_title, u_dest, nn in H; escds H.
  - apply in_flat_map in Hu. destruct Hu as (v & Hv & Hu). apply in_map_iff in Hv. destruct Hv as (b & <- & _). destruct b as [x|x|x]; destruct Hu as [<-|[]]; unfold stars, u_delim, u_btext, nn in H; escds H.
  - destruct Hu as [<-|[]]. unfold u_delim, nn in H. escds H.
  - destruct Hu as [<-|[]]. unfold u_delim, nn in H. escds H.
  - destruct Hu as [<-|[]]. apply u_text_escd in H. cbn in *. tauto.
  - destruct Hu as [<-|[]]. unfold u_delim, nn in H. escds H.
  - destruct Hu as [<-|[]]. unfold u_delim, nn in H. escds H.
Qed.
Lemma u_pars_escd : forall l c, In (escd c) (u_pars l) -> In c escapable.
Proof.
  intros l c H. unfold u_pars, uflats in H. apply in_flat_map in H. destruct H as (x & Hx & H). apply in_map_iff in Hx. destruct Hx as (p & <- & _). destruct (uflat_escd _ _ H) as (us & H1 & H2). exact (u_par_escd _ _ _ H1 H2).
Qed.

Definition u_hpar (p : list par_node) : list uchar := u_lead (bangs (u_pars p)).
Lemma bangs_more : forall us, more blockmark us (bangs us).
Proof. intros us. eapply more_weaken; [|apply umark0_more]. intros c [H|[H|[]]]; [injection H as <-|discriminate]. unfold blockmark. cbn. tauto. Qed.
Lemma u_hpar_more : forall p, more blockmark (u_pars p) (u_hpar p).
Proof. intros p. eapply more_trans; [apply bangs_more|apply u_lead_more]. Qed.
Lemma u_hpar_render : forall coll p, Forall (tame_inline coll) p ->
  escape_leading_block_marker (replace (s_ "!!") (c_bslash :: s_ "!!") (display_paragraph p)) = render (u_hpar p).
Proof.
  intros coll p T. rewrite (u_pars_render _ _ T), bangs_render, u_lead_render; [reflexivity|]. intros H. apply u_pars_escd in H. cbn in H. repeat (destruct H as [H|H]; [discriminate H|]). exact H.
Qed.
Lemma bangs_line : forall us A1 A2, u_lead (bangs us) = A1 ++ A2 -> aft true A1 = true -> raw2_at c_bang c_bang A2 = false.
Proof.
  intros us A1 A2 E Ha. destruct (raw2_at c_bang c_bang A2) eqn:R; [|reflexivity]. apply raw2_at_true in R. destruct R as (r & ->). exfalso.
  assert (X : forall A1', bangs us = A1' ++ raw c_bang :: raw c_bang :: r -> (A1' = [] \/ exists a v, A1' = a ++ [v] /\ snd v = c_nl) -> False).
  { intros A1' E' Q. destruct (bangs_left _ _ _ E') as (a' & u & -> & Hu). destruct Q as [Q|(a & v & Q & Hv)]; [destruct a'; discriminate|]. apply app_inj_tail in Q. destruct Q as [_ ->]. rewrite Hv in Hu. discriminate. }
  unfold u_lead in E. destruct (existsb (fun p => follows p (bangs us)) lead_pats) eqn:F; [|apply (X A1 E); apply aft_true in Ha; destruct Ha as [[-> _]|(q & ->)]; [left; reflexivity|right; exists q, (raw c_nl); split; reflexivity]].
  destruct (u_lead_raw _ F) as (c & w & Ew & Hc). rewrite Ew in E. destruct A1 as [|v A1]; [discriminate E|]. injection E as <- E. apply (X (raw c :: A1)); [rewrite Ew, E; reflexivity|].
  right. apply aft_true in Ha. destruct Ha as [[Ha _]|(q & Ha)]; [discriminate|]. destruct q as [|v q]; [discriminate|]. injection Ha as <- ->. exists (raw c :: q), (raw c_nl). split; reflexivity.
Qed.
Lemma u_hpar_hpar : forall coll n p, p <> [] -> tame_inlines coll p -> ~ ends_with_nl (last_text p) -> (n <> 0 -> coll = true) ->
  exists l, uflats l = u_hpar p /\ map uerase l = p /\ hpar n l.
Proof.
  intros coll n p NE T He Hn. pose proof (u_hpar_more p) as M. destruct (more_us blockmark blockmark_free (map u_par p) _ M) as (l & E1 & E2 & _ & E4). rewrite u_pars_erase in E2. exists l. split; [symmetry; exact E1|]. split; [exact E2|].
  split; [apply E4; exact (u_pars_good _ _ T)|]. split; [intros ->; apply NE; rewrite <- E2; reflexivity|]. rewrite <- E1. split; [|split; [|split; [|split]]].
  - intros X. apply He. exact (u_pars_ends _ _ (proj1 T) (more_ends _ _ _ _ M X)).
  - exact (more_tame _ _ _ _ _ M (u_pars_tame coll n true p T Hn)).
  - exact (more_raw2 _ _ _ _ _ M (u_pars_pct _ _ T)).
  - apply bangs_line.
  - exact (trim_ok_last _ _ E2 He).
Qed.
Lemma first_raw : forall coll p c, tame_inlines coll p -> ~ In c delims -> ~ begins [c] (first_text p) -> raw_at c (u_pars p) = false.
Proof.
  intros coll p c T Hc H. destruct (u_pars_shape _ _ T) as [->|[Sh|(x & r & -> & E & Nx & Sh)]]; [reflexivity|exact (hd_in_raw _ _ _ Sh Hc)|]. rewrite E, raw_app by (apply u_text_ne; exact Nx). exact (begins_raw _ _ x (u_text_chars x) H).
Qed.
Lemma first_nl : forall coll p, tame_inlines coll p -> leading c_nl (first_text p) <> 1 -> raw_at c_nl (u_pars p) = false.
Proof.
  intros coll p T H. destruct (u_pars_shape _ _ T) as [->|[Sh|(x & r & -> & E & Nx & Sh)]]; [reflexivity|apply (hd_in_raw _ _ c_nl Sh); nodel|]. rewrite E, raw_app by (apply u_text_ne; exact Nx). exact (u_text_nl0 x H).
Qed.
Lemma first_raw2 : forall coll p c d, tame_inlines coll p -> ~ In c delims -> ~ In d delims -> ~ begins [c; d] (first_text p) -> raw2_at c d (u_pars p) = false.
Proof.
  intros coll p c d T Hc Hd H. destruct (u_pars_shape _ _ T) as [->|[Sh|(x & r & -> & E & Nx & Sh)]]; [reflexivity|exact (hd_in_raw2 _ _ _ _ Sh Hc)|]. rewrite E.
  destruct (raw2_at c d (u_text x ++ u_pars r)) eqn:R; [|reflexivity]. exfalso. destruct (raw2_app _ _ _ _ R (u_text_ne _ Nx)) as [Y|[_ Y]].
  - apply raw2_at_true in Y. destruct Y as (w & Y). apply H. exists (chars w). cbn [first_text]. rewrite <- (u_text_chars x), Y. reflexivity.
  - rewrite hd_or_nil in Y by assumption. discriminate.
Qed.
Lemma icon_off : forall us R, us <> [] -> raw2_at c_bang c_space us = false -> icon_at (us ++ raw c_nl :: R) = false.
Proof.
  intros us R NE H. unfold icon_at. destruct (Nat.eqb_spec (lead c_bang (us ++ raw c_nl :: R)) 1) as [L|L]; [|reflexivity]. cbn [andb]. apply Nat.eqb_neq. intros L2.
  destruct (lead_ge1 c_bang _ ltac:(rewrite L; apply le_n)) as (r & E & _). rewrite E in L2. cbn [skipn] in L2. destruct (lead_ge1 c_space r ltac:(lia)) as (r2 & -> & _).
  destruct us as [|a [|b us]]; [congruence|discriminate E|]. injection E as -> -> _. rewrite (eq_refl : raw2_at c_bang c_space (raw c_bang :: raw c_space :: us) = true) in H. discriminate.
Qed.

Lemma starts_with_iff : forall p x, starts_with p x = true <-> begins p x.
Proof.
  intros p x. split; [|intros (y & ->); apply starts_with_app]. revert x. induction p as [|c p IH]; intros x H; [exists x; reflexivity|]. destruct x as [|d x]; [discriminate|]. cbn in H. apply andb_true_iff in H. destruct H as [H1 H2].
  apply N.eqb_eq in H1. subst d. destruct (IH x H2) as (y & ->). exists y. reflexivity.
Qed.
Lemma more_esc : forall C A B c, more C A B -> ~ In (escd c) A -> ~ C c -> ~ In (escd c) B.
Proof.
  intros C A B c M H HC. induction M as [|u v A B U M IH]; [exact (fun X => X)|]. intros [->|X]; [|apply IH; [|exact X]; intros Y; apply H; right; exact Y].
  destruct u as [e d]. destruct U as (U1 & U2 & U3). cbn in U1, U2, U3. subst d. destruct e; [apply H; left; reflexivity|]. destruct (U3 eq_refl) as [X|X]; [discriminate|exact (HC X)].
Qed.
Lemma u_text_next : forall x a b, u_text x = a ++ raw c_nl :: b -> ~ begins [c_nl] (chars b).
Proof.
  intros x a b E (y & Y). unfold u_text, pp in E. pose proof (umark0_more [escd c_percent; raw c_rcurly] (nn2 (esc c_lcurly (esc c_lsquare (esc c_backtick (esc c_tilde (esc c_underscore (esc c_star (u0 x))))))))) as M. rewrite E in M.
  destruct (more_at _ _ _ _ _ M) as (a' & b' & E' & _ & M'). rewrite (more_chars _ _ _ M') in Y. eapply nn2_next; [|exact E'|exact Y]. noesc.
Qed.
Lemma parts_broken : forall p q a b, In q (uparts (u_par p)) -> q = a ++ raw c_nl :: b -> In (chars q) (strings p) /\ broken (is_ptext p) (chars q).
Proof.
  intros p q a b H E. split; [rewrite <- u_par_parts; apply in_map; exact H|]. exists (chars a), (chars b). split; [rewrite E, chars_app; reflexivity|]. intros T. destruct p; try discriminate T. destruct H as [<-|[]].
  split; [exact (u_text_next _ _ _ E)|exact (u_text_nl _ _ _ E)].
Qed.
(** A first paragraph that is not read as the icon. *)
Lemma icon_dec : forall coll p ps, p <> [] -> tame_inlines coll p -> ~ like_icon p ps ->
  (forall R, icon_at (u_hpar p ++ raw c_nl :: R) = false) \/ ps <> [] /\ absent c_nl (u_pars p).
Proof.
  intros coll p ps P1 P2 NI. pose proof (u_hpar_more p) as M. assert (NE : u_hpar p <> []) by exact (more_ne _ _ _ M (u_pars_ne _ _ P2 P1)).
  destruct (raw2_at c_bang c_space (u_hpar p)) eqn:A; [|left; intros R; apply icon_off; assumption].
  assert (A' : begins [c_bang; c_space] (first_text p)).
  { destruct (starts_with [c_bang; c_space] (first_text p)) eqn:X; [apply starts_with_iff in X; exact X|]. exfalso. enough (raw2_at c_bang c_space (u_hpar p) = false) by congruence.
    apply (more_raw2 _ _ _ _ _ M). apply (first_raw2 coll); [exact P2|nodel|nodel|]. intros Y. apply starts_with_iff in Y. congruence. }
  destruct (starts_with [c_bang; c_space; c_space] (first_text p)) eqn:B.
  - left. intros R. apply raw2_at_true in A. destruct A as (w & A). apply starts_with_iff in B. destruct B as (y & B). destruct p as [|[t u|l|x|x|x|x|x] p]; try discriminate B. cbn [first_text] in B.
    assert (C : chars (u_hpar (PText x :: p)) = [c_bang; c_space; c_space] ++ y ++ chars (u_pars p)).
    { rewrite (more_chars _ _ _ M). unfold u_pars. cbn [map]. unfold uflats. cbn [flat_map u_par uflat]. rewrite chars_app, u_text_chars, B, <- app_assoc. reflexivity. }
    assert (Es : ~ In (escd c_space) (u_hpar (PText x :: p))).
    { apply (more_esc _ _ _ _ M); [intros X; apply u_pars_escd in X; cbn in X; repeat (destruct X as [X|X]; [discriminate X|]); exact X|]. unfold blockmark. intros X. cbn in X. repeat (destruct X as [X|X]; [discriminate X|]). exact X. }
    rewrite A in C, Es |- *. destruct w as [|[e d] w]; [discriminate C|]. cbn [chars snd raw app] in C. injection C as C _. subst d. destruct e; [exfalso; apply Es; right; right; left; reflexivity|].
    unfold icon_at. cbn [app lead fst snd negb andb raw skipn]. rewrite char_eqb_refl. cbn [Nat.eqb]. apply andb_false_r.
  - right. assert (K : (ps = [] \/ exists q x, In q p /\ In x (strings q) /\ broken (is_ptext q) x) -> False).
    { intros K. apply NI. split; [exact A'|]. split; [|exact K]. intros Y. apply starts_with_iff in Y. congruence. }
    split; [intros ->; apply K; left; reflexivity|]. intros X. apply in_split in X. destruct X as (a & b & X). refine (ugoods_nosub [raw c_nl] (map u_par p) ltac:(discriminate) _ (u_pars_good _ _ P2) _ a b X).
    { constructor; [|constructor]. cbn [snd raw]. nodel. }
    intros z Hz. apply in_map_iff in Hz. destruct Hz as (q & <- & Hq). apply Forall_forall. intros us Hus a' b' E. apply K. right. destruct (parts_broken q us a' b' Hus E) as [K1 K2]. exists q, (chars us). auto.
Qed.

Definition u_highlight (t i : option str) (ps : list (list par_node)) : list uchar :=
  bang2 ++ utitle (option_map u0 t) ++ [raw c_nl] ++ uicon (option_map u0 i) ++ ujoin (map u_hpar ps) ++ [raw c_nl] ++ bang2.
Lemma ujoin_render : forall l, render (ujoin l) = join nlnl (map render l).
Proof.
  induction l as [|a l IH]; [reflexivity|]. destruct l as [|b l]; [cbn; rewrite app_nil_r; reflexivity|].
  change (ujoin (a :: b :: l)) with (a ++ [raw c_nl; raw c_nl] ++ ujoin (b :: l)). rewrite !render_app, IH. reflexivity.
Qed.
Lemma ujoin_fine : forall l, Forall fine l -> fine (ujoin l).
Proof.
  intros l F. induction F as [|a l Fa F IH]; [apply fine_lit; reflexivity|]. cbn [ujoin]. apply fine_app. split; [exact Fa|]. destruct l as [|b l]; [apply fine_lit; reflexivity|].
  change (fine ([raw c_nl; raw c_nl] ++ ujoin (b :: l))). apply fine_app. split; [apply fine_lit; reflexivity|exact IH].
Qed.
Lemma u_highlight_render : forall coll t i ps, Forall (fun p => Forall (tame_inline coll) p) ps -> display_highlight t i ps = render (u_highlight t i ps).
Proof.
  intros coll t i ps F. unfold display_highlight, u_highlight. rewrite !render_app, ujoin_render, map_map.
  assert (E : map (fun p => escape_leading_block_marker (replace (s_ "!!") (c_bslash :: s_ "!!") (display_paragraph p))) ps = map (fun x => render (u_hpar x)) ps).
  { apply map_ext_in. intros p Hp. rewrite Forall_forall in F. exact (u_hpar_render _ _ (F p Hp)). }
  rewrite E. destruct t as [t|], i as [i|]; cbn [option_map utitle uicon uoption]; change (raw c_space :: u0 ?x) with ([raw c_space] ++ u0 x); rewrite ?render_app, <- ?esc_bslash_render, <- ?app_assoc; reflexivity.
Qed.
Lemma oline_u0 : forall o, tame_line_opt o -> oline (option_map u0 o).
Proof.
  intros [x|] H; [|exact I]. destruct H as (H1 & _ & H3). split; [apply absent_u0; exact H1|]. exact (begins_raw _ _ x (u0_chars x) H3).
Qed.
Lemma highlight_block : forall coll n t i ps, tame_highlight coll t i ps -> (n <> 0 -> coll = true) -> good_block n (u_highlight t i ps) (YHighlight t i ps).
Proof.
  intros coll n t i ps (T1 & T2 & T3) Hn. split; [apply starts_raw; discriminate|]. split.
  - assert (X : exists ls, map uflats ls = map u_hpar ps /\ map (map uerase) ls = ps /\ Forall (fun l => l = [] \/ hpar n l) ls).
    { assert (T4 : Forall (fun q => q = [] \/ tame_hpar coll q) ps) by (destruct ps; constructor; [right|]; apply T3). clear T3. induction T4 as [|p ps T3 T4 IH]; [exists []; repeat split; constructor|]. destruct IH as (ls & E1 & E2 & E3).
      destruct T3 as [->|(P1 & P2 & P3)]; [exists ([] :: ls); cbn [map]; rewrite E1, E2; repeat split; constructor; [left; reflexivity|exact E3]|]. destruct (u_hpar_hpar coll n p P1 P2 P3 Hn) as (l & F1 & F2 & F3).
      exists (l :: ls). cbn [map]. rewrite E1, E2, F1, F2. repeat split. constructor; [right; exact F3|exact E3]. }
    destruct X as (ls & E1 & E2 & E3). unfold u_highlight. rewrite <- E1.
    assert (Y : YHighlight t i ps = YHighlight (option_map chars (option_map u0 t)) (option_map chars (option_map u0 i)) (map (map uerase) ls)) by (rewrite E2; destruct t, i; cbn [option_map]; rewrite ?u0_chars; reflexivity).
    rewrite Y. apply highlight_parses; [apply oline_u0; exact T1|apply oline_u0; exact T2| |exact E3|].
    + intros ->. destruct ps; [|discriminate]. destruct T3 as [T4 ->]. split; [|reflexivity]. destruct t; [discriminate|congruence].
    + destruct ls as [|l ls]; [exact I|]. destruct ps as [|p ps]; [discriminate|]. injection E1 as E1 _. destruct T3 as ((P1 & P2 & P3) & _ & T4). pose proof (u_hpar_more p) as M. split; [|rewrite E1; split].
      * inversion E3 as [|? ? [->|E4] _]; subst; [|exact E4]. exfalso. injection E2 as E2 _. apply P1. symmetry. exact E2.
      * apply (more_raw_at _ _ _ _ M). apply (first_nl coll); [exact P2|exact (proj1 T4)].
      * intros Hi. assert (NI : ~ like_icon p ps) by (apply (proj2 T4); destruct i; [discriminate|reflexivity]). destruct (icon_dec coll p ps P1 P2 NI) as [N|[N1 N2]]; [left; exact N|right].
        split; [|apply (more_absent _ _ _ _ M); exact N2]. intros Q. apply N1. injection Q as ->. destruct ps as [|q ps]; [reflexivity|discriminate E2].
  - unfold u_highlight. assert (F : forall o, tame_line_opt o -> fine (utitle (option_map u0 o)) /\ fine (uicon (option_map u0 o))).
    { intros [x|] H; [|split; apply fine_lit; reflexivity]. destruct H as (_ & H & _). cbn [option_map utitle uicon uoption]. change (raw c_space :: u0 x) with ([raw c_space] ++ u0 x). assert (F : fine (u0 x)) by (apply fine_u0; exact H). split; fineparts. }
    destruct (F t T1) as [F1 _], (F i T2) as [_ F2]. assert (F3 : fine (ujoin (map u_hpar ps))).
    { apply ujoin_fine. apply Forall_map. assert (T4 : Forall (fun q => q = [] \/ tame_hpar coll q) ps) by (destruct ps; constructor; [right|]; apply T3). eapply Forall_impl; [|exact T4].
      intros p [->|(_ & P & _)]; [apply fine_lit; reflexivity|]. exact (more_fine _ _ _ (u_hpar_more p) (u_pars_fine _ _ (proj1 P))). }
    fineparts.
Qed.
