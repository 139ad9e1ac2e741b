(** The tokens of inline nodes have the characters that [Display] writes, and the units of these
    characters say which texts are tame. *)
From Coq Require Import String Bool.
From Verif Require Import Base Lexer LexSpec LexProofs LexFacts Ops Parser FParser Refine Refine2 Refine3 Wf TokFacts StreamSpec ToYamd TreeAst Ast AstSpec AstProofs Tame Runs Units ULex Stops Inline LinkUnits AstUnits Calm Blocks UBlocks Span.
From Verif Require RawTree RawAst.
Open Scope list_scope.

(** ** Tokens *)

Definition gtok (s : str) (t : token) : Prop :=
  exists g, group_ok (kind t) g /\ ttext s t = chars g /\ tlen t = byte_len (chars g) /\ (kind t = RightParenthesis -> g = [raw c_rparen]).
Lemma cov_gtok : forall s d b r us, cov s b (d ++ r) us -> Forall (gtok s) d.
Proof.
  intros s. induction d as [|t d IH]; intros b r us H; [constructor|].
  assert (NE : us <> []) by (intros ->; inversion H; subst; discriminate).
  destruct (cov_inv _ _ _ _ H NE) as (t' & ts' & g & r' & Et & U & Eg & Ng & G & C0 & T1 & T2 & Cr). injection Et as <- <-. constructor; [|exact (IH _ _ _ Cr)].
  exists g. split; [exact G|]. split; [exact T1|]. split; [exact T2|]. intros K. destruct (kind_first _ _ _ _ _ c_rparen H) as (q & Eq); [rewrite K; reflexivity|].
  rewrite Eq, (utok_single c_rparen RightParenthesis q eq_refl) in U. injection U as _ <- _. reflexivity.
Qed.
Lemma gtok_run : forall s t k c n, gtok s t -> kind_eqb (kind t) k && (tlen t =? S n) = true -> kind_char k = Some c -> utf8_len c = 1 -> ttext s t = repeat c (S n).
Proof.
  intros s t k c n (g & G & T & L & _) H K Hc. apply andb_true_iff in H. destruct H as [H1 H2]. apply kind_eqb_eq in H1. apply Nat.eqb_eq in H2. rewrite H1 in G.
  assert (X : exists m, g = repeat (raw c) (S m)) by (destruct k; cbn in K, G; try discriminate; destruct G as (c' & m & G1 & ->); injection G1 as <-; injection K as <-; exists m; reflexivity).
  destruct X as (m & ->). rewrite T. rewrite L, byte_len_repeat in H2 by exact Hc. rewrite H2. clear. generalize (S n). intros j. induction j as [|j IH]; [reflexivity|]. cbn. f_equal. exact IH.
Qed.
Lemma gtok_eol : forall s t, gtok s t -> kind t = Eol -> ttext s t = [c_nl].
Proof. intros s t (g & G & T & _) K. rewrite K in G. cbn in G. rewrite T, G. reflexivity. Qed.
Lemma gtok_paren : forall s t, gtok s t -> is_right_paren t = true -> ttext s t = [c_rparen].
Proof. intros s t (g & _ & T & _ & P) K. apply kind_eqb_eq in K. rewrite T, (P K). reflexivity. Qed.

Lemma ttexts_one : forall s t, ttexts s [t] = ttext s t.
Proof. intros s t. cbn. apply app_nil_r. Qed.

(** ** Inline nodes *)

Lemma delim_text : forall s f o n k c, one f o -> Forall (gtok s) o -> (forall t, f t = true -> kind_eqb (kind t) k && (tlen t =? S n) = true) -> kind_char k = Some c -> utf8_len c = 1 ->
  ttexts s o = repeat c (S n).
Proof. intros s f o n k c (t & -> & F) G H K L. inversion G; subst. rewrite ttexts_one. eapply gtok_run; eauto. Qed.

Ltac dl := eapply delim_text; [eassumption|eassumption|intros ? X; exact X|reflexivity|reflexivity].
Lemma node_split : forall s n o k c, ttexts s (yield (Node n o k c)) = ttexts s o ++ ttexts s (yields k) ++ ttexts s c.
Proof. intros. cbn [yield]. rewrite !ttexts_app. reflexivity. Qed.
Lemma forall_node : forall (P : token -> Prop) n o k c, Forall P (yield (Node n o k c)) -> Forall P o /\ Forall P (yields k) /\ Forall P c.
Proof. intros P n o k c H. cbn [yield] in H. apply Forall_app in H. destruct H as [H1 H]. apply Forall_app in H. destruct H as [H2 H3]. auto. Qed.

Lemma bold_text : forall s t, wf t -> match t with Skip _ => False | Node n _ _ _ => in_bold n = true | _ => True end -> Forall (gtok s) (yield t) ->
  exists b, bold_of s t = [b] /\ ttexts s (yield t) = chars (vflat (u_bold b)).
Proof.
  intros s t W P G. destruct t as [ts|ts|n o k c]; [|contradiction|].
  - exists (BText (ttexts s ts)). split; [reflexivity|]. cbn [u_bold vflat]. rewrite u_btext_chars. reflexivity.
  - inversion W as [| |? ? ? ? _ Sh]; subst. rewrite node_split. apply forall_node in G. destruct G as (G1 & G2 & G3). destruct n; try discriminate P; destruct Sh as (O & L & C); cbn [bold_of]; eexists; (split; [reflexivity|]); rewrite (AstProofs.inner_text s k L); cbn [u_bold vflat]; unfold wrap; rewrite !chars_app; unfold stars; rewrite umark_chars, u_delim_chars.
    + replace (ttexts s o) with (repeat c_underscore 1) by (symmetry; dl). replace (ttexts s c) with (repeat c_underscore 1) by (symmetry; dl). reflexivity.
    + replace (ttexts s o) with (repeat c_tilde 2) by (symmetry; dl). replace (ttexts s c) with (repeat c_tilde 2) by (symmetry; dl). reflexivity.
Qed.
Lemma bolds_text : forall s k, Forall wf k -> items in_bold k -> Forall (gtok s) (yields k) -> ttexts s (yields k) = chars (flat_map vflat (map u_bold (flat_map (bold_of s) k))).
Proof.
  intros s k W. induction W as [|t k Wt W IH]; intros It G; [reflexivity|]. apply items_cons_inv in It. destruct It as [It1 It2]. cbn [yields flat_map] in G. apply Forall_app in G. destruct G as [G1 G2].
  destruct (bold_text s t Wt) as (b & E1 & E2); [destruct t; [exact I|exact It1|exact It1]|exact G1|]. cbn [yields flat_map]. rewrite ttexts_app, E1, E2. cbn [app map flat_map]. rewrite chars_app. f_equal. exact (IH It2 G2).
Qed.
Lemma link_split : forall s n o k c, wf (Node n o k c) -> n = NAnchor \/ n = NImage -> Forall (gtok s) (yields k) ->
  ttexts s (yields k) = c_lsquare :: link_text s k ++ c_rsquare :: c_lparen :: link_dest s k ++ [c_rparen].
Proof.
  intros s n o k c W N G. inversion W as [| |? ? ? ? Wk Sh]; subst.
  assert (H : exists t d, k = [t; d] /\ root NTitle t /\ root NDestination d) by (destruct N as [->| ->]; apply Sh).
  destruct H as (t & d & -> & (o1 & k1 & c1 & ->) & (o2 & k2 & c2 & ->)).
  inversion Wk as [|? ? W1 Wk']; subst. inversion Wk' as [|? ? W2 _]; subst.
  inversion W1 as [| |? ? ? ? _ S1]; subst. inversion W2 as [| |? ? ? ? _ S2]; subst.
  destruct S1 as (O1 & (b1 & ->) & C1). destruct S2 as (O2 & (b2 & ->) & C2).
  cbn [yields flat_map] in G |- *. rewrite app_nil_r in *. apply Forall_app in G. destruct G as [G1 G2]. apply forall_node in G1, G2. destruct G1 as (A1 & A2 & A3), G2 as (B1 & B2 & B3).
  unfold link_text, link_dest. rewrite child_text_hd, child_text_tl, child_text_hd by discriminate. cbn [text_or_empty]. rewrite !RawAst.inner_leaf, ttexts_app, !node_split.
  replace (ttexts s o1) with (repeat c_lsquare 1) by (symmetry; dl). replace (ttexts s c1) with (repeat c_rsquare 1) by (symmetry; dl). replace (ttexts s o2) with (repeat c_lparen 1) by (symmetry; dl).
  replace (ttexts s c2) with [c_rparen] by (destruct C2 as (x & -> & X); inversion B3; subst; rewrite ttexts_one; symmetry; apply gtok_paren; assumption).
  cbn [yields flat_map yield repeat]. rewrite !app_nil_r. cbn [app]. rewrite <- !app_assoc. reflexivity.
Qed.
Lemma par_text : forall s t, wf t -> match t with Skip _ => False | Node n _ _ _ => inline n = true | _ => True end -> Forall (gtok s) (yield t) ->
  exists p, par_of s t = [p] /\ ttexts s (yield t) = chars (uflat (u_par p)).
Proof.
  intros s t W P G. destruct t as [ts|ts|n o k c]; [|contradiction|].
  - exists (PText (ttexts s ts)). split; [reflexivity|]. cbn [u_par uflat]. rewrite u_text_chars. reflexivity.
  - pose proof W as W'. inversion W as [| |? ? ? ? Wk Sh]; subst. rewrite node_split. pose proof G as G'. apply forall_node in G. destruct G as (G1 & G2 & G3).
    destruct n; try discriminate P; cbn [par_of]; eexists; (split; [reflexivity|]).
    + destruct Sh as (-> & -> & _). rewrite (link_split s _ _ _ _ W' (or_introl eq_refl) G2). cbn [u_par uflat]. unfold ulink. rewrite !chars_app, u_title_chars, u_dest_chars. cbn. rewrite !app_nil_r. rewrite <- ?app_assoc. reflexivity.
    + destruct Sh as (O & It & C). cbn [u_par uflat]. unfold wrap. rewrite !chars_app, (bolds_text s k Wk It G2). replace (ttexts s o) with (repeat c_star 2) by (symmetry; dl). replace (ttexts s c) with (repeat c_star 2) by (symmetry; dl). reflexivity.
    + destruct Sh as (O & L & C). rewrite (AstProofs.inner_text s k L). cbn [u_par uflat]. unfold wrap. rewrite !chars_app, u_delim_chars. replace (ttexts s o) with (repeat c_backtick 1) by (symmetry; dl). replace (ttexts s c) with (repeat c_backtick 1) by (symmetry; dl). reflexivity.
    + destruct Sh as (O & L & C). rewrite (AstProofs.inner_text s k L). cbn [u_par uflat]. unfold wrap. rewrite !chars_app, u_delim_chars. replace (ttexts s o) with (repeat c_star 1) by (symmetry; dl). replace (ttexts s c) with (repeat c_star 1) by (symmetry; dl). reflexivity.
    + destruct Sh as (O & L & C). rewrite (AstProofs.inner_text s k L). cbn [u_par uflat]. unfold wrap. rewrite !chars_app, u_delim_chars. replace (ttexts s o) with (repeat c_underscore 1) by (symmetry; dl). replace (ttexts s c) with (repeat c_underscore 1) by (symmetry; dl). reflexivity.
    + destruct Sh as (O & L & C). rewrite (AstProofs.inner_text s k L). cbn [u_par uflat]. unfold wrap. rewrite !chars_app, u_delim_chars. replace (ttexts s o) with (repeat c_tilde 2) by (symmetry; dl). replace (ttexts s c) with (repeat c_tilde 2) by (symmetry; dl). reflexivity.
Qed.
Lemma pars_text : forall s k, Forall wf k -> items inline k -> Forall (gtok s) (yields k) -> ttexts s (yields k) = chars (u_pars (pars_of s k)).
Proof.
  intros s k W. induction W as [|t k Wt W IH]; intros It G; [reflexivity|]. apply items_cons_inv in It. destruct It as [It1 It2]. cbn [yields flat_map] in G. apply Forall_app in G. destruct G as [G1 G2].
  destruct (par_text s t Wt) as (b & E1 & E2); [destruct t; [exact I|exact It1|exact It1]|exact G1|]. unfold pars_of. cbn [yields flat_map]. rewrite ttexts_app, E1, E2. cbn [app]. rewrite u_pars_cons, chars_app. f_equal. exact (IH It2 G2).
Qed.
Lemma heads_text : forall s k, Forall wf k -> items in_heading k -> Forall (gtok s) (yields k) -> ttexts s (yields k) = chars (u_heads (flat_map (head_of s) k)).
Proof.
  intros s k W. induction W as [|t k Wt W IH]; intros It G; [reflexivity|]. apply items_cons_inv in It. destruct It as [It1 It2]. cbn [yields flat_map] in G. apply Forall_app in G. destruct G as [G1 G2].
  cbn [yields flat_map]. rewrite ttexts_app. unfold u_heads, uflats. destruct t as [ts|ts|n o kk c]; [|contradiction|].
  - cbn [head_of app map flat_map u_head uflat]. rewrite chars_app, u_htext_chars. f_equal. exact (IH It2 G2).
  - destruct n; try discriminate It1. cbn [head_of app map flat_map]. rewrite chars_app. f_equal; [|exact (IH It2 G2)]. rewrite node_split. inversion Wt as [| |? ? ? ? _ Sh]; subst. destruct Sh as (-> & -> & _).
    apply forall_node in G1. destruct G1 as (_ & G1 & _). rewrite (link_split s _ _ _ _ Wt (or_introl eq_refl) G1). cbn [u_head uflat]. unfold ulink. rewrite !chars_app, u_title_chars, u_dest_chars. cbn. rewrite !app_nil_r, <- ?app_assoc. reflexivity.
Qed.

(** ** What the units say about the texts *)

Lemma shows_delim : forall c x, ~ In c [c_nl; c_percent; c_rcurly] -> shows (u_delim c x).
Proof. intros c x Hc. unfold u_delim. apply (nn_shows (fun _ => False) (esc c (u0 x))); [apply plain3_esc; [exact Hc|apply plain3_u0]|intros d _ X; exact X|apply more_refl]. Qed.
Ltac p3 := repeat first [apply plain3_u0 | apply plain3_esc; [cbn; intros X; repeat (destruct X as [X|X]; [discriminate X|]); exact X|]].
Lemma shows_title : forall x, shows (u_title x).
Proof. intros x. unfold u_title. apply (nn_shows (fun _ => False) (esc c_rsquare (esc c_lsquare (u0 x)))); [p3|intros d _ X; exact X|apply more_refl]. Qed.
Lemma shows_dest : forall x, shows (u_dest x).
Proof. intros x. unfold u_dest. apply (nn_shows (fun _ => False) (esc c_rparen (esc c_lparen (u0 x)))); [p3|intros d _ X; exact X|apply more_refl]. Qed.
Lemma shows_alt : forall x, shows (u_alt x).
Proof. intros x. unfold u_alt. apply (nn_shows (fun _ => False) (esc c_rsquare (u0 x))); [p3|intros d _ X; exact X|apply more_refl]. Qed.
Lemma shows_btext : forall x, shows (u_btext x).
Proof. intros x. unfold u_btext. apply (nn_shows (fun _ => False) (esc c_tilde (esc c_underscore (esc c_star (u0 x))))); [p3|intros d _ X; exact X|apply more_refl]. Qed.
Lemma shows_htext : forall x, shows (u_htext x).
Proof. intros x. unfold u_htext. apply (nn_shows (eq c_hash) (u0 x)); [p3| |apply esc_more]. intros d Hd X. subst d. cbn in Hd. destruct Hd as [X|[X|[X|[]]]]; discriminate X. Qed.
Lemma shows_stars : forall c x, ~ In c [c_nl; c_percent; c_rcurly] -> shows (stars (u_delim c x)).
Proof.
  intros c x Hc. unfold stars, u_delim. apply (nn_shows (fun d => In (true, d) [escd c_star; raw c_star]) (esc c (u0 x))); [apply plain3_esc; [exact Hc|apply plain3_u0]| |apply umark0_more].
  intros d Hd [X|[X|[]]]; [|discriminate X]. injection X as <-. cbn in Hd. destruct Hd as [X|[X|[X|[]]]]; discriminate X.
Qed.

Definition infix (b us : list uchar) : Prop := exists a c, us = a ++ b ++ c.
Lemma infix_nosub : forall p a b, infix a b -> nosub p b -> nosub p a.
Proof. intros p a b (x & y & ->) N. eapply nosub_mid. exact N. Qed.
Lemma infix_in : forall (u : uchar) a b, infix a b -> In u a -> In u b.
Proof. intros u a b (x & y & ->) H. apply in_or_app. right. apply in_or_app. left. exact H. Qed.
Lemma infix_trans : forall a b c, infix a b -> infix b c -> infix a c.
Proof. intros a b c (x & y & ->) (z & w & ->). exists (z ++ x), (y ++ w). rewrite <- !app_assoc. reflexivity. Qed.
Lemma infix_flat : forall A (f : A -> list uchar) l x, In x l -> infix (f x) (flat_map f l).
Proof. intros A f l x H. apply in_split in H. destruct H as (a & b & ->). exists (flat_map f a), (flat_map f b). rewrite flat_map_app. reflexivity. Qed.
Lemma parts_infix : forall x us, In us (uparts x) -> infix us (uflat x).
Proof.
  intros [u|u|u|u|u|t u|l] us H; cbn [uparts uflat] in *.
  1-5: destruct H as [<-|[]].
  - exists [], []. rewrite app_nil_r. reflexivity.
  - exists d_italic, d_italic. reflexivity.
  - exists d_strike, d_strike. reflexivity.
  - exists d_emph, d_emph. reflexivity.
  - exists d_code, d_code. reflexivity.
  - destruct H as [<-|[<-|[]]]; unfold ulink.
    + eexists [raw c_lsquare], _. reflexivity.
    + exists ([raw c_lsquare] ++ t ++ [raw c_rsquare] ++ [raw c_lparen]), [raw c_rparen]. rewrite <- !app_assoc. reflexivity.
  - apply in_flat_map in H. destruct H as (v & Hv & H). eapply infix_trans; [|exists d_bold, d_bold; reflexivity]. eapply infix_trans; [|apply infix_flat; exact Hv].
    destruct v as [w|w|w]; destruct H as [<-|[]]; [exists [], []; rewrite app_nil_r; reflexivity|exists d_italic, d_italic; reflexivity|exists d_strike, d_strike; reflexivity].
Qed.
Lemma par_parts_infix : forall l p us, In p l -> In us (uparts (u_par p)) -> infix us (u_pars l).
Proof. intros l p us Hp Hu. eapply infix_trans; [apply parts_infix; exact Hu|]. unfold u_pars, uflats. apply infix_flat. apply in_map. exact Hp. Qed.

(** The conditions on units under which texts are tame. *)
Definition tidy (coll : bool) (us : list uchar) : Prop := no2 c_nl c_nl us /\ (coll = true -> nosub cpat us) /\ ~ In c_cr (chars us).
Lemma tidy_infix : forall coll a b, infix a b -> tidy coll b -> tidy coll a.
Proof.
  intros coll a b I (N1 & N2 & N3). split; [apply no2_nosub; eapply infix_nosub; [exact I|apply no2_nosub; exact N1]|]. split; [intros C; eapply infix_nosub; [exact I|exact (N2 C)]|].
  destruct I as (x & y & ->). intros H. apply N3. rewrite !chars_app. apply in_or_app. right. apply in_or_app. left. exact H.
Qed.
Lemma tidy_less : forall C coll a A, more C a A -> keep3 C -> tidy coll A -> tidy coll a.
Proof.
  intros C coll a A M K (N1 & N2 & N3). split; [apply no2_nosub; eapply more_raws; [exact M| |apply no2_nosub; exact N1]; repeat constructor; apply K; cbn; auto|].
  split; [intros Hc; eapply more_raws; [exact M| |exact (N2 Hc)]; repeat constructor; apply K; cbn; auto|]. rewrite <- (more_chars _ _ _ M). exact N3.
Qed.
Lemma tidy_inner : forall coll us x, tidy coll us -> shows us -> chars us = x -> Tame.inner_text coll x.
Proof. intros coll us x (N1 & N2 & N3) (S1 & S2) <-. split; [exact N3|]. split; [exact (S1 N1)|]. intros C. exact (S2 (N2 C)). Qed.

Lemma not3 : forall c, negb (char_eqb c c_nl) && negb (char_eqb c c_percent) && negb (char_eqb c c_rcurly) = true -> ~ In c [c_nl; c_percent; c_rcurly].
Proof. intros c H X. cbn in X. destruct X as [X|[X|[X|[]]]]; subst c; discriminate H. Qed.
Lemma tidy_bold : forall coll b, b <> BText [] /\ b <> BStrike [] -> (forall us, In us (vparts (u_bold b)) -> tidy coll us) -> tame_bold coll b.
Proof.
  intros coll [x|x|x] [N1 N2] H; cbn in *.
  - eapply tidy_inner; [apply H; left; reflexivity|apply shows_stars, not3; reflexivity|]. unfold stars. rewrite umark_chars. apply u_delim_chars.
  - split; [intros ->; congruence|]. eapply tidy_inner; [apply H; left; reflexivity|apply shows_stars, not3; reflexivity|]. unfold stars. rewrite umark_chars. apply u_delim_chars.
  - split; [intros ->; congruence|]. eapply tidy_inner; [apply H; left; reflexivity|apply shows_btext|]. apply u_btext_chars.
Qed.
Lemma tidy_par : forall coll p, par_normal p -> (forall us, In us (uparts (u_par p)) -> tidy coll us) -> tame_inline coll p.
Proof.
  intros coll p N H. destruct p as [t u|l|x|x|x|x|x]; cbn [par_normal u_par uparts tame_inline] in *.
  - split; [apply (tidy_inner coll (u_title t)); [apply H; cbn; auto|apply shows_title|apply u_title_chars]|apply (tidy_inner coll (u_dest u)); [apply H; cbn; auto|apply shows_dest|apply u_dest_chars]].
  - destruct N as (NE & F & N1 & N2). split; [exact NE|]. split; [|split; assumption]. rewrite Forall_forall in *. intros b Hb. apply tidy_bold; [apply F; exact Hb|]. intros us Hu. apply H. apply in_flat_map. exists (u_bold b). split; [apply in_map; exact Hb|exact Hu].
  - eapply tidy_inner; [apply H; left; reflexivity|apply shows_delim, not3; reflexivity|apply u_delim_chars].
  - split; [exact N|]. eapply tidy_inner; [apply H; left; reflexivity|apply shows_delim, not3; reflexivity|apply u_delim_chars].
  - split; [exact N|]. destruct (H _ (or_introl eq_refl)) as (_ & _ & X). rewrite u_text_chars in X. exact X.
  - split; [exact N|]. eapply tidy_inner; [apply H; left; reflexivity|apply shows_delim, not3; reflexivity|apply u_delim_chars].
  - split; [exact N|]. eapply tidy_inner; [apply H; left; reflexivity|apply shows_delim, not3; reflexivity|apply u_delim_chars].
Qed.
Definition normal_inlines (l : list par_node) : Prop := Forall par_normal l /\ no_neighbours (both is_ptext) l /\ no_neighbours fuse l.
Lemma tidy_pars : forall coll l, normal_inlines l -> tidy coll (u_pars l) -> tame_inlines coll l.
Proof.
  intros coll l (N & N1 & N2) T. split; [|split; assumption]. rewrite Forall_forall in *. intros p Hp. apply tidy_par; [apply N; exact Hp|]. intros us Hu. eapply tidy_infix; [|exact T]. eapply par_parts_infix; eauto.
Qed.
Lemma keep3_blockmark : keep3 blockmark.
Proof. intros c Hc X. cbn in Hc, X. destruct Hc as [<-|[<-|[<-|[]]]]; repeat (destruct X as [X|X]; [discriminate X|]); exact X. Qed.

(** Tokens without stops cover tidy units. *)
Lemma span_tidy : forall s coll d b r U R, cov s b (d ++ r) (U ++ R) -> ttexts s d = chars U -> RawTree.quiet (StopTerminator :: RawTree.stops coll) d -> ~ In c_cr (chars U) -> tidy coll U.
Proof.
  intros s coll d b r U R H E Q C. split; [eapply span_no2; [exact H|exact E| |exact Q]; left; reflexivity|]. split; [|exact C]. intros ->. eapply span_cpat; [exact H|exact E| |exact Q]. right. left. reflexivity.
Qed.
