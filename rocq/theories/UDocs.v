(** Documents as units: every tame document is read back from its own text. *)
From Coq Require Import String.
From Verif Require Import Base Lexer LexSpec LexProofs LexFacts Ops Parser FParser TokFacts ToYamd TreeAst Ast Api StreamSpec AstSpec Tame Mild Units ULex Stops Inline AstUnits Calm Blocks Docs Highlight Lists UBlocks UList.

Fixpoint u_block (y : ynode) : list uchar :=
  match y with
  | YParagraph l => u_lead (u_pars l)
  | YHeading k l => repeat (raw c_hash) k ++ [raw c_space] ++ u_heads l
  | YImage i => uimages (map u_image [i])
  | YImages l => uimages (map u_image l)
  | YCode lang code => u_codeblock lang code
  | YListNode l => u_list [] l
  | YHighlight t i ps => u_highlight t i ps
  | YThematicBreak => repeat (raw c_minus) 5
  | YEmbed kind args => u_embed kind args
  | YCollapsible title b =>
      cstart ++ [raw c_space] ++ u_ctitle title ++ [raw c_nl] ++ ujoin (map u_block b) ++ [raw c_nl] ++ cend
  end.
Definition u_body (b : list ynode) : list uchar := ujoin (map u_block b).

Lemma tame_blocks : forall coll b, fold_right and True (map (tame_block coll) b) -> Forall (tame_block coll) b.
Proof. intros coll b. induction b as [|y b IH]; intros H; [constructor|]. destruct H as [H1 H2]. constructor; [exact H1|exact (IH H2)]. Qed.

Lemma highlight_inlines : forall coll t i ps, mild_highlight coll t i ps -> Forall (Forall (tame_inline coll)) ps.
Proof. intros coll t i ps (_ & _ & T). eapply Forall_impl; [|exact T]. intros q [->|(_ & (X & _) & _)]; [constructor|exact X]. Qed.
Lemma mild_blocks : forall coll b, fold_right and True (map (mild_block coll) b) -> Forall (mild_block coll) b.
Proof. intros coll b. induction b as [|y b IH]; intros H; [constructor|]. destruct H as [H1 H2]. constructor; [exact H1|exact (IH H2)]. Qed.

(** ** What [Display] writes *)

Lemma u_ctitle_render : forall t, replace (s_ "%}") (c_bslash :: s_ "%}") (esc_char c_bslash t) = render (u_ctitle t).
Proof. intros t. unfold u_ctitle. rewrite <- pp_render by noesc. unfold u0. disp. reflexivity. Qed.
Lemma u_block_render : forall y coll, mild_block coll y -> display_block y = render (u_block y).
Proof.
  fix IH 1. intros y coll T. destruct y as [l|k l|i|l|lang code|l|t i ps| |kind args|title b]; cbn [mild_block tame_block] in T.
  - unfold display_block. destruct T as (_ & (T & _)). rewrite (u_pars_render _ _ T). apply u_lead_render.
  - cbn [display_block display_node u_block]. unfold display_heading. rewrite !render_app, repeat_render, u_heads_render. reflexivity.
  - cbn [display_block display_node u_block map uimages]. rewrite u_image_render, app_nil_r. reflexivity.
  - apply u_images_render.
  - apply u_codeblock_render.
  - exact (u_list_render coll l 0 [] T).
  - apply (u_highlight_render coll). exact (highlight_inlines coll t i ps T).
  - reflexivity.
  - apply u_embed_render.
  - destruct T as (_ & T & _). cbn [display_block display_node u_block]. rewrite !render_app, u_ctitle_render, ujoin_render, map_map.
    assert (E : map (fun m => match m with YParagraph p => escape_leading_block_marker (display_paragraph p) | _ => display_node m end) b = map (fun x => render (u_block x)) b).
    { induction b as [|y b IHb]; [reflexivity|]. destruct T as [T1 T2]. cbn [map]. rewrite (IHb T2). apply (f_equal2 cons); [|reflexivity]. exact (IH y true T1). }
    rewrite E. reflexivity.
Qed.

(** ** Blocks that end or start with a line feed *)

Lemma not_ends : forall A c d, c <> d -> ~ ends c (A ++ [raw d]).
Proof. intros A c d H (r & E). apply app_inj_tail in E. destruct E as [_ E]. injection E as E. congruence. Qed.
Lemma u_item_ends : forall coll outer ty L it, tame_item coll L outer ty it -> Forall is_mark outer ->
  (forall l, match it with YItem _ nested => nested = Some l end -> ~ ends c_nl (u_list (mchar ty :: outer) l) /\ u_list (mchar ty :: outer) l <> []) -> ~ ends c_nl (u_item outer ty L it).
Proof.
  intros coll outer ty L [t nested] T Ho IH E. inversion T as [? ? ? ? ? (Tt & _ & He & _) _]; subst. rewrite u_item_eq in E. destruct nested as [l|].
  - destruct (IH l eq_refl) as [N1 N2]. apply N1. change (raw (mchar ty) :: raw c_space :: ?x ++ raw c_nl :: ?y) with ((raw (mchar ty) :: raw c_space :: x) ++ raw c_nl :: y) in E.
    change (raw c_nl :: u_list (mchar ty :: outer) l) with ([raw c_nl] ++ u_list (mchar ty :: outer) l) in E. rewrite !app_assoc in E. exact (ends_app _ _ _ N2 E).
  - rewrite app_nil_r in E. destruct (marks (mchar ty :: outer) (u_pars t)) as [|u r] eqn:M.
    + change (raw (mchar ty) :: [raw c_space]) with ([raw (mchar ty)] ++ [raw c_space]) in E. rewrite app_assoc in E. revert E. apply not_ends. discriminate.
    + change (raw (mchar ty) :: raw c_space :: u :: r) with ([raw (mchar ty); raw c_space] ++ u :: r) in E. rewrite app_assoc in E. apply ends_app in E; [|discriminate]. rewrite <- M in E.
      apply He. apply (u_pars_ends coll); [exact (proj1 Tt)|]. eapply more_ends; [|exact E]. apply marks_more. constructor; [apply mchar_mark|exact Ho].
Qed.
Lemma u_item_ne : forall outer ty L it, u_item outer ty L it <> [].
Proof. intros outer ty L [t nested] E. rewrite u_item_eq in E. apply app_eq_nil in E. destruct E as [_ E]. discriminate. Qed.
Lemma ujoin1_ends : forall l, (forall A, In A l -> ~ ends c_nl A /\ A <> []) -> l <> [] -> ~ ends c_nl (ujoin1 l) /\ ujoin1 l <> [].
Proof.
  induction l as [|a l IH]; intros H NE; [congruence|]. destruct l as [|b l].
  - cbn [ujoin1]. rewrite app_nil_r. apply H. left. reflexivity.
  - rewrite ujoin1_cons. destruct (IH ltac:(intros; apply H; right; assumption) ltac:(discriminate)) as [N1 N2]. split; [|destruct a; discriminate].
    intros E. apply N1. change (raw c_nl :: ujoin1 (b :: l)) with ([raw c_nl] ++ ujoin1 (b :: l)) in E. rewrite app_assoc in E. exact (ends_app _ _ _ N2 E).
Qed.
Lemma u_list_ends : forall coll l L outer, tame_list coll L outer l -> Forall is_mark outer -> ~ ends c_nl (u_list outer l) /\ u_list outer l <> [].
Proof.
  intros coll. fix IH 1. intros [ty lv items] L outer T Ho. inversion T as [? ? ? ? NE F]; subst; rename lv into L. rewrite u_list_eq.
  assert (E : forall it, In it items -> ~ ends c_nl (u_item outer ty L it)).
  { clear T NE. revert F. induction items as [|it items IHi]; intros F it' Hit; [contradiction|]. inversion F as [|? ? Fi Fl]; subst. destruct Hit as [<-|Hit]; [|exact (IHi Fl it' Hit)]. clear IHi Fl F.
    apply (u_item_ends coll outer ty L it Fi Ho). destruct it as [t nested]. inversion Fi as [? ? ? ? ? _ Fn]; subst. destruct nested as [l'|]; [|discriminate]. intros l X. injection X as <-.
    apply (IH l' (S L)); [exact (Fn l' eq_refl)|]. constructor; [apply mchar_mark|exact Ho]. }
  apply ujoin1_ends; [|destruct items; [congruence|discriminate]]. intros A HA. apply in_map_iff in HA. destruct HA as (it & <- & Hit). split; [exact (E it Hit)|apply u_item_ne].
Qed.
Lemma u_images_ends : forall l, ~ ends c_nl (uimages (map u_image l)) .
Proof.
  assert (N : forall i, exists A, uimage (u_image i) = A ++ [raw c_rparen]) by (intros i; unfold uimage, ulink; eexists; change (raw c_bang :: ?x) with ([raw c_bang] ++ x); rewrite !app_assoc; reflexivity).
  induction l as [|i l IH]; [intros (r & E); destruct r; discriminate|]. destruct l as [|j l].
  - destruct (N i) as (A & E). cbn [map uimages]. rewrite app_nil_r, E. apply not_ends. discriminate.
  - change (uimages (map u_image (i :: j :: l))) with (uimage (u_image i) ++ [raw c_nl] ++ uimages (map u_image (j :: l))). intros E. apply IH. rewrite app_assoc in E. eapply ends_app; [|exact E].
    cbn [map]. unfold uimages. discriminate.
Qed.
Lemma u_block_ends : forall y coll, mild_block coll y -> ends c_nl (u_block y) -> block_ends_nl y.
Proof.
  intros y coll T E. destruct y as [l|k l|i|l|lang code|l|t i ps| |kind args|title b]; cbn [mild_block tame_block u_block block_ends_nl] in *.
  - destruct T as (_ & (T & _)). apply (u_pars_odd coll); [exact T|]. exact (more_ends _ _ _ _ (u_lead_more _) E).
  - destruct T as (_ & T & _). apply (u_heads_ends coll); [exact T|]. destruct (u_heads l) as [|u r] eqn:H; [rewrite app_nil_r in E; exfalso; revert E; apply not_ends; discriminate|].
    rewrite app_assoc in E. eapply ends_app; [|exact E]. discriminate.
  - exact (u_images_ends [i] E).
  - exact (u_images_ends l E).
  - unfold u_codeblock in E. rewrite !app_assoc in E. apply ends_app in E; [|discriminate]. revert E. apply (not_ends [raw c_backtick; raw c_backtick]). discriminate.
  - exact (proj1 (u_list_ends coll l 0 [] T (Forall_nil _)) E).
  - unfold u_highlight in E. rewrite !app_assoc in E. apply ends_app in E; [|discriminate]. revert E. apply (not_ends [raw c_bang]). discriminate.
  - revert E. apply (not_ends (repeat (raw c_minus) 4)). discriminate.
  - unfold u_embed in E. rewrite !app_assoc in E. apply ends_app in E; [|discriminate]. revert E. apply (not_ends [raw c_rcurly]). discriminate.
  - rewrite !app_assoc in E. apply ends_app in E; [|discriminate]. revert E. apply (not_ends [raw c_percent]). discriminate.
Qed.
Lemma starts_nl_raw : forall coll y, mild_block coll y -> raw_at c_nl (u_block y) = true -> block_starts_nl y.
Proof.
  intros coll y T E. destruct y as [l|k l|i|l|lang code|l|t i ps| |kind args|title b]; cbn [mild_block tame_block u_block block_starts_nl] in *; try discriminate.
  - destruct T as (NE & T). assert (X : raw_at c_nl (u_pars l) = true) by (destruct (raw_at c_nl (u_pars l)) eqn:X; [reflexivity|]; rewrite (more_raw_at _ _ _ _ (u_lead_more _) X) in E; discriminate).
    destruct (Nat.eq_dec (leading c_nl (first_text l)) 1) as [Y|Y]; [exact Y|]. rewrite (first_nl coll l T Y) in X. discriminate X.
  - destruct T as ([K _] & _). destruct k as [|k]; [lia|]. discriminate.
  - destruct T as (K & _). destruct l as [|i l]; [cbn in K; lia|]. destruct l; discriminate.
  - inversion T as [? ? ty items NE F]; subst. rewrite u_list_eq in E. destruct items as [|[t nested] items]; [congruence|]. cbn [map ujoin1] in E. rewrite u_item_eq in E. destruct ty; discriminate.
Qed.

(** ** Blocks are read back *)

Lemma block_good : forall y coll n, tame_block coll y -> (n <> 0 -> coll = true) -> good_block n (u_block y) y.
Proof.
  fix IH 1. intros y coll n T Hn. destruct y as [l|k l|i|l|lang code|l|t i ps| |kind args|title b]; cbn [u_block].
  - exact (paragraph_block coll n l T Hn).
  - exact (heading_block coll n k l T Hn).
  - exact (images_block coll n [i] ltac:(discriminate) (Forall_cons i (T : tame_image coll i) (Forall_nil _)) Hn).
  - destruct T as [K T]. destruct l as [|i [|j l]]; try (cbn in K; lia). exact (images_block coll n (i :: j :: l) ltac:(discriminate) T Hn).
  - exact (code_block n lang code T).
  - exact (list_block coll n l T Hn).
  - exact (highlight_block coll n t i ps T Hn).
  - exact (break_block n).
  - exact (embed_block coll n kind args T Hn).
  - destruct T as ((L1 & L2 & L3) & Tb & Te & Ts). change (fold_right and True (map (tame_block true) b)) in Tb.
    assert (G : Forall (fun m => good_block (S n) (u_block m) m) b).
    { clear Te Ts. induction b as [|m b IHb]; [constructor|]. destruct Tb as [T1 T2]. constructor; [exact (IH m true (S n) T1 (fun _ => eq_refl))|exact (IHb T2)]. }
    clear IH. apply tame_blocks in Tb. set (l := map (fun m => (u_block m, [m])) b).
    assert (E1 : map fst l = map u_block b) by (unfold l; rewrite map_map; reflexivity).
    assert (E2 : flat_map snd l = b) by (unfold l; clear; induction b as [|m b IH]; [reflexivity|cbn; rewrite IH; reflexivity]).
    split; [apply starts_raw; discriminate|]. split.
    + rewrite <- E1. replace (YCollapsible title b) with (YCollapsible (chars (u_ctitle title)) (flat_map snd l)) by (rewrite u_ctitle_chars, E2; reflexivity). apply collapsible_parses.
      * unfold u_ctitle, pp. apply keep_umark, absent_u0. exact L1.
      * exact (begins_raw _ _ title (u_ctitle_chars title) L3).
      * unfold l. apply Forall_map. eapply Forall_impl; [|exact G]. intros m (G1 & G2 & _). split; assumption.
      * unfold l. apply Forall_map. rewrite Forall_forall in *. intros m Hm X. exact (Te m Hm (u_block_ends m true (tame_mild _ _ (Tb m Hm)) X)).
      * rewrite E1. destruct b as [|m b]; [reflexivity|]. cbn [map ujoin]. inversion G as [|? ? [(NE & _) _] _]; subst. rewrite raw_app by exact NE. destruct (raw_at c_nl (u_block m)) eqn:X; [|reflexivity].
        exfalso. inversion Tb as [|? ? Tm _]; subst. exact (Ts (starts_nl_raw true m (tame_mild _ _ Tm) X)).
    + apply fine_app. split; [apply fine_lit; reflexivity|]. apply fine_app. split; [apply fine_lit; reflexivity|]. apply fine_app. split.
      * unfold u_ctitle. fines.
      * apply fine_app. split; [apply fine_lit; reflexivity|]. apply fine_app. split; [|apply fine_lit; reflexivity]. apply ujoin_fine. apply Forall_map. eapply Forall_impl; [|exact G]. intros m (_ & _ & G3). exact G3.
Qed.

(** ** Documents *)

Lemma lead3_block : forall y coll, mild_block coll y -> (lead c_minus (u_block y) =? 3) = false.
Proof.
  intros y coll T. destruct y as [l|k l|i|l|lang code|l|t i ps| |kind args|title b]; cbn [mild_block tame_block u_block] in *; try reflexivity.
  - apply Nat.eqb_neq. intros E. unfold u_lead in E. destruct (existsb (fun p => follows p (u_pars l)) lead_pats) eqn:X.
    + destruct (u_pars l) as [|u r]; discriminate.
    + destruct (lead_ge1 c_minus (u_pars l) ltac:(lia)) as (r1 & E1 & F1). destruct (lead_ge1 c_minus r1 ltac:(lia)) as (r2 & E2 & F2). destruct (lead_ge1 c_minus r2 ltac:(lia)) as (r3 & E3 & _).
      rewrite E1, E2, E3 in X. cbn in X. discriminate.
  - destruct k; [destruct T as ([K _] & _); lia|reflexivity].
  - destruct l; [destruct T as [K _]; cbn in K; lia|]. destruct l; reflexivity.
  - inversion T as [? ? ty items NE F]; subst. rewrite u_list_eq. destruct items as [|[t nested] items]; [congruence|]. cbn [map ujoin1]. rewrite u_item_eq. destruct ty; reflexivity.
Qed.
Lemma u_body_ok : forall b, Forall (tame_block false) b -> closed_body b ->
  let l := map (fun m => (u_block m, [m])) b in
  ujoin (map fst l) = u_body b /\ flat_map snd l = b /\ Forall (is_block 0) l /\ closed (map fst l) /\ fine (u_body b) /\ (lead c_minus (u_body b) =? 3) = false.
Proof.
  intros b T C l. assert (E1 : map fst l = map u_block b) by (unfold l; rewrite map_map; reflexivity).
  assert (G : Forall (fun m => good_block 0 (u_block m) m) b) by (eapply Forall_impl; [|exact T]; intros m Tm; apply (block_good m false 0 Tm); congruence).
  split; [rewrite E1; reflexivity|]. split; [unfold l; clear; induction b as [|m b IH]; [reflexivity|cbn; rewrite IH; reflexivity]|].
  split; [unfold l; apply Forall_map; eapply Forall_impl; [|exact G]; intros m (G1 & G2 & _); split; assumption|]. split.
  { rewrite E1. clear G E1 l. induction b as [|m b IH]; [exact Logic.I|]. inversion T as [|? ? Tm Tb]; subst. destruct b as [|m2 b]; [exact Logic.I|]. destruct C as [C1 C2].
    split; [|exact (IH Tb C2)]. intros X. exact (C1 (u_block_ends m false (tame_mild _ _ Tm) X)). }
  split; [apply ujoin_fine; apply Forall_map; eapply Forall_impl; [|exact G]; intros m (_ & _ & G3); exact G3|].
  destruct b as [|m b]; [reflexivity|]. inversion T as [|? ? Tm _]; subst. unfold u_body. cbn [map ujoin]. rewrite lead_off by (destruct (map u_block b); reflexivity). exact (lead3_block m false (tame_mild _ _ Tm)).
Qed.

Lemma display_body_units : forall b, Forall (mild_block false) b -> display_body b = render (u_body b).
Proof.
  intros b T. unfold display_body, u_body. rewrite ujoin_render, map_map. apply f_equal. apply map_ext_in. intros m Hm. rewrite Forall_forall in T. exact (u_block_render m false (T m Hm)).
Qed.

(** Metadata is written as it is. *)
Lemma trim_start_keep : forall x, ~ starts_with_nl x -> trim_start c_nl x = x.
Proof.
  intros [|c x] H; [reflexivity|]. cbn [trim_start]. destruct (char_eqb c_nl c) eqn:E; [|reflexivity]. apply N.eqb_eq in E. subst c. exfalso. apply H. exists x. reflexivity.
Qed.
Lemma trim_both_meta : forall m, ~ starts_with_nl m -> ~ ends_with_nl m -> trim_both c_nl (c_nl :: m ++ [c_nl]) = m.
Proof.
  intros m H1 H2. unfold trim_both. change (trim_start c_nl (c_nl :: m ++ [c_nl])) with (trim_start c_nl (m ++ [c_nl])). destruct m as [|c m]; [reflexivity|].
  rewrite trim_start_keep; [rewrite trim_end_nl; apply trim_end_keep; exact H2|]. intros (y & E). injection E as -> _. apply H1. exists m. reflexivity.
Qed.
Lemma lead_bare : forall c x R, raw_at c R = false -> lead c (bare x ++ R) = leading c x.
Proof.
  intros c x R H. rewrite lead_off by exact H. induction x as [|d x IH]; [reflexivity|]. cbn. destruct (char_eqb d c) eqn:E.
  - rewrite IH. reflexivity.
  - reflexivity.
Qed.
Lemma bare_app : forall a b, bare (a ++ b) = bare a ++ bare b.
Proof. induction a as [|c a IH]; intros b; [reflexivity|]. cbn. rewrite IH. reflexivity. Qed.
Lemma bare_eq : forall us, (forall u, In u us -> fst u = false) -> us = bare (chars us).
Proof.
  induction us as [|[e c] us IH]; intros H; [reflexivity|]. cbn. rewrite <- IH by (intros; apply H; right; assumption). pose proof (H (e, c) (or_introl eq_refl)) as X. cbn in X. subst e. reflexivity.
Qed.
Lemma ends_char_false : forall m, ~ ends_with_nl m -> ends_with_char c_nl m = false.
Proof.
  intros m H. destruct (ends_with_char c_nl m) eqn:E; [|reflexivity]. exfalso. apply H. unfold ends_with_char in E. destruct (rev m) as [|d r] eqn:R; [discriminate|]. apply N.eqb_eq in E. subst d.
  exists (rev r). rewrite <- (rev_involutive m), R. reflexivity.
Qed.
Lemma meta_lines : forall m, (forall a b, c_nl :: m = a ++ c_nl :: b -> leading c_minus b <> 3) ->
  forall A1 A2, raw c_nl :: bare m ++ [raw c_nl] = A1 ++ A2 -> A2 <> [] -> aft false A1 = true -> (lead c_minus A2 =? 3) = false.
Proof.
  intros m H A1 A2 E NE Ha. apply aft_true in Ha. destruct Ha as [[_ Ha]|(r & ->)]; [discriminate|].
  destruct (exists_last NE) as (B & u & ->). change (raw c_nl :: bare m ++ [raw c_nl]) with ((raw c_nl :: bare m) ++ [raw c_nl]) in E. rewrite (app_assoc (r ++ [raw c_nl])) in E. apply app_inj_tail in E. destruct E as [E <-].
  change (raw c_nl :: bare m) with (bare (c_nl :: m)) in E. assert (F : forall v, In v ((r ++ [raw c_nl]) ++ B) -> fst v = false) by (intros v Hv; rewrite <- E in Hv; exact (bare_raw _ _ Hv)).
  rewrite (bare_eq B) by (intros; apply F; apply in_app_iff; right; assumption). rewrite lead_bare by reflexivity. apply Nat.eqb_neq. apply (H (chars r)).
  rewrite <- (chars_bare (c_nl :: m)), E, <- app_assoc, chars_app. reflexivity.
Qed.

Lemma tame_round_trip : forall y, tame_doc y -> document_of (display_yamd y) = y.
Proof.
  intros [m b] (Tm & Tb & Cb). cbn [metadata body] in *. destruct (u_body_ok b Tb Cb) as (E1 & E2 & F & Cl & Hf & H3). set (l := map (fun m => (u_block m, [m])) b) in *.
  unfold display_yamd. cbn [metadata body]. rewrite (display_body_units b (Forall_impl _ (fun m => tame_mild m false) Tb)). destruct m as [m|].
  - destruct Tm as (M1 & M2 & M3 & M4 & M5).
    rewrite (ends_char_false m M4). set (W := raw c_nl :: bare m ++ [raw c_nl]).
    assert (R : (s_ "---" ++ nl ++ m ++ nl ++ s_ "---" ++ nlnl ++ render (u_body b))%list = render (dash3 ++ W ++ dash3 ++ raw c_nl :: raw c_nl :: ujoin (map fst l))).
    { rewrite E1. unfold W. change (raw c_nl :: bare m ++ [raw c_nl]) with ([raw c_nl] ++ bare m ++ [raw c_nl]). change (raw c_nl :: raw c_nl :: u_body b) with ([raw c_nl; raw c_nl] ++ u_body b).
      rewrite !render_app, render_bare. rewrite <- !app_assoc. reflexivity. }
    etransitivity; [apply f_equal; exact R|]. rewrite document_meta; [| |exact F|exact Cl|reflexivity|exists (raw c_nl :: bare m); reflexivity|exact (meta_lines m M5)].
    + rewrite E2. unfold W. change (chars (raw c_nl :: bare m ++ [raw c_nl])) with (c_nl :: chars (bare m ++ [raw c_nl])). rewrite chars_app, chars_bare. rewrite trim_both_meta by assumption. reflexivity.
    + apply fine_app. split; [apply fine_lit; reflexivity|]. apply fine_app. split.
      * unfold W. change (raw c_nl :: bare m ++ [raw c_nl]) with ([raw c_nl] ++ bare m ++ [raw c_nl]). apply fine_app. split; [apply fine_lit; reflexivity|]. apply fine_app. split; [|apply fine_lit; reflexivity].
        split; [apply valid_bare; exact M1|]. intros X. apply M2. rewrite <- (chars_bare m). apply in_map_iff. exists (raw c_cr). split; [reflexivity|exact X].
      * rewrite E1. change (raw c_nl :: raw c_nl :: u_body b) with ([raw c_nl; raw c_nl] ++ u_body b). apply fine_app. split; [apply fine_lit; reflexivity|]. apply fine_app. split; [apply fine_lit; reflexivity|exact Hf].
  - rewrite <- E1. rewrite document_plain; [rewrite E2; reflexivity|rewrite E1; exact Hf|exact F|exact Cl|rewrite E1; exact H3].
Qed.
