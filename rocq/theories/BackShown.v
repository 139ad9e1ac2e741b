(** Documents that are read back from what [Display] writes for them are tame: what [Display] writes for the parts of a deserialized document. *)
From Coq Require Import String Bool.
From Verif Require Import Base Lexer LexSpec LexProofs LexFacts Ops Parser FParser Refine Refine2 Refine3 Wf TokFacts StreamSpec Lines ToYamd TreeAst Ast Api AstSpec AstProofs Tame Settled Mild Runs Units ULex Stops Inline LinkUnits AstUnits Calm Blocks Docs Highlight Lists UBlocks UList UDocs Unsettled UnsettledHl Span Written UnsettledDoc.
From Verif Require RawTree RawAst RawLinks.
Open Scope list_scope.

(** ** What is written *)

Definition shown (p : par_node) : Prop :=
  match p with PBold l => bold_has_content l = true | PCodeSpan x => x <> [] | _ => True end.
Lemma normal_shown : forall p, par_normal p -> shown p.
Proof.
  intros [t u|l|x|x|x|x|x] H; cbn in *; auto. destruct H as [NE [F _]]. destruct l as [|b l]; [congruence|]. inversion F as [|? ? [F1 F2] _]; subst.
  unfold bold_has_content. cbn [existsb]. destruct b as [x|x|x]; try reflexivity. destruct x as [|d x]; [congruence|reflexivity].
Qed.
Lemma shown_par : forall p, shown p -> display_par_node p = render (uflat (u_par p)).
Proof.
  intros [t u|l|x|x|x|x|x] T; cbn [display_par_node u_par uflat].
  - apply u_link_render.
  - apply u_bolds_render. exact T.
  - apply u_italic_render.
  - apply u_strike_render.
  - apply u_text_render.
  - apply u_codespan_render. exact T.
  - apply u_emph_render.
Qed.
Lemma shown_pars : forall l, Forall shown l -> display_paragraph l = render (u_pars l).
Proof.
  intros l T. unfold display_paragraph, u_pars, uflats. induction T as [|p l Tp T IH]; [reflexivity|]. cbn [map flat_map]. rewrite render_app, IH, (shown_par _ Tp). reflexivity.
Qed.
Lemma shown_hpar : forall p, Forall shown p -> escape_leading_block_marker (replace (s_ "!!") (c_bslash :: s_ "!!") (display_paragraph p)) = render (u_hpar p).
Proof.
  intros p T. rewrite (shown_pars _ T), bangs_render, u_lead_render; [reflexivity|]. intros H. apply u_pars_escd in H. cbn in H. repeat (destruct H as [H|H]; [discriminate H|]). exact H.
Qed.
Lemma shown_highlight : forall t i ps, Forall (Forall shown) ps -> display_highlight t i ps = render (u_highlight t i ps).
Proof.
  intros t i ps F. unfold display_highlight, u_highlight. rewrite !render_app, ujoin_render, map_map.
  assert (E : map (fun p => escape_leading_block_marker (replace (s_ "!!") (c_bslash :: s_ "!!") (display_paragraph p))) ps = map (fun x => render (u_hpar x)) ps).
  { apply map_ext_in. intros p Hp. rewrite Forall_forall in F. exact (shown_hpar _ (F p Hp)). }
  rewrite E. destruct t as [t|], i as [i|]; cbn [option_map utitle uicon uoption]; change (raw c_space :: u0 ?x) with ([raw c_space] ++ u0 x); rewrite ?render_app, <- ?esc_bslash_render, <- ?app_assoc; reflexivity.
Qed.

(** *** Lists *)

Lemma levels_inv : forall L ty lv items, levels_ok L (YList ty lv items) -> lv = L /\ forall t l', In (YItem t (Some l')) items -> levels_ok (S L) l'.
Proof.
  intros L ty lv items (-> & _ & F). split; [reflexivity|]. induction items as [|it items IH]; intros t l' H; [contradiction|]. destruct F as [F1 F2]. destruct H as [->|H]; [exact F1|exact (IH F2 t l' H)].
Qed.
Lemma level_space : forall L outer l c, levels_ok (S L) l -> c <> c_space -> raw_at c (u_list outer l) = false.
Proof. intros L outer [ty lv items] c T H. destruct (levels_inv _ _ _ _ T) as [-> _]. rewrite u_list_eq. apply u_items_space. exact H. Qed.
Lemma level_markers : forall c, is_mark c -> forall l L outer, levels_ok (S L) l -> markers c (u_list outer l) = u_list (outer ++ [c]) l.
Proof.
  intros c Hc. assert (Cs : c <> c_space) by (apply mark_ne; [exact Hc|discriminate|discriminate]). fix IH 1. intros [ty lv items] L outer T. destruct (levels_inv _ _ _ _ T) as [-> F]. rewrite !u_list_eq. clear T.
  assert (E : forall it, In it items -> markers c (u_item outer ty (S L) it) = u_item (outer ++ [c]) ty (S L) it).
  { revert F. induction items as [|it items IHi]; intros F it' Hit; [contradiction|]. destruct Hit as [<-|Hit]; [|refine (IHi _ it' Hit); intros t l' H; apply (F t l'); right; exact H]. clear IHi.
    destruct it as [t nested]. rewrite !u_item_eq. rewrite markers_indent by (apply mark_ne; [apply mchar_mark|discriminate|discriminate]). do 3 apply f_equal.
    change (mchar ty :: outer ++ [c]) with ((mchar ty :: outer) ++ [c]). rewrite marks_snoc. destruct nested as [l'|]; [|rewrite !app_nil_r; reflexivity].
    specialize (F t l' (or_introl eq_refl)). rewrite markers_break by exact Hc. rewrite markers_nl by (eapply level_space; [exact F|exact Cs]). rewrite (IH l' (S L) (mchar ty :: outer) F). reflexivity. }
  clear IH F. induction items as [|it items IHi]; [reflexivity|]. destruct items as [|it2 items].
  - cbn [map ujoin1]. rewrite !app_nil_r. apply E. left. reflexivity.
  - change (map (u_item outer ty (S L)) (it :: it2 :: items)) with (u_item outer ty (S L) it :: u_item outer ty (S L) it2 :: map (u_item outer ty (S L)) items). rewrite ujoin1_cons, markers_break by exact Hc.
    rewrite E by (left; reflexivity). rewrite markers_nl by exact (u_items_space outer ty L (it2 :: items) c Cs).
    change (u_item outer ty (S L) it2 :: map (u_item outer ty (S L)) items) with (map (u_item outer ty (S L)) (it2 :: items)). rewrite IHi by (intros; apply E; right; assumption). reflexivity.
Qed.
Lemma shown_list : forall l L, levels_ok L l -> (forall b, In b (item_bodies l) -> Forall shown b) -> display_list l = render (u_list [] l).
Proof.
  fix IH 1. intros [ty lv items] L T S0. destruct (levels_inv _ _ _ _ T) as [-> F]. rewrite u_list_eq. cbn [display_list]. clear T. cbn [item_bodies] in S0.
  assert (E : forall it, In it items -> (repeat_char c_space L ++ display_list_type ty ++ s_ " " ++ replace (nl ++ display_list_type ty ++ s_ " ") (nl ++ [c_bslash] ++ display_list_type ty ++ s_ " ") (display_item it))%list = render (u_item [] ty L it)).
  { revert F S0. induction items as [|it items IHi]; intros F S0 it' Hit; [contradiction|]. destruct Hit as [<-|Hit]; [|refine (IHi _ _ it' Hit); [intros t l' H; apply (F t l'); right; exact H|intros b Hb; apply S0; cbn [flat_map]; apply in_or_app; right; exact Hb]]. clear IHi.
    destruct it as [t nested]. rewrite u_item_eq, render_app. unfold indent. rewrite repeat_render. apply f_equal.
    change (raw (mchar ty) :: raw c_space :: ?x) with ([raw (mchar ty); raw c_space] ++ x). rewrite render_app. replace (display_list_type ty) with [mchar ty] by (destruct ty; reflexivity).
    change ([mchar ty] ++ s_ " " ++ ?x) with ((render [raw (mchar ty); raw c_space]) ++ x). apply f_equal. cbn [display_item].
    assert (Tt : Forall shown t) by (apply S0; left; reflexivity).
    assert (D : match nested with Some l => (flat_map display_par_node t ++ nl ++ display_list l)%list | None => flat_map display_par_node t end
                = render (u_pars t ++ match nested with Some l => raw c_nl :: u_list [] l | None => [] end)).
    { change (flat_map display_par_node t) with (display_paragraph t). rewrite (shown_pars _ Tt). destruct nested as [l'|]; [|rewrite app_nil_r; reflexivity].
      rewrite (IH l' (S L) (F t l' (or_introl eq_refl))), render_app; [reflexivity|]. intros b Hb. apply S0. right. apply in_or_app. left. exact Hb. }
    etransitivity; [apply f_equal; exact D|]. rewrite markers_render by (destruct ty; discriminate). apply f_equal. change (marks [mchar ty] (u_pars t)) with (markers (mchar ty) (u_pars t)).
    destruct nested as [l'|]; [|rewrite !app_nil_r; reflexivity]. rewrite markers_break by apply mchar_mark. specialize (F t l' (or_introl eq_refl)).
    rewrite markers_nl by (eapply level_space; [exact F|destruct ty; discriminate]). rewrite (level_markers _ (mchar_mark ty) l' L [] F). reflexivity. }
  clear IH F S0. induction items as [|it items IHi]; [reflexivity|]. destruct items as [|it2 items].
  - cbn [map join ujoin1]. rewrite app_nil_r. apply E. left. reflexivity.
  - set (f := fun it0 => _) in IHi |- *. change (join nl (map f (it :: it2 :: items))) with ((f it ++ nl ++ join nl (map f (it2 :: items)))%list). rewrite IHi by (intros; apply E; right; assumption).
    unfold f at 1. rewrite E by (left; reflexivity). change (map (u_item [] ty L) (it :: it2 :: items)) with (u_item [] ty L it :: u_item [] ty L it2 :: map (u_item [] ty L) items). rewrite ujoin1_cons, render_app. reflexivity.
Qed.

(** *** Blocks *)

Definition drawn (y : ynode) : Prop := forall n, In n (all_nodes y) -> (forall b, In b (inline_bodies n) -> Forall shown b) /\ (forall l, n = YListNode l -> levels_ok 0 l).
Lemma drawn_block : forall y, drawn y -> display_block y = render (u_block y).
Proof.
  fix IH 1. intros y T. destruct y as [l|k l|i|l|lang code|l|t i ps| |kind args|title b].
  - unfold display_block. destruct (T _ (or_introl eq_refl)) as [T1 _]. rewrite (shown_pars _ (T1 l (or_introl eq_refl))). apply u_lead_render.
  - cbn [display_block display_node u_block]. unfold display_heading. rewrite !render_app, repeat_render, u_heads_render. reflexivity.
  - cbn [display_block display_node u_block map uimages]. rewrite u_image_render, app_nil_r. reflexivity.
  - apply u_images_render.
  - apply u_codeblock_render.
  - destruct (T _ (or_introl eq_refl)) as [T1 T2]. exact (shown_list l 0 (T2 l eq_refl) T1).
  - destruct (T _ (or_introl eq_refl)) as [T1 _]. apply shown_highlight. apply Forall_forall. exact T1.
  - reflexivity.
  - apply u_embed_render.
  - cbn [display_block display_node u_block]. rewrite !render_app, u_ctitle_render, ujoin_render, map_map.
    assert (T2 : forall n, In n (flat_map all_nodes b) -> (forall b, In b (inline_bodies n) -> Forall shown b) /\ (forall l, n = YListNode l -> levels_ok 0 l)) by (intros n Hn; apply T; right; exact Hn). clear T.
    assert (E : map (fun m => match m with YParagraph p => escape_leading_block_marker (display_paragraph p) | _ => display_node m end) b = map (fun x => render (u_block x)) b).
    { induction b as [|y b IHb]; [reflexivity|]. cbn [map]. rewrite IHb by (intros n Hn; apply T2; cbn [flat_map]; apply in_or_app; right; exact Hn). apply (f_equal2 cons); [|reflexivity].
      refine (IH y _). intros n Hn. apply T2. cbn [flat_map]. apply in_or_app. left. exact Hn. }
    rewrite E. reflexivity.
Qed.
Lemma document_drawn : forall s, Forall drawn (body (document_of s)).
Proof.
  intros s. apply Forall_forall. intros y Hy n Hn. assert (I : In n (doc_nodes (document_of s))) by (apply in_flat_map; exists y; split; assumption). split.
  - intros b Hb. eapply Forall_impl; [apply normal_shown|]. apply (doc_body_normal s b). apply in_flat_map. exists n. split; assumption.
  - intros l ->. exact (doc_list s l I).
Qed.
Lemma drawn_body : forall b, Forall drawn b -> display_body b = render (u_body b).
Proof.
  intros b D. unfold display_body, u_body. rewrite ujoin_render, map_map. apply f_equal. apply map_ext_in. intros y Hy. rewrite Forall_forall in D. exact (drawn_block y (D y Hy)).
Qed.

(** ** Units of blocks *)

Lemma valid_lit : forall us, forallb plainc us = true -> valid us.
Proof. intros us H. exact (proj1 (fine_lit us H)). Qed.
Lemma raw_valid : forall c us, c <> c_bslash -> valid us -> valid (raw c :: us).
Proof. intros c us H V. constructor; [intros _; exact H|exact V]. Qed.
Ltac valids := unfold nn, nn2, pp, stars, bangs, fences; repeat first [apply u0_valid | apply valid_umark | apply valid_esc].
Ltac validparts := repeat first [assumption | apply valid_app; split | apply valid_lit; reflexivity | apply raw_valid; [discriminate|]].
Lemma vflat_valid : forall v, Forall valid (vparts v) -> valid (vflat v).
Proof. intros [us|us|us] H; inversion H; subst; cbn [vflat]; unfold wrap; validparts. Qed.
Lemma uflat_valid : forall x, Forall valid (uparts x) -> valid (uflat x).
Proof.
  intros [us|us|us|us|us|t u|l] H; cbn [uflat uparts] in *.
  1-5: inversion H; subst; unfold wrap; validparts.
  - inversion H as [|? ? ? Hu]; subst. inversion Hu; subst. unfold ulink. validparts.
  - unfold wrap. apply valid_app. split; [apply valid_lit; reflexivity|]. apply valid_app. split; [|apply valid_lit; reflexivity].
    induction l as [|v l IH]; [apply valid_lit; reflexivity|]. cbn [flat_map] in *. apply Forall_app in H. destruct H as [H1 H2]. apply valid_app. split; [exact (vflat_valid _ H1)|exact (IH H2)].
Qed.
Lemma u_par_valid : forall p, valid (uflat (u_par p)).
Proof.
  intros p. apply uflat_valid. destruct p as [t u|l|x|x|x|x|x]; cbn.
  - constructor; [unfold u_title; valids|]. constructor; [unfold u_dest; valids|constructor].
  - induction l as [|b l IH]; [constructor|]. cbn. apply Forall_app. split; [|exact IH].
    destruct b as [x|x|x]; cbn; (constructor; [|constructor]); unfold u_delim, u_btext; valids.
  - constructor; [unfold u_delim; valids|constructor].
  - constructor; [unfold u_delim; valids|constructor].
  - constructor; [unfold u_text; valids|constructor].
  - constructor; [unfold u_delim; valids|constructor].
  - constructor; [unfold u_delim; valids|constructor].
Qed.
Lemma u_pars_valid : forall l, valid (u_pars l).
Proof. induction l as [|p l IH]; [constructor|]. rewrite u_pars_cons. apply valid_app. split; [apply u_par_valid|exact IH]. Qed.
Lemma ujoin_valid : forall l, Forall valid l -> valid (ujoin l).
Proof.
  intros l F. induction F as [|a l Fa F IH]; [constructor|]. cbn [ujoin]. apply valid_app. split; [exact Fa|]. destruct l as [|b l]; [constructor|].
  change (valid ([raw c_nl; raw c_nl] ++ ujoin (b :: l))). apply valid_app. split; [apply valid_lit; reflexivity|exact IH].
Qed.
Lemma ujoin1_valid : forall l, Forall valid l -> valid (ujoin1 l).
Proof.
  intros l F. induction F as [|a l Fa F IH]; [constructor|]. destruct l as [|b l]; [cbn [ujoin1]; rewrite app_nil_r; exact Fa|]. rewrite ujoin1_cons. apply valid_app. split; [exact Fa|]. apply raw_valid; [discriminate|exact IH].
Qed.
Lemma u_list_valid : forall l outer, Forall is_mark outer -> valid (u_list outer l).
Proof.
  fix IH 1. intros [ty L items] outer Ho. rewrite u_list_eq. apply ujoin1_valid. assert (F : Forall is_mark (mchar ty :: outer)) by (constructor; [apply mchar_mark|exact Ho]).
  induction items as [|it items IHi]; [constructor|]. cbn [map]. constructor; [|exact IHi]. destruct it as [t nested]. rewrite u_item_eq. apply valid_app. split; [apply (fine_repeat c_space L eq_refl)|].
  apply raw_valid; [destruct ty; discriminate|]. apply raw_valid; [discriminate|]. apply valid_app. split; [exact (more_valid _ _ _ (marks_more _ _ F) (u_pars_valid t))|].
  destruct nested as [l'|]; [|constructor]. apply raw_valid; [discriminate|]. exact (IH l' _ F).
Qed.
Lemma u_block_valid : forall y, valid (u_block y).
Proof.
  fix IH 1. intros y. destruct y as [l|k l|i|l|lang code|l|t i ps| |kind args|title b]; cbn [u_block].
  - exact (more_valid _ _ _ (u_lead_more _) (u_pars_valid l)).
  - apply valid_app. split; [apply (fine_repeat c_hash k eq_refl)|]. apply raw_valid; [discriminate|]. unfold u_heads, uflats. induction l as [|h l IHl]; [constructor|]. cbn [map flat_map]. apply valid_app. split; [|exact IHl].
    apply uflat_valid. destruct h as [x|t u]; cbn; [constructor; [unfold u_htext; valids|constructor]|]. constructor; [unfold u_title; valids|]. constructor; [unfold u_dest; valids|constructor].
  - unfold u_image, uimages. cbn [map fst snd]. assert (V1 : valid (u_alt (alt i))) by (unfold u_alt; valids). assert (V2 : valid (u_dest (src i))) by (unfold u_dest; valids). unfold uimage, ulink. cbn [fst snd]. validparts.
  - induction l as [|i l IHl]; [constructor|]. assert (V : valid (uimage (u_image i))).
    { unfold u_image. assert (V1 : valid (u_alt (alt i))) by (unfold u_alt; valids). assert (V2 : valid (u_dest (src i))) by (unfold u_dest; valids). unfold uimage, ulink. cbn [fst snd]. validparts. }
    destruct l as [|j l]; [cbn [map uimages]; rewrite app_nil_r; exact V|]. change (uimages (map u_image (i :: j :: l))) with (uimage (u_image i) ++ [raw c_nl] ++ uimages (map u_image (j :: l))). validparts.
  - unfold u_codeblock. assert (V1 : valid (u_lang lang)) by (unfold u_lang; valids). assert (V2 : valid (u_code code)) by (unfold u_code; valids). validparts.
  - apply u_list_valid. constructor.
  - unfold u_highlight. assert (V : forall o, valid (utitle (option_map u0 o)) /\ valid (uicon (option_map u0 o))).
    { intros [x|]; [|split; apply valid_lit; reflexivity]. cbn [option_map utitle uicon uoption]. change (raw c_space :: u0 x) with ([raw c_space] ++ u0 x). assert (V : valid (u0 x)) by apply u0_valid. split; validparts. }
    destruct (V t) as [V1 _], (V i) as [_ V2]. assert (V3 : valid (ujoin (map u_hpar ps))).
    { apply ujoin_valid, Forall_map, Forall_forall. intros p _. exact (more_valid _ _ _ (u_hpar_more p) (u_pars_valid p)). }
    validparts.
  - apply valid_lit; reflexivity.
  - unfold u_embed. assert (V1 : valid (u_kind kind)) by (unfold u_kind; valids). assert (V2 : valid (u_args args)) by (unfold u_args; valids). validparts.
  - assert (V1 : valid (u_ctitle title)) by (unfold u_ctitle; valids). assert (V2 : valid (ujoin (map u_block b))).
    { apply ujoin_valid. induction b as [|y b IHb]; [constructor|]. cbn [map]. constructor; [exact (IH y)|exact IHb]. }
    validparts.
Qed.
Lemma u_body_valid : forall b, valid (u_body b).
Proof. intros b. apply ujoin_valid, Forall_map, Forall_forall. intros y _. apply u_block_valid. Qed.
Lemma chars_render : forall c us, In c (chars us) -> In c (render us).
Proof.
  intros c us. induction us as [|[e d] us IH]; [auto|]. intros [H|H]; destruct e; cbn in *; auto.
Qed.
Lemma absent_chars : forall c us, ~ In c (chars us) -> absent c us.
Proof. intros c us H X. apply H. unfold chars. apply in_map_iff. exists (raw c). auto. Qed.
