(** Tame documents are written without carriage returns; the documents that are read back as they are. *)
From Coq Require Import String Bool.
From Verif Require Import Base Lexer LexSpec LexProofs LexFacts Ops Parser FParser Refine Refine2 Refine3 Wf TokFacts StreamSpec Lines ToYamd TreeAst Ast Api AstSpec AstProofs Tame TameDec Settled Mild Runs Units ULex Stops Inline LinkUnits AstUnits Calm Blocks Docs Highlight Lists UBlocks UList UDocs Unsettled UnsettledHl Span Written UnsettledDoc BackShown BackDoc.
From Verif Require TextDisplay.
Open Scope list_scope.

Definition clean (us : list uchar) : Prop := ~ In c_cr (chars us).
Lemma clean_app : forall a b, clean (a ++ b) <-> clean a /\ clean b.
Proof. intros a b. unfold clean. rewrite chars_app, in_app_iff. tauto. Qed.
Lemma clean_lit : forall us, forallb plainc us = true -> clean us.
Proof.
  intros us H. unfold clean. induction us as [|u us IH]; [intros []|]. cbn [forallb] in H. apply andb_true_iff in H. destruct H as [H1 H2]. intros [X|X]; [|exact (IH H2 X)]. unfold plainc in H1. rewrite X in H1. discriminate H1.
Qed.
Lemma clean_cons : forall c us, c <> c_cr -> clean us -> clean (raw c :: us).
Proof. intros c us H V [X|X]; [exact (H X)|exact (V X)]. Qed.
Lemma clean_more : forall C a b, more C a b -> clean a -> clean b.
Proof. intros C a b M H. unfold clean. rewrite (more_chars _ _ _ M). exact H. Qed.
Lemma clean_repeat : forall c n, c <> c_cr -> clean (repeat (raw c) n).
Proof. intros c n H. induction n as [|n IH]; [intros []|]. cbn [repeat]. apply clean_cons; assumption. Qed.
Ltac cleanparts := repeat first [assumption | apply clean_app; split | apply clean_lit; reflexivity | apply clean_cons; [discriminate|]].
Ltac cleans := unfold clean; rewrite ?u_title_chars, ?u_dest_chars, ?u_delim_chars, ?u_text_chars, ?u_alt_chars, ?u_btext_chars, ?u_htext_chars, ?u_lang_chars, ?u_code_chars, ?u_kind_chars, ?u_args_chars, ?u_ctitle_chars, ?u0_chars; assumption.

Lemma vflat_clean : forall v, Forall clean (vparts v) -> clean (vflat v).
Proof. intros [us|us|us] H; inversion H; subst; cbn [vflat]; unfold wrap; cleanparts. Qed.
Lemma uflat_clean : forall x, Forall clean (uparts x) -> clean (uflat x).
Proof.
  intros [us|us|us|us|us|t u|l] H; cbn [uflat uparts] in *.
  1-5: inversion H; subst; unfold wrap; cleanparts.
  - inversion H as [|? ? ? Hu]; subst. inversion Hu; subst. unfold ulink. cleanparts.
  - unfold wrap. apply clean_app. split; [apply clean_lit; reflexivity|]. apply clean_app. split; [|apply clean_lit; reflexivity].
    induction l as [|v l IH]; [apply clean_lit; reflexivity|]. cbn [flat_map] in *. apply Forall_app in H. destruct H as [H1 H2]. apply clean_app. split; [exact (vflat_clean _ H1)|exact (IH H2)].
Qed.
Lemma u_par_clean : forall coll p, tame_inline coll p -> clean (uflat (u_par p)).
Proof.
  intros coll p T. apply uflat_clean. destruct p as [t u|l|x|x|x|x|x]; cbn in *.
  - destruct T as [[T1 _] [T2 _]]. constructor; [cleans|]. constructor; [cleans|constructor].
  - destruct T as (_ & T & _). induction T as [|b l Tb T IH]; [constructor|]. cbn. apply Forall_app. split; [|exact IH].
    destruct b as [x|x|x]; cbn in *; (constructor; [|constructor]); [destruct Tb as [Tb _]|destruct Tb as [_ [Tb _]]|destruct Tb as [_ [Tb _]]]; unfold stars; unfold clean; rewrite ?umark_chars; cleans.
  - destruct T as [T _]. constructor; [cleans|constructor].
  - destruct T as [_ [T _]]. constructor; [cleans|constructor].
  - destruct T as [_ T]. constructor; [cleans|constructor].
  - destruct T as [_ [T _]]. constructor; [cleans|constructor].
  - destruct T as [_ [T _]]. constructor; [cleans|constructor].
Qed.
Lemma u_pars_clean : forall coll l, Forall (tame_inline coll) l -> clean (u_pars l).
Proof. intros coll l T. induction T as [|p l Tp T IH]; [intros []|]. rewrite u_pars_cons. apply clean_app. split; [exact (u_par_clean _ _ Tp)|exact IH]. Qed.
Lemma ujoin_clean : forall l, Forall clean l -> clean (ujoin l).
Proof.
  intros l F. induction F as [|a l Fa F IH]; [intros []|]. cbn [ujoin]. apply clean_app. split; [exact Fa|]. destruct l as [|b l]; [intros []|].
  change (clean ([raw c_nl; raw c_nl] ++ ujoin (b :: l))). cleanparts.
Qed.
Lemma ujoin1_clean : forall l, Forall clean l -> clean (ujoin1 l).
Proof.
  intros l F. induction F as [|a l Fa F IH]; [intros []|]. destruct l as [|b l]; [cbn [ujoin1]; rewrite app_nil_r; exact Fa|]. rewrite ujoin1_cons. apply clean_app. split; [exact Fa|]. apply clean_cons; [discriminate|exact IH].
Qed.
Lemma u_list_clean : forall coll l L outer, Forall is_mark outer -> tame_list coll L outer l -> clean (u_list outer l).
Proof.
  intros coll. fix IH 1. intros [ty lv items] L outer Ho T. inversion T as [? ? ? ? NE F0]; subst. rewrite u_list_eq. apply ujoin1_clean. assert (F : Forall is_mark (mchar ty :: outer)) by (constructor; [apply mchar_mark|exact Ho]). clear T NE.
  induction items as [|it items IHi]; [constructor|]. inversion F0 as [|? ? Fi Fl]; subst. cbn [map]. constructor; [|exact (IHi Fl)]. clear IHi Fl F0. destruct it as [t nested]. rewrite u_item_eq. inversion Fi as [? ? ? ? ? [(Tt & _) _] Fn]; subst. apply clean_app. split; [apply clean_repeat; discriminate|].
  apply clean_cons; [destruct ty; discriminate|]. apply clean_cons; [discriminate|]. apply clean_app. split; [exact (clean_more _ _ _ (marks_more _ _ F) (u_pars_clean _ _ Tt))|].
  destruct nested as [l'|]; [|intros []]. apply clean_cons; [discriminate|]. exact (IH l' _ _ F (Fn l' eq_refl)).
Qed.
Lemma u_image_clean : forall coll i, tame_image coll i -> clean (uimage (u_image i)).
Proof.
  intros coll i ((T1 & _) & (T2 & _)). unfold u_image. assert (V1 : clean (u_alt (alt i))) by cleans. assert (V2 : clean (u_dest (src i))) by cleans. unfold uimage, ulink. cbn [fst snd]. cleanparts.
Qed.
Lemma u_block_clean : forall y coll, tame_block coll y -> clean (u_block y).
Proof.
  fix IH 1. intros y coll T. destruct y as [l|k l|i|l|lang code|l|t i ps| |kind args|title b]; cbn [u_block tame_block] in *.
  - destruct T as (_ & (T & _) & _). exact (clean_more _ _ _ (u_lead_more _) (u_pars_clean _ l T)).
  - destruct T as (_ & T & _). apply clean_app. split; [apply clean_repeat; discriminate|]. apply clean_cons; [discriminate|]. unfold u_heads, uflats. induction T as [|h l Th T IHl]; [intros []|]. cbn [map flat_map]. apply clean_app. split; [|exact IHl].
    apply uflat_clean. destruct h as [x|t u]; cbn in *; [destruct Th as [_ [Th _]]; constructor; [cleans|constructor]|]. destruct Th as [[T1 _] [T2 _]]. constructor; [cleans|]. constructor; [cleans|constructor].
  - cbn [map uimages]. rewrite app_nil_r. exact (u_image_clean _ _ T).
  - destruct T as [_ T]. induction T as [|i l Ti T IHl]; [intros []|]. pose proof (u_image_clean _ _ Ti) as V.
    destruct l as [|j l]; [cbn [map uimages]; rewrite app_nil_r; exact V|]. change (uimages (map u_image (i :: j :: l))) with (uimage (u_image i) ++ [raw c_nl] ++ uimages (map u_image (j :: l))). cleanparts.
  - destruct T as (T1 & T2 & _). unfold u_codeblock. assert (V1 : clean (u_lang lang)) by cleans. assert (V2 : clean (u_code code)) by cleans. cleanparts.
  - apply (u_list_clean coll l 0 []); [constructor|exact T].
  - destruct T as (T1 & T2 & T3). unfold u_highlight. assert (V : forall o, tame_line_opt o -> clean (utitle (option_map u0 o)) /\ clean (uicon (option_map u0 o))).
    { intros [x|] H; [|split; apply clean_lit; reflexivity]. destruct H as (_ & H & _). cbn [option_map utitle uicon uoption]. change (raw c_space :: u0 x) with ([raw c_space] ++ u0 x). assert (V : clean (u0 x)) by cleans. split; cleanparts. }
    destruct (V t T1) as [V1 _], (V i T2) as [_ V2]. assert (V3 : clean (ujoin (map u_hpar ps))).
    { apply ujoin_clean, Forall_map. assert (F : Forall (fun q => q = [] \/ tame_hpar coll q) ps) by (destruct ps as [|p ps]; [constructor|]; destruct T3 as (T3 & T4 & _); constructor; [right; exact T3|exact T4]).
      eapply Forall_impl; [|exact F]. intros p [->|(_ & (P & _) & _)]; [intros []|]. exact (clean_more _ _ _ (u_hpar_more p) (u_pars_clean _ _ P)). }
    cleanparts.
  - apply clean_lit. reflexivity.
  - destruct T as (T1 & T2 & _). unfold u_embed. assert (V1 : clean (u_kind kind)) by cleans. assert (V2 : clean (u_args args)) by cleans. cleanparts.
  - destruct T as ((_ & T0 & _) & T & _). assert (V1 : clean (u_ctitle title)) by cleans. assert (V2 : clean (ujoin (map u_block b))).
    { apply ujoin_clean. induction b as [|y b IHb]; [constructor|]. destruct T as [Ta Tb]. cbn [map]. constructor; [exact (IH y true Ta)|exact (IHb Tb)]. }
    cleanparts.
Qed.
Lemma render_cr : forall us, clean us -> ~ In c_cr (render us).
Proof.
  induction us as [|[e d] us IH]; intros C H; [exact H|]. assert (C1 : d <> c_cr) by (intros ->; apply C; left; reflexivity). assert (C2 : clean us) by (intros X; apply C; right; exact X).
  destruct e; cbn in H; [destruct H as [H|H]; [discriminate H|]|]; (destruct H as [H|H]; [exact (C1 H)|exact (IH C2 H)]).
Qed.
Lemma tame_no_cr : forall y, tame_doc y -> ~ In c_cr (display_yamd y).
Proof.
  intros [m b] (Tm & Tb & Cb). cbn [metadata body] in *. assert (B : ~ In c_cr (display_body b)).
  { rewrite (display_body_units b (Forall_impl _ (fun m => tame_mild m false) Tb)). apply render_cr. apply ujoin_clean, Forall_map. eapply Forall_impl; [|exact Tb]. intros y. apply u_block_clean. }
  unfold display_yamd. cbn [metadata body]. destruct m as [m|]; [|exact B]. destruct Tm as (_ & M2 & _). cbv zeta. rewrite !in_app_iff. intros X.
  destruct X as [X|[X|[X|[X|[X|[X|X]]]]]]; try contradiction; try (destruct (ends_with_char c_nl m)); cbn in X; repeat (destruct X as [X|X]; [discriminate X|]); exact X.
Qed.

Theorem tame_iff : forall y, tame_doc y <-> ~ In c_cr (display_yamd y) /\ deserialize (display_yamd y) = Ok y.
Proof.
  intros y. rewrite deserialize_eq. split.
  - intros T. split; [exact (tame_no_cr y T)|]. rewrite (tame_round_trip y T). reflexivity.
  - intros [NC E]. apply tame_back; [exact NC|]. congruence.
Qed.
Theorem tame_block_iff : forall y, tame_block false y <-> ~ In c_cr (display_yamd (mk_yamd None [y])) /\ deserialize (display_yamd (mk_yamd None [y])) = Ok (mk_yamd None [y]).
Proof.
  intros y. rewrite <- tame_iff. split; [intros T; split; [exact I|split; [constructor; [exact T|constructor]|exact I]]|]. intros (_ & T & _). inversion T; assumption.
Qed.
Theorem tame_test : forall y, ~ In c_cr (display_yamd y) -> (deserialize (display_yamd y) = Ok y <-> tame_docb y = true).
Proof. intros y NC. rewrite tame_docb_iff, tame_iff. tauto. Qed.
Theorem tame_reformat : forall s y, ~ In c_cr s -> deserialize s = Ok y -> (deserialize (display_yamd y) = Ok y <-> tame_doc y).
Proof. intros s y N E. rewrite tame_iff. split; [intros D; split; [|exact D]; intros X; exact (N (TextDisplay.source_cr s y E X))|intros [_ D]; exact D]. Qed.
Lemma tame_fixed : forall s, (~ In c_cr s /\ exists y, deserialize s = Ok y /\ display_yamd y = s) <-> exists y, tame_doc y /\ s = display_yamd y.
Proof.
  intros s. split.
  - intros (N & y & E & D). exists y. split; [|auto]. apply tame_iff. rewrite D. auto.
  - intros (y & T & ->). apply tame_iff in T. destruct T as [N E]. split; [exact N|]. exists y. auto.
Qed.
Lemma tame_injective : forall y z, tame_doc y -> tame_doc z -> display_yamd y = display_yamd z -> y = z.
Proof. intros y z Y Z E. apply tame_iff in Y, Z. destruct Y as [_ Y], Z as [_ Z]. rewrite E in Y. congruence. Qed.
