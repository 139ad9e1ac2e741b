(** Lists that are read back from what [Display] writes for them are tame. *)
From Coq Require Import String Bool.
From Verif Require Import Base Lexer LexSpec LexProofs LexFacts Ops Parser FParser Refine Refine2 Refine3 Wf TokFacts StreamSpec Lines ToYamd TreeAst Ast Api AstSpec AstProofs Tame Settled Mild Runs Units ULex Stops Inline LinkUnits AstUnits Calm Blocks Docs Highlight Lists UBlocks UList UDocs Unsettled UnsettledHl Span Written UnsettledDoc BackInline BackPar BackFlat BackBody BackColl BackHl.
From Verif Require RawTree RawAst RawLinks.
Open Scope list_scope.

(** ** Where a line feed is left as it is *)

Lemma nn_at : forall us a b, ~ In (escd c_nl) us -> chars us = a ++ c_nl :: b -> ~ begins [c_nl] b -> exists A B, nn us = A ++ raw c_nl :: B /\ chars A = a.
Proof.
  intros us. unfold nn. remember (List.length us) as n eqn:En. assert (L : List.length us <= n) by lia. clear En. revert us L.
  induction n as [|n IH]; intros us L a b N E Hb; [destruct us; [destruct a; discriminate E|cbn in L; lia]|]. destruct us as [|u us]; [destruct a; discriminate E|]. cbn [List.length] in L. cbn [chars] in E.
  assert (Nu : ~ In (escd c_nl) us) by (intros X; apply N; right; exact X). cbn [umark]. destruct (umatch [escd c_nl; raw c_nl] (u :: us)) eqn:M.
  - cbn [umatch] in M. apply andb_true_iff in M. destruct M as [M1 M2]. apply char_eqb_eq in M1. destruct us as [|v us]; [discriminate|]. cbn [follows] in M2.
    rewrite andb_true_r in M2. apply andb_true_iff in M2. destruct M2 as [M2 M3]. apply char_eqb_eq in M3. destruct u as [eu cu], v as [ev cv]. cbn in M1, M2, M3. subst cu cv. destruct ev; [discriminate|].
    cbn [chars snd] in E. cbn [umark]. destruct a as [|x a]; [exfalso; apply Hb; injection E as <-; exists (chars us); reflexivity|]. injection E as <- E. destruct a as [|x a].
    + eexists [_], _. split; [cbn; reflexivity|reflexivity].
    + injection E as <- E. destruct (IH us ltac:(cbn in L; lia) a b) as (A & B & EA & EC); [intros X; apply Nu; right; exact X|exact E|exact Hb|]. rewrite EA. eexists (_ :: _ :: A), B. split; [reflexivity|]. cbn [chars snd]. rewrite EC. reflexivity.
  - destruct a as [|x a].
    + injection E as E _. destruct u as [e c]. cbn in E. subst c. destruct e; [exfalso; apply N; left; reflexivity|]. exists []. eexists. split; reflexivity.
    + injection E as E1 E. destruct (IH us ltac:(lia) a b Nu E Hb) as (A & B & -> & <-). exists (u :: A), B. split; [reflexivity|]. cbn [chars]. rewrite E1. reflexivity.
Qed.
Lemma nn2_at : forall us a b, ~ In (escd c_nl) us -> chars us = a ++ c_nl :: b -> ~ begins [c_nl] b -> Nat.Even (leading c_nl (rev a)) -> exists A B, nn2 us = A ++ raw c_nl :: B /\ chars A = a.
Proof.
  intros us. unfold nn2. remember (List.length us) as n eqn:En. assert (L : List.length us <= n) by lia. clear En. revert us L.
  induction n as [|n IH]; intros us L a b N E Hb Ha; [destruct us; [destruct a; discriminate E|cbn in L; lia]|].
  destruct us as [|u us]; [destruct a; discriminate E|]. cbn [List.length] in L. cbn [chars] in E.
  assert (Nu : ~ In (escd c_nl) us) by (intros X; apply N; right; exact X).
  cbn [umark]. destruct (umatch [escd c_nl; escd c_nl] (u :: us)) eqn:M.
  - cbn [umatch] in M. apply andb_true_iff in M. destruct M as [M1 M2]. apply char_eqb_eq in M1. destruct us as [|v us]; [discriminate|]. cbn [follows] in M2.
    rewrite andb_true_r in M2. apply andb_true_iff in M2. destruct M2 as [_ M3]. apply char_eqb_eq in M3. destruct u as [eu cu], v as [ev cv]. cbn in M1, M3. subst cu cv. cbn [chars snd] in E.
    destruct a as [|x a]; [exfalso; apply Hb; injection E as <-; exists (chars us); reflexivity|]. injection E as <- E. destruct a as [|x a]; [exfalso; destruct Ha as (m & Ha); cbn in Ha; lia|]. injection E as <- E.
    cbn [umark]. destruct (IH us ltac:(cbn in L; lia) a b) as (A & B & EA & EC); [intros X; apply Nu; right; exact X|exact E|exact Hb| |rewrite EA; eexists (_ :: _ :: A), B; split; [reflexivity|cbn [chars snd]; rewrite EC; reflexivity]]. cbn [rev] in Ha.
    rewrite (leading_snoc c_nl (rev a ++ [c_nl])), forallb_app, leading_snoc in Ha. cbn [forallb] in Ha. rewrite char_eqb_refl in Ha. destruct (forallb (fun e => char_eqb e c_nl) (rev a)) eqn:F; [|exact Ha].
    rewrite (leading_all _ _ F). cbn [andb leading] in Ha. rewrite char_eqb_refl, app_length in Ha. cbn [List.length] in Ha. destruct Ha as (m & Ha). exists (m - 1). lia.
  - destruct a as [|x a].
    + injection E as E _. destruct u as [e c]. cbn in E. subst c. destruct e; [exfalso; apply N; left; reflexivity|]. exists []. eexists. split; reflexivity.
    + injection E as E1 E. destruct (IH us ltac:(lia) a b Nu E Hb) as (A & B & EA & EC); [|rewrite EA; exists (u :: A), B; split; [reflexivity|cbn [chars]; rewrite E1, EC; reflexivity]]. cbn [rev] in Ha. rewrite leading_snoc in Ha. destruct (forallb (fun e => char_eqb e c_nl) (rev a)) eqn:F; [|exact Ha].
      rewrite (leading_all _ _ F). cbn [leading] in Ha. destruct (char_eqb x c_nl) eqn:X; [|rewrite Nat.add_0_r in Ha; exact Ha]. exfalso. apply char_eqb_eq in X. subst x.
      assert (H : exists v us', us = v :: us' /\ snd v = c_nl).
      { destruct us as [|v us]; [destruct a; discriminate E|]. exists v, us. split; [reflexivity|]. cbn [chars] in E. destruct a as [|w a]; [injection E as E _; exact E|]. injection E as E _. cbn [rev] in F. rewrite forallb_app in F.
        apply andb_true_iff in F. destruct F as [_ F]. cbn in F. rewrite andb_true_r in F. change (char_eqb w c_nl = true) in F. apply char_eqb_eq in F. congruence. }
      destruct H as (v & us' & -> & Hv). destruct v as [e d]. cbn in Hv. subst d. destruct e; [apply Nu; left; reflexivity|]. cbn [umatch follows escd fst snd] in M. rewrite X, char_eqb_refl in M. discriminate M.
Qed.
Lemma more_place : forall C A B V, more C (A ++ raw c_nl :: B) V -> ~ C c_nl -> exists A' B', V = A' ++ raw c_nl :: B' /\ chars A' = chars A.
Proof.
  intros C A B V M N. apply more_split in M. destruct M as (A' & X & -> & M1 & M2). apply more_cons in M2. destruct M2 as (v & B' & -> & (U1 & U2 & U3) & _). exists A', B'. split; [|exact (more_chars _ _ _ M1)].
  destruct v as [e d]. cbn in U1, U3. subst d. destruct e; [|reflexivity]. destruct (U3 eq_refl) as [Y|Y]; [discriminate Y|contradiction].
Qed.
Lemma part_at : forall p q a b, In q (uparts (u_par p)) -> chars q = a ++ c_nl :: b -> ~ begins [c_nl] b -> (is_ptext p = true -> Nat.Even (leading c_nl (rev a))) -> exists A B, q = A ++ raw c_nl :: B /\ chars A = a.
Proof.
  intros p q a b H E Hb Ha.
  assert (D : forall c x, In c [c_underscore; c_tilde; c_star; c_backtick] -> q = u_delim c x -> exists A B, q = A ++ raw c_nl :: B /\ chars A = a).
  { intros c x Hc ->. unfold u_delim in *. apply (nn_at _ a b); [|rewrite <- E; symmetry; apply umark_chars|exact Hb]. repeat (destruct Hc as [<-|Hc]; [noesc|]). destruct Hc. }
  destruct p as [t u|l|x|x|x|x|x]; cbn [u_par uparts is_ptext] in *; try (destruct H as [H|[]]; symmetry in H; eapply D; [|exact H]; cbn; tauto).
  - destruct H as [<-|[<-|[]]]; unfold u_title, u_dest in *; (apply (nn_at _ a b); [noesc|rewrite <- E; symmetry; apply umark_chars|exact Hb]).
  - apply in_flat_map in H. destruct H as (v & H1 & H2). apply in_map_iff in H1. destruct H1 as (w & <- & _). destruct w as [x|x|x]; cbn [u_bold vparts] in H2; destruct H2 as [H2|[]]; symmetry in H2.
    + assert (Y : exists A B, u_delim c_underscore x = A ++ raw c_nl :: B /\ chars A = a).
      { unfold u_delim. apply (nn_at _ a b); [noesc|rewrite <- E, H2; unfold stars, u_delim, nn; rewrite !umark_chars; reflexivity|exact Hb]. }
      destruct Y as (A & B & EA & <-). subst q. eapply more_place; [unfold stars; rewrite EA; apply umark0_more|intros [X|[X|[]]]; discriminate X].
    + assert (Y : exists A B, u_delim c_tilde x = A ++ raw c_nl :: B /\ chars A = a).
      { unfold u_delim. apply (nn_at _ a b); [noesc|rewrite <- E, H2; unfold stars, u_delim, nn; rewrite !umark_chars; reflexivity|exact Hb]. }
      destruct Y as (A & B & EA & <-). subst q. eapply more_place; [unfold stars; rewrite EA; apply umark0_more|intros [X|[X|[]]]; discriminate X].
    + subst q. unfold u_btext in *. apply (nn_at _ a b); [noesc|rewrite <- E; symmetry; apply umark_chars|exact Hb].
  - destruct H as [<-|[]]. unfold u_text, pp in *. set (z := esc c_lcurly _) in *. destruct (nn2_at z a b) as (A & B & EA & <-); [unfold z; noesc|rewrite <- E; unfold nn2; rewrite !umark_chars; reflexivity|exact Hb|exact (Ha eq_refl)|].
    eapply more_place; [rewrite EA; apply umark0_more|intros [X|[X|[]]]; discriminate X].
Qed.

(** No marker is escaped in a part of a paragraph. *)
Lemma part_marks : forall p q c, In q (uparts (u_par p)) -> is_mark c -> ~ In (escd c) q.
Proof.
  intros p q c H Hc. destruct p as [t u|l|x|x|x|x|x]; cbn [u_par uparts] in H; try (destruct H as [<-|[]]; destruct Hc as [->| ->]; unfold u_delim; first [nochar|noesc]).
  - destruct H as [<-|[<-|[]]]; destruct Hc as [->| ->]; unfold u_title, u_dest, nn; noesc.
  - apply in_flat_map in H. destruct H as (v & H1 & H2). apply in_map_iff in H1. destruct H1 as (b & <- & _). destruct b as [x|x|x]; cbn [u_bold vparts] in H2; destruct H2 as [<-|[]]; destruct Hc as [->| ->]; unfold u_btext, stars, u_delim, nn; noesc.
Qed.

(** ** What comes after a part *)

Lemma vparts_ctx : forall l v q, chain vnext l -> In v l -> In q (vparts v) -> exists a c, flat_map vflat l = a ++ q ++ c /\ (c = [] \/ hd_in delims c).
Proof.
  induction l as [|w l IH]; intros v q Ch H Hq; [destruct H|]. destruct Ch as [C1 C2]. destruct H as [->|H]; [|destruct (IH v q C2 H Hq) as (a & c & E & Hc); exists (vflat w ++ a), c; cbn [flat_map]; rewrite E, <- app_assoc; auto].
  clear IH. cbn [flat_map]. destruct v as [us|us|us]; cbn [vparts vflat] in *; destruct Hq as [<-|[]].
  - exists [], (flat_map vflat l). split; [reflexivity|]. destruct l as [|w l]; [left; reflexivity|right]. destruct w; [destruct C1| |]; cbn [flat_map vflat]; unfold wrap; cbn [d_italic d_strike app]; eexists _, _; (split; [reflexivity|indel]).
  - exists d_italic, (d_italic ++ flat_map vflat l). unfold wrap. rewrite <- !app_assoc. split; [reflexivity|right]. eexists _, _. split; [reflexivity|indel].
  - exists d_strike, (d_strike ++ flat_map vflat l). unfold wrap. rewrite <- !app_assoc. split; [reflexivity|right]. eexists _, _. split; [reflexivity|indel].
Qed.
Lemma uparts_ctx : forall l x q, ugoods l -> In x l -> In q (uparts x) -> exists a c, uflats l = a ++ q ++ c /\ (c = [] \/ hd_in delims c).
Proof.
  induction l as [|w l IH]; intros x q [G Ch] H Hq; [destruct H|]. inversion G as [|? ? G1 G2]; subst. destruct Ch as [C1 C2].
  destruct H as [->|H]; [|destruct (IH x q (conj G2 C2) H Hq) as (a & c & E & Hc); exists (uflat w ++ a), c; unfold uflats in *; cbn [flat_map]; rewrite E, <- app_assoc; auto].
  clear IH. change (uflats (x :: l)) with (uflat x ++ uflats l).
  assert (D : forall d us, (exists c r, d = raw c :: r /\ In c delims) -> exists a c, wrap d us ++ uflats l = a ++ us ++ c /\ (c = [] \/ hd_in delims c)).
  { intros d us (c & r & -> & Hc). exists (raw c :: r), ((raw c :: r) ++ uflats l). unfold wrap. rewrite <- !app_assoc. split; [reflexivity|right]. eexists _, _. split; [reflexivity|exact Hc]. }
  destruct x as [us|us|us|us|us|t u|vs]; cbn [uparts uflat] in *; try (destruct Hq as [<-|[]]; apply D; eexists _, _; split; [reflexivity|indel]).
  - destruct Hq as [<-|[]]. exists [], (uflats l). split; [reflexivity|]. destruct l as [|w l]; [left; reflexivity|right]. change (uflats (w :: l)) with (uflat w ++ uflats l).
    destruct w; [destruct C1| | | | | |]; cbn [uflat]; unfold wrap, ulink; cbn [d_italic d_strike d_emph d_code d_bold app]; eexists _, _; (split; [reflexivity|indel]).
  - unfold ulink. destruct Hq as [<-|[<-|[]]].
    + exists [raw c_lsquare]. eexists. rewrite <- !app_assoc. split; [reflexivity|right]. eexists _, _. split; [reflexivity|indel].
    + exists ([raw c_lsquare] ++ t ++ [raw c_rsquare] ++ [raw c_lparen]). eexists. rewrite <- !app_assoc. split; [reflexivity|right]. eexists _, _. split; [reflexivity|indel].
  - apply in_flat_map in Hq. destruct Hq as (v & Hv & Hq). destruct G1 as (_ & _ & G1). destruct (vparts_ctx vs v q G1 Hv Hq) as (a & c & E & Hc). exists (d_bold ++ a), (c ++ d_bold ++ uflats l). unfold wrap. rewrite E, <- !app_assoc. split; [reflexivity|right].
    destruct Hc as [->|(c' & r & -> & Hc)]; eexists _, _; (split; [reflexivity|]); [indel|exact Hc].
Qed.

(** ** Lines that look like items *)

Lemma marks_line : forall cs A j c B, Forall is_mark cs -> is_mark c -> (j = 0 -> ~ In c cs) -> marks cs (A ++ raw c_nl :: indent j ++ raw c :: raw c_space :: B) = marks cs A ++ raw c_nl :: indent j ++ raw c :: raw c_space :: marks cs B.
Proof.
  induction cs as [|m cs IH]; intros A j c B F Hc H; [reflexivity|]. inversion F as [|? ? Fm Fs]; subst. change (marks (m :: cs) ?x) with (marks cs (markers m x)). rewrite markers_break by exact Fm. rewrite markers_nl.
  - rewrite markers_indent by (apply mark_ne; [exact Hc|discriminate|discriminate]). apply IH; [exact Fs|exact Hc|]. intros E X. apply (H E). right. exact X.
  - destruct j as [|j]; cbn [indent repeat app raw_at]; [|apply N.eqb_neq; intros X; symmetry in X; revert X; apply mark_ne; [exact Fm|discriminate|discriminate]]. apply N.eqb_neq. intros X. cbn in X. apply (H eq_refl). left. symmetry. exact X.
Qed.
Lemma raw_units : forall (q : list uchar) x y, chars q = x ++ y -> (forall c, In c x -> ~ In (escd c) q) -> exists q', q = map raw x ++ q' /\ chars q' = y.
Proof.
  intros q x. revert q. induction x as [|c x IH]; intros q y E H; [exists q; auto|]. destruct q as [|[e d] q]; [discriminate E|]. cbn [chars snd] in E. injection E as -> E.
  destruct (IH q y E) as (q' & -> & Ey); [intros d Hd X; apply (H d (or_intror Hd)); right; exact X|]. exists q'. split; [|exact Ey]. destruct e; [exfalso; apply (H c (or_introl eq_refl)); left; reflexivity|reflexivity].
Qed.
Lemma marked_units : forall coll t p x j c, tame_inlines coll t -> In p t -> In x (strings p) -> is_mark c -> marked_line (is_ptext p) j c x ->
  exists A B, u_pars t = A ++ raw c_nl :: indent j ++ raw c :: raw c_space :: B /\ raw_at c_space B = false.
Proof.
  intros coll t p x j c T Hp Hx Hc (a & b & Ex & Hb & Ha). rewrite <- u_par_parts in Hx. apply in_map_iff in Hx. destruct Hx as (q & Eq & Hq). rewrite Ex in Eq.
  destruct (part_at p q a _ Hq Eq) as (A & B & -> & EA).
  { intros (w & Ew). destruct j; [injection Ew as Ew _; destruct Hc as [Hc|Hc]; rewrite Hc in Ew; discriminate Ew|discriminate Ew]. }
  { exact Ha. }
  assert (EB : chars B = (repeat c_space j ++ [c; c_space]) ++ b). { rewrite chars_app, EA in Eq. apply app_inv_head in Eq. injection Eq as Eq. rewrite Eq, <- app_assoc. reflexivity. }
  destruct (raw_units B _ _ EB) as (B' & -> & EB').
  { intros d Hd X. assert (X' : In (escd d) (A ++ raw c_nl :: B)) by (apply in_or_app; right; right; exact X). apply in_app_iff in Hd. destruct Hd as [Hd|[<-|[<-|[]]]].
    - apply repeat_spec in Hd. subst d. exact (proj1 (proj2 (part_facts _ _ Hq)) X').
    - exact (part_marks _ _ _ Hq Hc X').
    - exact (proj1 (proj2 (part_facts _ _ Hq)) X'). }
  destruct (uparts_ctx (map u_par t) (u_par p) _ (u_pars_good _ _ T) (in_map u_par t p Hp) Hq) as (a0 & c0 & E & Hc0). exists (a0 ++ A), (B' ++ c0). split.
  - assert (Em : map raw (repeat c_space j) = repeat (raw c_space) j) by (clear; induction j as [|j IH]; [reflexivity|]; cbn [repeat map]; rewrite IH; reflexivity). unfold u_pars. rewrite E, map_app, Em. unfold indent. rewrite <- !app_assoc. cbn [map app]. rewrite <- !app_assoc. reflexivity.
  - destruct B' as [|[e d] B']; cbn [app].
    + destruct Hc0 as [->|Hc0]; [reflexivity|]. apply (hd_in_raw _ _ _ Hc0). nodel.
    + cbn [raw_at]. destruct e; [reflexivity|]. cbn [chars snd] in EB'. apply N.eqb_neq. intros X. cbn in X. apply Hb. subst d. exists (chars B'). symmetry. exact EB'.
Qed.


(** ** The text of an item *)

Lemma head_back0 : forall s b ts ty V ko o r, cov s b ts (raw (mchar ty) :: raw c_space :: V) -> fseq [is_list_marker ko; is_space_1] ts = Some (o, r) -> raw_at c_space V = false.
Proof.
  intros s b ts ty V ko o r C F. assert (R0 : raw_at (mchar ty) (raw c_space :: V) = false) by (destruct ty; reflexivity).
  assert (X : exists K, run_kind (mchar ty) = Some K) by (destruct ty; eexists; reflexivity). destruct X as (KK & X). assert (Nc : mchar ty <> c_lcurly) by (destruct ty; discriminate).
  destruct (cov_runs s b ts (mchar ty) KK 0 _ C X ltac:(left; exact Nc) R0) as (m & r0 & -> & E1 & E2 & E3 & E4 & E5). cbn [fseq] in F. destruct (is_list_marker ko m); [|discriminate F]. destruct r0 as [|t2 r0]; [discriminate F|].
  destruct (is_space_1 t2) eqn:K; [|discriminate F]. rewrite (space1_test _ _ _ _ _ E5) in K. apply Nat.eqb_eq in K. cbn [lead raw fst snd negb andb] in K. rewrite char_eqb_refl in K. apply lead_0. injection K as K. exact K.
Qed.
Lemma head_back : forall s ts L ty V ko o r, cov s true ts (indent L ++ raw (mchar ty) :: raw c_space :: V) -> fseq (marker_preds L ko) ts = Some (o, r) -> raw_at c_space V = false.
Proof.
  intros s ts [|L] ty V ko o r C F; [exact (head_back0 _ _ _ _ _ _ _ _ C F)|]. unfold marker_preds in F. cbn [Nat.eqb] in F. unfold indent in C.
  destruct (cov_runs s true ts c_space Space L _ C eq_refl ltac:(left; discriminate)) as (t & r0 & -> & _ & _ & _ & _ & C2); [destruct ty; reflexivity|].
  cbn [fseq] in F. destruct (is_indent (S L) t); [|discriminate F]. destruct (fseq [is_list_marker ko; is_space_1] r0) as [[o2 r2]|] eqn:F2; cbn [fseq] in F2; rewrite F2 in F; [|discriminate F]. eapply head_back0; [exact C2|exact F2].
Qed.

(** What comes after an item: the end of the list or the start of another item. *)
Definition nexts (n : nat) (R : list uchar) : Prop := stail n R \/ exists j ty N, R = raw c_nl :: indent j ++ raw (mchar ty) :: N.
Definition went (s : str) (n : nat) (R : list uchar) (r : list token) : Prop := stail n R \/ exists N, R = raw c_nl :: N /\ cov s true r N.

Lemma nexts_space : forall n R, nexts n R -> raw_at c_space R = false.
Proof. intros n R [H|(j & ty & N & ->)]; [|reflexivity]. apply (stail_not n); [exact H|discriminate]. Qed.
Lemma first_space : forall C t U R, more C (u_pars t) U -> ~ C c_space -> normal_inlines t -> raw_at c_space (U ++ R) = false -> ~ begins [c_space] (first_text t).
Proof.
  intros C t U R M NC No H (y & E). destruct t as [|p t]; [discriminate E|]. destruct p as [? ?|?|?|?|x|?|?]; try discriminate E. cbn [first_text] in E. subst x. rewrite u_pars_cons in M. cbn [u_par uflat] in M.
  pose proof (u_text_chars ([c_space] ++ y)) as Ec. assert (Ne : ~ In (escd c_space) (u_text ([c_space] ++ y))) by nochar. destruct (u_text ([c_space] ++ y)) as [|[e d] W]; [discriminate Ec|]. cbn [chars snd app] in Ec. injection Ec as -> _.
  destruct e; [apply Ne; left; reflexivity|]. cbn [app] in M. apply more_cons in M. destruct M as (v & U' & -> & (U1 & _ & U3) & _). destruct v as [e d]. cbn in U1, U3. subst d. destruct e; [|discriminate H]. destruct (U3 eq_refl) as [X|X]; [discriminate X|contradiction].
Qed.

Lemma text_back : forall s coll n L ty outer t R ts par r, (n <> 0 <-> coll = true) -> Forall is_mark outer -> linked s ts -> cov s false ts (marks (mchar ty :: outer) (u_pars t) ++ R) ->
  raw_at c_space (marks (mchar ty :: outer) (u_pars t) ++ R) = false -> nexts n R -> ~ In c_cr (chars (marks (mchar ty :: outer) (u_pars t))) -> fparagraph (istop n L (lk ty)) ts = (par, r) -> concat (trimmed s par) = t ->
  tame_item_text coll L outer ty t /\ linked s r /\ went s n R r.
Proof.
  intros s coll n L ty outer t R ts par r Hn Ho Ls C RS HR NC P Et. assert (F : Forall is_mark (mchar ty :: outer)) by (constructor; [apply mchar_mark|exact Ho]). pose proof (marks_more _ (u_pars t) F) as M.
  assert (Ep : trimmed s par = [t]) by (destruct (par_one s _ _ _ _ P) as (q & Eq); rewrite Eq in Et |- *; cbn [concat] in Et; rewrite app_nil_r in Et; congruence).
  assert (K3 : keep3 is_mark) by (intros c Hc [->| ->]; revert Hc; nodel).
  assert (Is : incl (StopTerminator :: RawTree.stops coll) (istop n L (lk ty))) by (intros c Hc; right; apply (stops_cst n coll); [apply Hn|exact Hc]).
  destruct (par_back0 s coll _ is_mark _ t R false ts par r Is Ls C M K3 NC P Ep) as (T & Sa & (St & Aw) & Lr & D & R0 & ER & AD & N2 & Cr & He).
  split; [|split; [exact Lr|]].
  - split; [exact T|]. split; [|split; [apply Sa|]].
    + apply (first_space is_mark t _ R M); [intros [X|X]; discriminate X|apply Sa|exact RS].
    + intros p x j c Hp Hx Hj Hc K K0 Ml. destruct (marked_units coll t p x j c T Hp Hx Hc Ml) as (A & B & Eu & HB). rewrite Eu, marks_line in Aw by assumption.
      assert (Y : ustop (istop n L (lk ty)) true ((indent j ++ raw c :: raw c_space :: marks (mchar ty :: outer) B) ++ R) = false).
      { apply (Aw (marks (mchar ty :: outer) A)); [reflexivity|destruct j; discriminate|]. destruct j; cbn [indent repeat app raw_at]; [|reflexivity]. apply N.eqb_neq. cbn. apply mark_ne; [exact Hc|discriminate|discriminate]. }
      assert (Z : exists ty', c = mchar ty') by (destruct Hc as [->| ->]; [exists LUnordered|exists LOrdered]; reflexivity). destruct Z as (ty' & ->).
      assert (IS : item_start j ty' ((indent j ++ raw (mchar ty') :: raw c_space :: marks (mchar ty :: outer) B) ++ R)).
      { exists (marks (mchar ty :: outer) B ++ R). rewrite <- app_assoc. split; [reflexivity|]. destruct (marks (mchar ty :: outer) B) as [|w W] eqn:EW; [exact (nexts_space _ _ HR)|]. cbn [app]. change (raw_at c_space (w :: W ++ R)) with (raw_at c_space (w :: W)). rewrite <- EW.
        apply (more_raw_at _ _ _ _ (marks_more _ B F)). exact HB. }
      assert (FT : fires true ((indent j ++ raw (mchar ty') :: raw c_space :: marks (mchar ty :: outer) B) ++ R) (StopListBoundary L (lk ty)) = true).
      { apply (fires_list_true L (lk ty) _ j Hj). apply (item_start_bound _ ty'); [exact IS|]. destruct (Nat.eqb_spec j L) as [Ej|_]; [right|left; reflexivity]. specialize (K Ej). assert (ty' = ty) as -> by (destruct ty, ty'; (reflexivity || discriminate K)). reflexivity. }
      pose proof (item_start_ne _ _ _ IS) as NE. unfold ustop in Y. destruct ((indent j ++ raw (mchar ty') :: raw c_space :: marks (mchar ty :: outer) B) ++ R) as [|w W]; [congruence|]. unfold istop in Y. cbn [existsb] in Y. rewrite FT in Y. discriminate Y.
  - destruct HR as [HR|(j & ty' & N & ->)]; [left; exact HR|right]. assert (RN : forall c, c <> c_space -> ~ is_mark c -> raw_at c (indent j ++ raw (mchar ty') :: N) = false).
    { intros c H1 H2. destruct j; cbn [indent repeat app raw_at]; apply N.eqb_neq; cbn; [intros X; apply H2; rewrite <- X; apply mchar_mark|intros X; apply H1; symmetry; exact X]. }
    destruct D as [|d D].
    + exfalso. cbn [app] in ER. subst R0. rewrite (stopped_units _ _ _ _ _ Cr) in St. unfold ustop, istop in St. cbn [existsb] in St.
      rewrite fires_list_false in St; [|intros i _; refine (eq_trans (uboundary_off i _ [] _ (inert_nl _)) _); unfold uboundary; rewrite skipn_nil, umarker_nil, andb_false_r; reflexivity]. cbn [orb] in St. assert (T1 : forall b, fires b (raw c_nl :: indent j ++ raw (mchar ty') :: N) StopTerminator = false).
      { intros b. cbn [fires]. destruct (raw2_at c_nl c_nl (raw c_nl :: indent j ++ raw (mchar ty') :: N)) eqn:Q; [|reflexivity]. apply raw2_at_true in Q. destruct Q as (w & Q). injection Q as Q. pose proof (RN c_nl ltac:(discriminate) ltac:(intros [X|X]; discriminate X)) as Z. rewrite Q, raw_at_raw in Z. discriminate Z. }
      rewrite T1 in St. cbn [orb] in St. apply existsb_exists in St. destruct St as (c & Hc & St). assert (Ec : c = StopCollapsibleEnd) by (exact (repeat_spec _ _ _ Hc)). subst c. cbn [fires is_nl raw fst snd negb] in St.
      rewrite (raw2_hd c_percent c_rcurly (indent j ++ raw (mchar ty') :: N)) in St by (apply RN; [discriminate|intros [X|X]; discriminate X]). rewrite ?andb_false_r, ?orb_false_r in St. discriminate St.
    + injection ER as <- ER. destruct D as [|d D].
      * cbn [app] in ER. subst R0. exists (indent j ++ raw (mchar ty') :: N). split; [reflexivity|]. rewrite aft_app in Cr. exact Cr.
      * exfalso. assert (Y : snd d = c_nl) by (apply AD; right; left; reflexivity). destruct j; cbn [indent repeat app] in ER; injection ER as <- _; cbn in Y; [destruct ty'|]; discriminate Y.
Qed.

(** ** Items and lists *)

Lemma u_list_start : forall outer ty L it items, exists N, u_list outer (YList ty L (it :: items)) = indent L ++ raw (mchar ty) :: N.
Proof. intros outer ty L [t nested] items. rewrite u_list_eq. cbn [map ujoin1]. rewrite u_item_eq, <- app_assoc. cbn [app]. eexists. reflexivity. Qed.
Lemma nexts_start : forall n L ty N R, nexts n (raw c_nl :: (indent L ++ raw (mchar ty) :: N) ++ R) /\ ~ stail n (raw c_nl :: (indent L ++ raw (mchar ty) :: N) ++ R).
Proof.
  intros n L ty N R. rewrite <- app_assoc. cbn [app]. split; [right; eauto|]. intros [H|[(X & H)|(_ & X & H)]]; [discriminate H| |]; (destruct L; cbn [indent repeat app] in H; [destruct ty|]; discriminate H).
Qed.
Lemma fitem_read : forall s L0 m L ko st ts k x r, fitem m L ko st ts = Some (k, x, r) -> exists it, read_item s L0 x = [it].
Proof.
  intros s L0 [|m] L ko st ts k x r H; [discriminate H|]. cbn [fitem] in H. destruct (negb (nth_is 0 col0 ts)); [discriminate H|]. destruct (nth_error ts (if L =? 0 then 0 else 1)); [|discriminate H]. destruct (list_kind_of t); [|discriminate H].
  destruct (fseq (marker_preds L ko) ts) as [[o r0]|]; [|discriminate H]. destruct (fparagraph (StopListBoundary L l :: st) r0) as [par r1]. destruct (negb (stopped st r1)); [destruct (flist m (L + 1) st r1) as [[[? ?] ?]|]|]; injection H as _ <- _; eexists; reflexivity.
Qed.
Lemma fitems_none : forall s L0 m L k st ts ks r, flist_items m L k st ts = (ks, r) -> flat_map (read_item s L0) ks = [] -> r = ts.
Proof.
  intros s L0 [|m] L k st ts ks r H E; cbn [flist_items] in H; [congruence|]. destruct (fitem m L (Some k) st ts) as [[[k' x] r0]|] eqn:F; [|congruence]. destruct (flist_items m L k st r0) as [ks' r1]. injection H as <- <-. exfalso.
  destruct (fitem_read s L0 _ _ _ _ _ _ _ _ F) as (it & Ei). cbn [flat_map] in E. rewrite Ei in E. discriminate E.
Qed.

Definition items_ok (s : str) (coll : bool) (n m : nat) : Prop :=
  forall L outer ty items ts R ks r, flist_items m L (lk ty) (StopTerminator :: cst n) ts = (ks, r) -> Forall is_mark outer -> linked s ts -> items <> [] -> cov s true ts (u_list outer (YList ty L items) ++ R) -> nexts n R ->
    ~ In c_cr (chars (u_list outer (YList ty L items))) -> flat_map (read_item s L) ks = items -> Forall (tame_item coll L outer ty) items /\ linked s r /\ went s n R r.
Definition item_back (s : str) (coll : bool) (n m : nat) : Prop :=
  forall L ko outer ty it ts R k x r, fitem m L ko (StopTerminator :: cst n) ts = Some (k, x, r) -> ko = None \/ ko = Some (lk ty) -> Forall is_mark outer -> linked s ts -> cov s true ts (u_item outer ty L it ++ R) -> nexts n R ->
    ~ In c_cr (chars (u_item outer ty L it)) -> read_item s L x = [it] -> tame_item coll L outer ty it /\ linked s r /\ went s n R r.
Definition lists_back (s : str) (coll : bool) (n m : nat) : Prop :=
  forall L outer l ts R k x r, flist m L (StopTerminator :: cst n) ts = Some (k, x, r) -> Forall is_mark outer -> linked s ts -> cov s true ts (u_list outer l ++ R) -> nexts n R -> ~ In c_cr (chars (u_list outer l)) -> list_of s L x = l ->
    tame_list coll L outer l /\ linked s r /\ went s n R r.

Lemma rest_back : forall s coll n m, item_back s coll n m -> items_ok s coll n m -> forall L ko outer ty it items ts R k x r ks r1,
  fitem m L ko (StopTerminator :: cst n) ts = Some (k, x, r) -> flist_items m L (lk ty) (StopTerminator :: cst n) r = (ks, r1) -> ko = None \/ ko = Some (lk ty) -> Forall is_mark outer -> linked s ts ->
  cov s true ts (u_list outer (YList ty L (it :: items)) ++ R) -> nexts n R -> ~ In c_cr (chars (u_list outer (YList ty L (it :: items)))) -> read_item s L x = [it] -> flat_map (read_item s L) ks = items ->
  Forall (tame_item coll L outer ty) (it :: items) /\ linked s r1 /\ went s n R r1.
Proof.
  intros s coll n m HI HS L ko outer ty it items ts R k x r ks r1 F G Hk Ho Ls C HR NC Ei Es. rewrite u_list_eq in C, NC. destruct items as [|it2 items].
  - cbn [map ujoin1] in C, NC. rewrite app_nil_r in C, NC. destruct (HI L ko outer ty it ts R k x r F Hk Ho Ls C HR NC Ei) as (T & Lr & W). pose proof (fitems_none _ _ _ _ _ _ _ _ _ G Es) as ->. auto.
  - change (map (u_item outer ty L) (it :: it2 :: items)) with (u_item outer ty L it :: u_item outer ty L it2 :: map (u_item outer ty L) items) in C, NC. rewrite ujoin1_cons in C, NC.
    change (u_item outer ty L it2 :: map (u_item outer ty L) items) with (map (u_item outer ty L) (it2 :: items)) in C, NC. rewrite <- u_list_eq in C, NC. rewrite <- app_assoc in C. cbn [app] in C. rewrite chars_app in NC. cbn [chars] in NC.
    destruct (u_list_start outer ty L it2 items) as (N & EN). destruct (nexts_start n L ty N R) as [X1 X2]. rewrite <- EN in X1, X2.
    destruct (HI L ko outer ty it ts _ k x r F Hk Ho Ls C X1) as (T & Lr & W); [intros Y; apply NC; apply in_or_app; left; exact Y|exact Ei|]. destruct W as [W|(N' & E' & W)]; [contradiction|]. injection E' as <-.
    destruct (HS L outer ty (it2 :: items) r R ks r1 G Ho Lr ltac:(discriminate) W HR) as (T2 & Lr2 & W2); [intros Y; apply NC; apply in_or_app; right; right; exact Y|exact Es|]. split; [constructor; assumption|auto].
Qed.

Lemma all_back : forall s coll n, (n <> 0 <-> coll = true) -> forall m, item_back s coll n m /\ lists_back s coll n m /\ items_ok s coll n m.
Proof.
  intros s coll n Hn m. induction m as [|m (IH1 & IH2 & IH3)]; [split; [|split]; intros until r; intros F; [discriminate F|discriminate F|]; intros _ _ NE _ _ _ Es; cbn [flist_items] in F; injection F as <- _; cbn in Es; congruence|]. split; [|split].
  - intros L ko outer ty [t nested] ts R k x r F Hk Ho Ls C HR NC Ei. rewrite u_item_eq in C, NC. rewrite <- app_assoc in C. cbn [app] in C. rewrite <- app_assoc in C. set (nest := match nested with Some l' => _ | None => _ end) in *. cbn [fitem] in F.
    destruct (negb (nth_is 0 col0 ts)); [discriminate F|]. destruct (nth_error ts (if L =? 0 then 0 else 1)) as [mt|] eqn:Em; [|discriminate F]. destruct (list_kind_of mt) as [mk|] eqn:Emk; [|discriminate F].
    destruct (fseq (marker_preds L ko) ts) as [[o r0]|] eqn:Ef; [|discriminate F]. pose proof (head_back _ _ _ _ _ _ _ _ C Ef) as RS.
    destruct (head_units _ _ _ _ _ _ C RS Hk) as (o' & r' & m' & _ & Em' & Ek' & Ef' & Ets & _ & C0). rewrite Em in Em'. injection Em' as <-. rewrite Emk in Ek'. injection Ek' as ->. rewrite Ef in Ef'. injection Ef' as <- <-.
    fold (istop n L (lk ty)) in F. destruct (fparagraph (istop n L (lk ty)) r0) as [par r1] eqn:P. assert (L0 : linked s r0) by (rewrite Ets in Ls; apply linked_app in Ls; apply Ls).
    assert (NC1 : ~ In c_cr (chars (marks (mchar ty :: outer) (u_pars t)))) by (intros Y; apply NC; rewrite chars_app; cbn [chars]; rewrite chars_app, !in_app_iff; cbn [In]; rewrite in_app_iff; tauto).
    assert (X : (exists k2 x2 r2, flist m (L + 1) (StopTerminator :: cst n) r1 = Some (k2, x2, r2) /\ x = Node NListItem o [par; x2] [] /\ r = r2) \/ x = Node NListItem o [par] [] /\ r = r1).
    { destruct (negb (stopped (StopTerminator :: cst n) r1)); [destruct (flist m (L + 1) (StopTerminator :: cst n) r1) as [[[k2 x2] r2]|] eqn:G|]; injection F as _ <- <-; eauto 8. }
    destruct X as [(k2 & x2 & r2 & G & -> & ->)|[-> ->]]; cbn [read_item] in Ei; injection Ei as Et En.
    + rewrite Nat.add_1_r in G. subst nested. unfold nest in *; clear nest. set (l' := list_of s (S L) x2) in *.
      assert (Y : exists ty2 it2 its, l' = YList ty2 (S L) (it2 :: its)).
      { destruct m as [|m]; [discriminate G|]. cbn [flist] in G. destruct (fitem m (S L) None (StopTerminator :: cst n) r1) as [[[k3 x3] r3]|] eqn:G3; [|discriminate G]. destruct (flist_items m (S L) k3 (StopTerminator :: cst n) r3) as [ks r4]. injection G as _ <- _.
        destruct (fitem_read s (S L) _ _ _ _ _ _ _ _ G3) as (it2 & E2). unfold l'. rewrite list_of_eq. cbn [flat_map]. rewrite E2. eexists _, _, _. reflexivity. }
      destruct Y as (ty2 & it2 & its & El). destruct (u_list_start (mchar ty :: outer) ty2 (S L) it2 its) as (N & EN). rewrite <- El in EN. destruct (nexts_start n (S L) ty2 N R) as [X1 X2]. rewrite <- EN in X1, X2.
      destruct (text_back s coll n L ty outer t (raw c_nl :: u_list (mchar ty :: outer) l' ++ R) r0 par r1 Hn Ho L0 C0 RS X1 NC1 P Et) as (Tt & L1 & W). destruct W as [W|(N' & E' & W)]; [contradiction|]. injection E' as <-.
      destruct (IH2 (S L) (mchar ty :: outer) l' r1 R k2 x2 r2 G) as (Tl & L2 & W2); [constructor; [apply mchar_mark|exact Ho]|exact L1|exact W|exact HR| |reflexivity|].
      { intros Y. apply NC. rewrite chars_app. cbn [chars]. rewrite chars_app, !in_app_iff. cbn [chars In]. rewrite in_app_iff. cbn [In]. tauto. }
      split; [|auto]. constructor; [exact Tt|]. intros l E. injection E as <-. exact Tl.
    + subst nested. unfold nest in *; clear nest. cbn [app] in C0, RS. destruct (text_back s coll n L ty outer t R r0 par r1 Hn Ho L0 C0 RS HR NC1 P Et) as (Tt & L1 & W). split; [|auto]. constructor; [exact Tt|]. discriminate.
  - intros L outer l ts R k x r F Ho Ls C HR NC El. cbn [flist] in F. destruct (fitem m L None (StopTerminator :: cst n) ts) as [[[k3 x3] r3]|] eqn:G3; [|discriminate F]. destruct (flist_items m L k3 (StopTerminator :: cst n) r3) as [ks r4] eqn:G4. injection F as <- <- <-.
    rewrite list_of_eq in El. cbn [flat_map] in El. destruct (fitem_read s L _ _ _ _ _ _ _ _ G3) as (it & Ei). rewrite Ei in El. cbn [app] in El. set (ty := type_of (list_kind_node k3)) in *. assert (Ek : k3 = lk ty) by (unfold ty; destruct k3; reflexivity).
    rewrite Ek in G4. subst l. destruct (rest_back s coll n m IH1 IH3 L None outer ty it _ ts R k3 x3 r3 ks r4 G3 G4 (or_introl eq_refl) Ho Ls C HR NC Ei eq_refl) as (T & Lr & W). split; [|auto]. constructor; [discriminate|exact T].
  - intros L outer ty items ts R ks r F Ho Ls NE C HR NC Es. cbn [flist_items] in F. destruct (fitem m L (Some (lk ty)) (StopTerminator :: cst n) ts) as [[[k3 x3] r3]|] eqn:G3; [|injection F as <- <-; cbn in Es; congruence].
    destruct (flist_items m L (lk ty) (StopTerminator :: cst n) r3) as [ks' r4] eqn:G4. injection F as <- <-. destruct (fitem_read s L _ _ _ _ _ _ _ _ G3) as (it & Ei). cbn [flat_map] in Es. rewrite Ei in Es. cbn [app] in Es. subst items.
    exact (rest_back s coll n m IH1 IH3 L _ outer ty it _ ts R k3 x3 r3 ks' r4 G3 G4 (or_intror eq_refl) Ho Ls C HR NC Ei eq_refl).
Qed.

Lemma list_back : forall coll n l, (n <> 0 <-> coll = true) -> back coll n (YListNode l).
Proof.
  intros coll n l Hn s ts B fuel x r L C TB Hf NS NC E Bx.
  assert (X : exists ts', fcollapsible fuel (cst n) ts = CFail ts' /\ flips ts ts' /\ flist0 (StopTerminator :: cst n) ts' = Some (x, r)).
  { pose proof (fblock_from _ _ _ _ _ E) as F. destruct F as [F|[F|(ts' & F1 & F2 & [F|[F|[F|[F|[F|[F|F]]]]]])]]; eauto; by_root; discriminate Bx. }
  destruct X as (ts' & E1 & Fl & EL). cbn [u_block] in *. unfold flist0 in EL. destruct (flist (2 * List.length ts' + 3) 0 (StopTerminator :: cst n) ts') as [[[k y] r']|] eqn:G; [|discriminate EL]. injection EL as -> ->.
  assert (Bl : list_of s 0 x = l).
  { replace (2 * List.length ts' + 3) with (S (2 * List.length ts' + 2)) in G by lia. cbn [flist] in G. destruct (fitem (2 * List.length ts' + 2) 0 None (StopTerminator :: cst n) ts') as [[[k3 x3] r3]|]; [|discriminate G]. destruct (flist_items (2 * List.length ts' + 2) 0 k3 (StopTerminator :: cst n) r3) as [ks r4]. injection G as _ <- _.
    destruct k3; injection Bx as Bx; exact Bx. }
  assert (Y : exists ty it its, l = YList ty 0 (it :: its)).
  { rewrite <- Bl. replace (2 * List.length ts' + 3) with (S (2 * List.length ts' + 2)) in G by lia. cbn [flist] in G. destruct (fitem (2 * List.length ts' + 2) 0 None (StopTerminator :: cst n) ts') as [[[k3 x3] r3]|] eqn:G3; [|discriminate G]. destruct (flist_items (2 * List.length ts' + 2) 0 k3 (StopTerminator :: cst n) r3) as [ks r4]. injection G as _ <- _.
    destruct (fitem_read s 0 _ _ _ _ _ _ _ _ G3) as (it2 & E2). rewrite list_of_eq. cbn [flat_map]. rewrite E2. eexists _, _, _. reflexivity. }
  destruct Y as (ty & it & its & El). destruct (u_list_start [] ty 0 it its) as (N & EN). rewrite <- El in EN.
  assert (Et : ts' = ts). { destruct ts as [|t ts1]; [exfalso; rewrite EN in C; apply cov_nil_r in C; discriminate C|]. rewrite (fcoll_none _ _ _ _ _ _ _ C) in E1; [congruence|]. rewrite EN. destruct ty; reflexivity. }
  subst ts'. destruct (proj1 (proj2 (all_back s coll n Hn _)) 0 [] l ts B k x r G (Forall_nil _) L C (or_introl TB) NC Bl) as (T & _ & _). split; [exact T|]. intros X. exfalso. exact (proj1 (u_list_ends _ _ _ _ T (Forall_nil _)) X).
Qed.
