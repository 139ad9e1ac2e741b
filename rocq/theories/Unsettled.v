(** Documents that [Display] does not keep: a mild block whose text is read back as the block is
    settled. *)
From Coq Require Import String.
From Verif Require Import Base Lexer LexSpec LexProofs LexFacts Ops Parser FParser Refine Refine2 Refine3 Wf TokFacts ToYamd TreeAst Ast Api StreamSpec AstSpec Tame Settled Mild Units ULex Stops Inline AstUnits Calm Blocks Docs Highlight Lists UBlocks UList UDocs.
Open Scope list_scope.

(** ** What mild blocks look like *)

Lemma mild_starts : forall y coll, mild_block coll y -> starts (u_block y).
Proof.
  intros y coll M. destruct y as [l|k l|i|l|lang code|l|t i ps| |kind args|title b]; try (apply starts_raw; discriminate); cbn [mild_block u_block] in *.
  - destruct M as [NE M]. exact (more_starts _ _ _ (u_lead_more _) (u_pars_starts coll l M NE)).
  - exact (proj1 (block_good (YHeading k l) coll 0 M ltac:(congruence))).
  - exact (proj1 (block_good (YImages l) coll 0 M ltac:(congruence))).
  - exact (proj1 (block_good (YListNode l) coll 0 M ltac:(congruence))).
Qed.
Lemma highlight_fine : forall coll t i ps, mild_highlight coll t i ps -> fine (u_highlight t i ps).
Proof.
  intros coll t i ps (T1 & T2 & T3). unfold u_highlight. assert (F : forall o, tame_line_opt o -> fine (utitle (option_map u0 o)) /\ fine (uicon (option_map u0 o))).
  { intros [x|] H; [|split; apply fine_lit; reflexivity]. destruct H as (_ & H & _). cbn [option_map utitle uicon uoption]. change (raw c_space :: u0 x) with ([raw c_space] ++ u0 x). assert (F : fine (u0 x)) by (apply fine_u0; exact H). split; fineparts. }
  destruct (F t T1) as [F1 _], (F i T2) as [_ F2]. assert (F3 : fine (ujoin (map u_hpar ps))).
  { apply ujoin_fine. apply Forall_map. eapply Forall_impl; [|exact T3].
    intros p [->|(_ & P & _)]; [apply fine_lit; reflexivity|]. exact (more_fine _ _ _ (u_hpar_more p) (u_pars_fine _ _ (proj1 P))). }
  fineparts.
Qed.
Lemma code_fine : forall lang code, ~ In c_cr lang -> ~ In c_cr code -> fine (u_codeblock lang code).
Proof. intros lang code H1 H2. assert (F1 : fine (u_lang lang)) by (unfold u_lang; fines). assert (F2 : fine (u_code code)) by (unfold u_code; fines). unfold u_codeblock. fineparts. Qed.
Lemma mild_fine : forall y coll, mild_block coll y -> fine (u_block y).
Proof.
  fix IH 1. intros y coll M. destruct y as [l|k l|i|l|lang code|l|t i ps| |kind args|title b]; cbn [mild_block u_block] in *.
  - destruct M as [_ M]. exact (more_fine _ _ _ (u_lead_more _) (u_pars_fine coll l (proj1 M))).
  - exact (proj2 (proj2 (block_good (YHeading k l) coll 0 M ltac:(congruence)))).
  - exact (proj2 (proj2 (block_good (YImage i) coll 0 M ltac:(congruence)))).
  - exact (proj2 (proj2 (block_good (YImages l) coll 0 M ltac:(congruence)))).
  - destruct M as (M1 & M2 & _). apply code_fine; assumption.
  - exact (proj2 (proj2 (block_good (YListNode l) coll 0 M ltac:(congruence)))).
  - exact (highlight_fine coll t i ps M).
  - exact (proj2 (proj2 (block_good YThematicBreak coll 0 M ltac:(congruence)))).
  - exact (proj2 (proj2 (block_good (YEmbed kind args) coll 0 M ltac:(congruence)))).
  - destruct M as ((L1 & L2 & L3) & M & _). assert (F : Forall fine (map u_block b)).
    { clear - IH M. induction b as [|m b IHb]; [constructor|]. destruct M as [M1 M2]. constructor; [exact (IH m true M1)|exact (IHb M2)]. }
    apply fine_app. split; [apply fine_lit; reflexivity|]. apply fine_app. split; [apply fine_lit; reflexivity|]. apply fine_app. split.
    + unfold u_ctitle. fines.
    + apply fine_app. split; [apply fine_lit; reflexivity|]. apply fine_app. split; [apply ujoin_fine; exact F|apply fine_lit; reflexivity].
Qed.

(** ** Kinds of blocks *)

Lemma fblock_wf : forall n st ts x r, fblock n st ts = (x, r) -> wf x /\ exists m o k c, x = Node m o k c /\ block x.
Proof.
  intros n st ts x r H. unfold fblock in H. assert (B : forall m x, root m x -> simple_block_node m = true -> exists m o k c, x = Node m o k c /\ block x).
  { intros m y (o & k & c & ->) E. exists m, o, k, c. split; [reflexivity|left; exact E]. }
  destruct (fcode st ts) as [[y r1]|] eqn:E1; [injection H as -> ->; apply makes_code in E1; destruct E1; split; [assumption|eapply B; eauto]|].
  destruct (fcollapsible n st ts) as [y r1|ts'] eqn:E2; [injection H as -> ->; apply (proj2 (docs_wf n)) in E2; destruct E2; split; [assumption|eapply B; eauto]|].
  destruct (forelse fembed fhighlight st ts') as [[y r1]|] eqn:E3.
  - injection H as -> ->. apply forelse_some in E3. destruct E3 as [E3|E3]; [apply makes_embed in E3|apply makes_highlight in E3]; destruct E3; (split; [assumption|]); eapply B; eauto.
  - pose proof (fsimple_wf _ _ _ _ H) as [W Bx]. split; [exact W|]. destruct x as [l|l|m o k c]; [|contradiction|eauto 8].
    exfalso. unfold fsimple in H. destruct (forelse flist0 (forelse fimages (forelse fbreak fheading)) (StopTerminator :: st) ts') as [[y r1]|] eqn:E; [|apply fparagraph_wf in H; [destruct H as [_ (o & k & c & H)]; discriminate|left; reflexivity]].
    injection H as -> ->. apply forelse_some in E. destruct E as [E|E]; [apply flist0_wf in E; [destruct E as [_ (lk & k & H & _)]; discriminate|left; reflexivity]|].
    apply forelse_some in E. destruct E as [E|E]; [apply fimages_wf in E; [destruct E as [_ [(o & k & c & H)|(o & k & c & H)]]; discriminate|left; reflexivity]|].
    apply forelse_some in E. destruct E as [E|E]; [apply makes_break in E; destruct E as [_ (o & k & c & H)]; discriminate|].
    apply fheading_wf in E; [destruct E as [_ (o & k & c & H)]; discriminate|left; reflexivity].
Qed.
Lemma fblock_one : forall s n st ts x r, fblock n st ts = (x, r) -> exists y, blocks s x = [y].
Proof.
  intros s n st ts x r H. apply fblock_wf in H. destruct H as [_ (m & o & k & c & -> & [B|(lk & k' & B & _)])].
  - destruct m; try discriminate B; cbn; eauto.
  - injection B as -> -> -> ->. destruct lk; cbn; eauto.
Qed.
Definition simple_root (x : tree) : Prop :=
  match x with Node (NParagraph | NHeading | NImage | NImages | NThematicBreak | NUnorderedList | NOrderedList) _ _ _ => True | _ => False end.
Lemma fsimple_root : forall st ts x r, fsimple st ts = (x, r) -> simple_root x.
Proof.
  intros st ts x r H. unfold fsimple in H. destruct (forelse flist0 (forelse fimages (forelse fbreak fheading)) (StopTerminator :: st) ts) as [[y r1]|] eqn:E.
  2:{ apply fparagraph_wf in H; [|left; reflexivity]. destruct H as [_ (o & k & c & ->)]. exact I. }
  injection H as -> ->. apply forelse_some in E. destruct E as [E|E]; [apply flist0_wf in E; [destruct E as [_ (lk & k & -> & _)]; destruct lk; exact I|left; reflexivity]|].
  apply forelse_some in E. destruct E as [E|E]; [apply fimages_wf in E; [destruct E as [_ [(o & k & c & ->)|(o & k & c & ->)]]; exact I|left; reflexivity]|].
  apply forelse_some in E. destruct E as [E|E]; [apply makes_break in E; destruct E as [_ (o & k & c & ->)]; exact I|].
  apply fheading_wf in E; [destruct E as [_ (o & k & c & ->)]; exact I|left; reflexivity].
Qed.

(** ** Paragraphs *)

Lemma anchor_igood : forall coll n t u, tame_inline coll (PAnchor t u) -> (n <> 0 -> coll = true) -> igood n (u_title t, u_dest u).
Proof.
  intros coll n t u T Hn. pose proof (u_pars_good coll [PAnchor t u] ltac:(split; [constructor; [exact T|constructor]|split; exact I])) as [G _]. inversion G as [|? ? Gx _]; subst. destruct Gx as (G1 & G2 & G3).
  split; [exact G1|]. split; [exact G2|]. split; [exact G3|]. intros p [->|[H0 ->]].
  - pose proof (u_par_no2 coll _ T) as F. inversion F as [|? ? F1 F2]; subst. inversion F2; subst. split; assumption.
  - rewrite (Hn H0) in T. pose proof (u_par_cpat _ T) as F. inversion F as [|? ? F1 F2]; subst. inversion F2; subst. split; assumption.
Qed.
Lemma image_pars : forall t u r, u_pars (PText [c_bang] :: PAnchor t u :: r) = uimage (u_title t, u_dest u) ++ u_pars r.
Proof. intros. rewrite !u_pars_cons. reflexivity. Qed.
Lemma image_pars_nl : forall t u r, u_pars (PText [c_nl; c_bang] :: PAnchor t u :: r) = raw c_nl :: u_pars (PText [c_bang] :: PAnchor t u :: r).
Proof. intros. rewrite !u_pars_cons. reflexivity. Qed.

Lemma loop_some : forall s n coll N l m b ts B, List.length l <= N -> (n <> 0 -> coll = true) -> like_images l -> Forall (tame_inline coll) l -> cov s b ts (u_pars l ++ B) -> stail n B -> (ends c_nl (u_pars l) -> B = []) ->
  List.length ts < m -> exists x k r, fimages_loop m (StopTerminator :: cst n) ts = Some (x :: k, r).
Proof.
  intros s n coll N. induction N as [|N IH]; intros l m b ts B LN Hn Li T H TB He Hm; [destruct l; [destruct Li|cbn in LN; lia]|].
  destruct l as [|[? ?|?|?|?|x|?|?] [|[t u|?|?|?|?|?|?] r]]; try destruct Li as [-> Li]; try destruct Li.
  inversion T as [|? ? _ T']; subst. inversion T' as [|? ? Ta Tr]; subst. pose proof (anchor_igood coll n t u Ta Hn) as G.
  destruct r as [|[? ?|?|?|?|x|?|?] r]; try destruct Li.
  - rewrite image_pars in H, He. change (u_pars []) with (@nil uchar) in *. change (uimage (u_title t, u_dest u) ++ []) with (uimages [(u_title t, u_dest u)]) in *.
    destruct (images_loop_units s n [(u_title t, u_dest u)] m b ts B ltac:(discriminate) (Forall_cons _ G (Forall_nil _)) H TB Hm) as (k & t0 & ts1 & ts2 & E1 & _ & E3 & _). destruct k as [|x k]; [discriminate|]. eauto.
  - assert (X : (r = [] /\ x = [c_nl]) \/ exists t2 u2 r2, r = PAnchor t2 u2 :: r2 /\ x = [c_nl; c_bang] /\ images_after r2).
    { destruct r as [|[? ?|?|?|?|?|?|?] r]; [left; split; [reflexivity|exact Li]|right; eauto 8|..]; try destruct Li. }
    clear Li. destruct X as [[-> ->]|(t2 & u2 & r2 & -> & -> & Li)].
    + rewrite image_pars in H, He. change (u_pars [PText [c_nl]]) with [raw c_nl] in *. rewrite (He (ex_intro _ _ eq_refl)) in H. rewrite app_nil_r in H.
      destruct (image_units _ n _ _ _ _ H G ltac:(right; reflexivity)) as (t0 & ts1 & ts2 & t1 & t3 & -> & E1 & E2 & E3). destruct (cov_eol _ _ _ _ E1 eq_refl) as (e & r3 & -> & F1 & F2 & F3 & F4).
      apply cov_nil_inv in F4. subst r3. unfold is_eol in E3. rewrite F1 in E3. change (kind_eqb Eol Eol) with true in E3. cbn match in E3. destruct m as [|m]; [lia|]. cbn [fimages_loop]. rewrite E3.
      destruct m as [|m]; [cbn [List.length] in Hm; rewrite app_length in Hm; cbn [List.length] in Hm; lia|]. cbn [fimages_loop]. eauto.
    + rewrite image_pars, image_pars_nl, <- app_assoc in H. cbn [app] in H.
      destruct (image_units _ n _ _ _ _ H G ltac:(right; reflexivity)) as (t0 & ts1 & ts2 & t1 & t3 & -> & E1 & E2 & E3).
      destruct (cov_eol _ _ _ _ E1 ltac:(rewrite image_pars; reflexivity)) as (e & r3 & -> & F1 & F2 & F3 & F4). unfold is_eol in E3. rewrite F1 in E3. change (kind_eqb Eol Eol) with true in E3. cbn match in E3.
      destruct m as [|m]; [lia|]. cbn [fimages_loop]. rewrite E3. cbn [List.length] in Hm. rewrite app_length in Hm. cbn [List.length] in Hm.
      destruct (IH (PText [c_bang] :: PAnchor t2 u2 :: r2) m true r3 B) as (x & k & rr & I1); [cbn [List.length] in *; lia|exact Hn|split; [reflexivity|exact Li]| |exact F4|exact TB| |lia|rewrite I1; eauto].
      * inversion Tr as [|? ? _ Tr']; subst. constructor; [|exact Tr']. split; [discriminate|]. cbn. intros [X|[]]; discriminate X.
      * intros E. apply He. rewrite image_pars, image_pars_nl. destruct E as (q & E). exists (uimage (u_title t, u_dest u) ++ raw c_nl :: q). rewrite E, <- app_assoc. reflexivity.
Qed.

(** The units of a text before other nodes. *)
Lemma text_first : forall coll x r, tame_inlines coll (PText x :: r) -> u_pars (PText x :: r) = u_text x ++ u_pars r /\ (r = [] \/ hd_in delims (u_pars r)).
Proof.
  intros coll x r T. split; [reflexivity|]. destruct T as (_ & T & _). destruct r as [|p r]; [left; reflexivity|right]. apply u_pars_hd. destruct T as [T _]. destruct p; try reflexivity. discriminate T.
Qed.
Lemma like_heading_at : forall coll n l B, tame_inlines coll l -> l <> [] -> like_heading (first_text l) -> stail n B -> heading_at (u_lead (u_pars l) ++ B) = true /\ exists r, u_lead (u_pars l) = raw c_hash :: r.
Proof.
  intros coll n l B T NE [L1 L2] TB. assert (NBc : forall c, c <> c_nl -> raw_at c B = false) by (intros; apply (stail_not n); assumption).
  destruct l as [|[? ?|?|?|?|x|?|?] r]; cbn [first_text] in *; try (cbn in L1; lia). destruct (text_first coll x r T) as [E Sh].
  assert (LH : lead c_hash (u_pars (PText x :: r)) = leading c_hash x).
  { rewrite E, lead_off by (apply hd_or_nil; [exact Sh|nodel]). rewrite lead_chars by nochar. rewrite u_text_chars. reflexivity. }
  assert (Le : leading c_hash x <= List.length (u_text x)) by (rewrite <- LH, E, lead_off by (apply hd_or_nil; [exact Sh|nodel]); apply lead_le).
  assert (LS : lead c_space (skipn (leading c_hash x) (u_pars (PText x :: r))) = 1).
  { rewrite E, skipn_off by exact Le. rewrite lead_off by (apply hd_or_nil; [exact Sh|nodel]). rewrite lead_chars by (intros X; apply skipn_in in X; revert X; nochar). rewrite chars_skipn, u_text_chars. exact L2. }
  destruct (lead_ge1 c_hash _ ltac:(rewrite LH; lia)) as (r1 & E1 & F1). destruct (lead_ge1 c_hash r1 ltac:(lia)) as (r2 & E2 & _).
  assert (UL : u_lead (u_pars (PText x :: r)) = u_pars (PText x :: r)) by (unfold u_lead; rewrite E1, E2; reflexivity).
  rewrite UL. split; [|rewrite E1; eauto]. unfold heading_at. rewrite lead_off by (apply NBc; discriminate). rewrite LH. rewrite skipn_off by (rewrite E, app_length; lia). rewrite lead_off by (apply NBc; discriminate). rewrite LS.
  rewrite (proj2 (Nat.leb_le _ _)) by lia. rewrite (proj2 (Nat.leb_le _ _)) by lia. reflexivity.
Qed.
Lemma fheading_some : forall s t ts us st, cov s true (t :: ts) us -> heading_at us = true -> exists o k r, fheading st (t :: ts) = Some (Node NHeading o k [], r).
Proof.
  intros s t ts us st H L. unfold heading_at in L. apply andb_true_iff in L. destruct L as [L L3]. apply andb_true_iff in L. destruct L as [L1 L2]. apply Nat.leb_le in L1, L2. apply Nat.eqb_eq in L3.
  destruct (lead_split c_hash us) as [E HR]. set (R := skipn (lead c_hash us) us) in *. destruct (lead c_hash us) as [|k] eqn:K; [lia|]. clearbody R. rewrite E in H.
  destruct (cov_runs _ _ _ c_hash Hash k R H eq_refl ltac:(left; discriminate) HR) as (t' & ts' & Et & E1 & E2 & E3 & E4 & E5). injection Et as <- <-.
  destruct (lead_split c_space R) as [F HR2]. rewrite L3 in F, HR2. set (R2 := skipn 1 R) in *. clearbody R2. rewrite F in E5. destruct (cov_runs _ _ _ c_space Space 0 R2 E5 eq_refl ltac:(left; discriminate) HR2) as (t2 & ts2 & -> & G1 & G2 & G3 & G4 & G5).
  unfold fheading. assert (X : is_hash t && is_space_1 t2 = true).
  { unfold is_hash, is_space_1. rewrite E1, E2, E3, G1, G3. rewrite (proj2 (Nat.leb_le _ _)) by lia. reflexivity. }
  rewrite X. destruct (fitems fanchor (S (List.length ts2)) st [] ts2) as [k' r']. eauto.
Qed.

(** A mild block whose text is read back as the block itself is settled. *)
Definition conv (n : nat) (y : ynode) : Prop :=
  forall s ts B fuel x r, cov s true ts (u_block y ++ B) -> stail n B -> (ends c_nl (u_block y) -> B = []) -> List.length ts <= fuel ->
  fblock fuel (cst n) ts = (x, r) -> blocks s x = [y] -> settled_block y.

Lemma paragraph_conv : forall coll n l, mild_block coll (YParagraph l) -> (n <> 0 -> coll = true) -> conv n (YParagraph l).
Proof.
  intros coll n l [NE T] Hn s ts B fuel x r H TB He Hf E Bx. cbn [u_block] in H, He.
  pose proof (more_ne _ _ _ (u_lead_more (u_pars l)) (u_pars_ne _ _ T NE)) as NU. assert (NU' : u_lead (u_pars l) ++ B <> []) by (destruct (u_lead (u_pars l)); [congruence|discriminate]).
  destruct (cov_cons_inv _ _ _ _ H NU') as (t & ts' & ->). split.
  - intros L. destruct (like_heading_at coll n l B T NE L TB) as [Hh (q & Eq)]. rewrite Eq in H, Hh. cbn [app] in *.
    rewrite (fblock_simple _ _ _ _ _ _ _ H) in E by reflexivity. unfold fsimple, forelse in E. rewrite (flist0_none _ _ _ _ _ H) in E by (discriminate || reflexivity).
    rewrite (fimages_none _ _ _ _ _ _ H) in E by reflexivity. rewrite (fbreak_none _ _ _ _ _ _ H) in E by reflexivity.
    destruct (fheading_some s t ts' _ (StopTerminator :: cst n) H Hh) as (o & k & r' & Eh). rewrite Eh in E. injection E as <- _. discriminate Bx.
  - intros L. assert (X : exists t' u r', l = PText [c_bang] :: PAnchor t' u :: r').
    { destruct l as [|[? ?|?|?|?|y|?|?] [|[t' u|?|?|?|?|?|?] r']]; try destruct L as [-> L]; try destruct L. eauto. }
    destruct X as (t' & u & r' & El). assert (EU : u_lead (u_pars l) = u_pars l) by (rewrite El, image_pars; reflexivity). rewrite EU in *. assert (ER : exists w, u_pars l ++ B = raw c_bang :: raw c_lsquare :: w) by (rewrite El, image_pars; eexists; reflexivity).
    destruct ER as (w & ER). pose proof H as H0. rewrite ER in H0. rewrite (fblock_simple _ _ _ _ _ _ _ H0) in E by reflexivity. unfold fsimple, forelse in E. rewrite (flist0_none _ _ _ _ _ H0) in E by (discriminate || reflexivity).
    destruct (loop_some s n coll (List.length l) l (S (List.length (t :: ts'))) true (t :: ts') B (le_n _) Hn L (proj1 T) H TB He ltac:(lia)) as (y & k & r0 & EL).
    assert (F : fimages (StopTerminator :: cst n) (t :: ts') <> None) by (unfold fimages; rewrite EL; destruct k; discriminate).
    destruct (fimages (StopTerminator :: cst n) (t :: ts')) as [[y' r1]|] eqn:EI; [|congruence]. injection E as -> ->. apply fimages_wf in EI; [|left; reflexivity]. destruct EI as [_ [(o & k' & c & ->)|(o & k' & c & ->)]]; discriminate Bx.
Qed.

(** ** Code *)

Lemma code_conv : forall coll n lang code, mild_block coll (YCode lang code) -> conv n (YCode lang code).
Proof.
  intros coll n lang code (M1 & M2 & M3) s ts B fuel x r H TB _ Hf E Bx (c' & EC). cbn [u_block] in H. unfold u_codeblock in H. rewrite <- !app_assoc in H.
  assert (A1 : absent c_nl (u_lang lang)) by (unfold u_lang; keeps). assert (A2 : absent c_backtick (u_lang lang)) by (unfold u_lang; keeps).
  assert (X : exists uc', u_code code = raw c_nl :: uc' /\ chars uc' = c').
  { pose proof (u_code_chars code) as C. rewrite EC in C. destruct (u_code (c_nl :: c')) as [|[e d] uc'] eqn:U; [discriminate|]. injection C as -> C. exists uc'. rewrite EC, U. destruct e; [|auto]. exfalso.
    assert (Y : In (escd c_nl) (u_code (c_nl :: c'))) by (rewrite U; left; reflexivity). revert Y. unfold u_code, fences. intros Y. apply escd_umark in Y. destruct Y as [Y|Y]; [apply u0_escd in Y; discriminate|]. cbn in Y. repeat (destruct Y as [Y|Y]; [discriminate|]). destruct Y. }
  destruct X as (uc & EU & Cu). pose proof (fences_left (u0 code)) as FL. fold (u_code code) in FL. rewrite EU in FL.
  assert (He : ~ ends c_nl uc) by (intros (q & Q); apply M3; rewrite EC, <- Cu, Q, chars_app; exists (c_nl :: chars q); reflexivity).
  assert (Hfe : fenced uc).
  { intros a b Q. subst uc. destruct (FL (raw c_nl :: a) b eq_refl) as (a' & u & Q1 & Q2). destruct a' as [|v a']; [injection Q1 as <- _; discriminate|]. injection Q1 as _ ->. eauto. }
  rewrite EU in H. set (ul := u_lang lang) in *.
  assert (NB : raw_at c_backtick (ul ++ [raw c_nl] ++ (raw c_nl :: uc) ++ [raw c_nl] ++ fence ++ B) = false).
  { destruct ul as [|u ul']; [reflexivity|]. apply (absent_raw_at c_backtick (u :: ul') A2). }
  destruct (cov_runs _ _ _ c_backtick Backtick 2 _ H eq_refl ltac:(left; discriminate) NB) as (t & ts' & -> & E1 & E2 & E3 & E4 & E5). change (aft true (repeat (raw c_backtick) 3)) with false in E5.
  assert (Bt : is_backtick3 t = true) by (unfold is_backtick3; rewrite E1, E2, E3; reflexivity).
  change (ul ++ [raw c_nl] ++ (raw c_nl :: uc) ++ [raw c_nl] ++ fence ++ B) with (ul ++ [raw c_nl; raw c_nl] ++ uc ++ [raw c_nl] ++ fence ++ B) in E5.
  destruct (modifier_units s [] ts' ul [raw c_nl; raw c_nl] _ E5 A1 ltac:(right; reflexivity) ltac:(apply calm_none) eq_refl) as (b & c & r1 & G1 & G2 & G3 & G4). rewrite app_assoc in G4.
  destruct (code_body s n r1 uc (uc ++ [raw c_nl]) B G4 ltac:(right; reflexivity) He Hfe TB) as (b2 & c2 & r2 & cl & rest & Y1 & Y2 & Y3 & Y4 & Y5 & Y6).
  assert (Ff : ffence (t :: ts') = Some ([t], ts')).
  { unfold ffence. cbn [fseq]. rewrite Bt. destruct (cov_cons_inv _ _ _ _ E5) as (w & ts2 & ->); [destruct ul; discriminate|]. replace (is_eol w) with false; [reflexivity|]. symmetry. unfold is_eol. rewrite (eol_test _ _ _ _ _ E5).
    destruct ul as [|u ul']; [reflexivity|]. rewrite (raw_app c_nl (u :: ul')) by discriminate. rewrite (absent_raw_at _ _ A1). reflexivity. }
  unfold fblock, fcode in E. rewrite Ff in E. cbn [last] in E. unfold is_eol in E. rewrite E1 in E. change (kind_eqb Backtick Eol) with false in E. cbn [negb] in E. rewrite G1 in E. cbn [opt_tree] in E. rewrite Y1, Y2 in E. injection E as <- _.
  cbn [blocks app] in Bx. rewrite child_text_hd in Bx. cbn [text_or_empty inner flat_map] in Bx. rewrite !app_nil_r, Y5 in Bx. injection Bx as _ Bx. rewrite chars_app in Bx. change (chars [raw c_nl]) with [c_nl] in Bx. rewrite trim_end_nl, trim_end_keep in Bx.
  - apply (f_equal (@List.length _)) in Bx. rewrite EC, <- Cu in Bx. cbn [List.length] in Bx. lia.
  - intros (q & Q). apply M3. rewrite EC, <- Cu, Q. exists (c_nl :: q). reflexivity.
Qed.
