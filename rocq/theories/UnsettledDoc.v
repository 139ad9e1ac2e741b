(** Collapsibles and documents that [Display] does not keep. *)
From Coq Require Import String.
From Verif Require Import Base Lexer LexSpec LexProofs LexFacts Ops Parser FParser Refine Refine2 Refine3 Wf Lines TokFacts ToYamd TreeAst Ast Api StreamSpec AstSpec Tame Settled Mild Units ULex Stops Inline LinkUnits AstUnits Calm Blocks Docs Highlight Lists UBlocks UList UDocs Unsettled UnsettledHl.
From Verif Require RawAst.
Open Scope list_scope.

(** ** The first block of a document *)

Lemma fcoll_first : forall s n st t r ts', fcollapsible n st (t :: r) = CFail ts' -> exists t' r', ts' = t' :: r' /\ ttext s t' = ttext s t.
Proof.
  intros s n st t r ts' H. destruct n as [|n]; [injection H as <-; eauto|]. cbn [fcollapsible] in H. destruct (fseq [is_collapsible_start; is_space_or_eol] (t :: r)) as [[o r0]|] eqn:Q; [|injection H as <-; eauto].
  assert (Ho : exists t2, o = [t; t2]) by (cbn [fseq] in Q; destruct (is_collapsible_start t); [|discriminate]; destruct r as [|t2 r]; [discriminate|]; destruct (is_space_or_eol t2); [|discriminate]; injection Q as <- _; eauto). destruct Ho as (t2 & ->).
  destruct (opt_tree (fmodifier st r0) r0) as [k1 r1]. destruct (nth_is 0 col0 r1); [|injection H as <-; cbn [flip_head]; eexists _, _; split; reflexivity].
  destruct (fdoc n (StopCollapsibleEnd :: st) r1) as [k2 r2]. destruct (match r2 with e :: r3 => if is_eol e then ([Skip [e]], r3) else ([], r2) | [] => ([], r2) end) as [k3 r3].
  destruct (fcollapsible_end r3) as [[c rest]|]; [discriminate|]. injection H as <-. cbn [flip_head app]. eexists _, _. split; reflexivity.
Qed.
Lemma fblock_first : forall s n st t r x r' l c y, fblock n st (t :: r) = (x, r') -> blocks s x = [YParagraph l] -> ttext s t = c :: y -> c <> c_nl -> leading c_nl (first_text l) = 0.
Proof.
  intros s n st t r x r' l c y H Bx T Hc. unfold fblock in H.
  destruct (fcode st (t :: r)) as [[z r1]|] eqn:E1; [injection H as -> ->; apply makes_code in E1; destruct E1 as [_ (o & k & c0 & ->)]; discriminate Bx|].
  destruct (fcollapsible n st (t :: r)) as [z r1|ts'] eqn:E2; [injection H as -> ->; apply (proj2 (docs_wf n)) in E2; destruct E2 as [_ (o & k & c0 & ->)]; discriminate Bx|].
  destruct (forelse fembed fhighlight st ts') as [[z r1]|] eqn:E3.
  { injection H as -> ->. apply forelse_some in E3. destruct E3 as [E3|E3]; [apply makes_embed in E3|apply makes_highlight in E3]; destruct E3 as [_ (o & k & c0 & ->)]; discriminate Bx. }
  destruct (fcoll_first s _ _ _ _ _ E2) as (t' & r2 & -> & T'). rewrite T in T'. unfold fsimple in H.
  destruct (forelse flist0 (forelse fimages (forelse fbreak fheading)) (StopTerminator :: st) (t' :: r2)) as [[z r1]|] eqn:E.
  - exfalso. injection H as -> ->. apply forelse_some in E. destruct E as [E|E]; [apply flist0_wf in E; [destruct E as [_ (lk & k & -> & _)]; destruct lk; discriminate Bx|left; reflexivity]|].
    apply forelse_some in E. destruct E as [E|E]; [apply fimages_wf in E; [destruct E as [_ [(o & k & c0 & ->)|(o & k & c0 & ->)]]; discriminate Bx|left; reflexivity]|].
    apply forelse_some in E. destruct E as [E|E]; [apply makes_break in E; destruct E as [_ (o & k & c0 & ->)]; discriminate Bx|].
    apply fheading_wf in E; [destruct E as [_ (o & k & c0 & ->)]; discriminate Bx|left; reflexivity].
  - pose proof (fparagraph_app _ _ _ _ H) as A. destruct (par_kids _ _ _ _ H) as (k & -> & It). cbn [blocks] in Bx. injection Bx as <-.
    destruct k as [|z k]; [reflexivity|]. destruct z as [l|l|m o k' c0]; [|destruct It|destruct It as [It _]; destruct m; try discriminate It; reflexivity].
    cbn [pars_of flat_map par_of app first_text]. destruct It as [Nl _]. destruct l as [|w' l]; [congruence|]. cbn [yield app flat_map] in A. injection A as <- _.
    unfold ttexts. cbn [flat_map]. rewrite T'. cbn [app leading]. destruct (char_eqb c c_nl) eqn:E'; [apply char_eqb_eq in E'; contradiction|reflexivity].
Qed.
Lemma fdoc_first : forall s b n m ts us l r, cov s b ts us -> us <> [] -> leading c_nl (chars us) = 0 -> flat_map (blocks s) (fst (fdoc m (cst n) ts)) = YParagraph l :: r -> leading c_nl (first_text l) = 0.
Proof.
  intros s b n m ts us l r H NE L E. destruct (cov_cons_inv _ _ _ _ H NE) as (t & ts' & ->). destruct m as [|m]; [discriminate E|]. rewrite fdoc_step in E. destruct (stopped (cst n) (t :: ts')); [discriminate E|].
  replace (is_terminator t) with false in E by (symmetry; unfold is_terminator; rewrite (term_test _ _ _ _ _ H); apply raw_raw2; exact (leading0_raw _ L)).
  destruct (fblock m (cst n) (t :: ts')) as [x r1] eqn:Fb. destruct (fdoc m (cst n) r1) as [k r2]. cbn [fst flat_map] in E. destruct (fblock_one s _ _ _ _ _ Fb) as (y & Ey). rewrite Ey in E. injection E as -> _.
  destruct (ttext_first _ _ _ _ _ H) as (u & q & z & -> & Tt). apply (fblock_first s _ _ _ _ _ _ _ _ _ Fb Ey Tt). intros X. cbn [chars leading] in L. rewrite X, char_eqb_refl in L. discriminate.
Qed.

(** ** Sequences of blocks *)

Lemma docs_conv : forall s n coll l m ts T, (n <> 0 -> coll = true) -> Forall (fun y => mild_block coll y /\ conv n y) l -> closed (map u_block l) -> (ends c_nl (u_block (last l YThematicBreak)) -> T = []) ->
  cov s true ts (ujoin (map u_block l) ++ T) -> dtail n T -> List.length ts < m -> flat_map (blocks s) (fst (fdoc m (cst n) ts)) = l -> Forall settled_block l.
Proof.
  intros s n coll l. induction l as [|y l IH]; intros m ts T Hn F Cl He H HT Hm E; [constructor|]. inversion F as [|? ? Fy Fl]; subst. destruct Fy as [My Cy]. pose proof (mild_starts _ _ My) as Sy.
  destruct m as [|m]; [lia|]. cbn [map ujoin] in H.
  assert (X : exists B, cov s true ts (u_block y ++ B) /\ stail n B /\ (ends c_nl (u_block y) -> B = [])
    /\ ((l = [] /\ B = T) \/ (l <> [] /\ B = raw c_nl :: raw c_nl :: ujoin (map u_block l) ++ T))).
  { destruct l as [|q l].
    - rewrite app_nil_r in H. exists T. split; [exact H|]. split; [apply dtail_stail; exact HT|]. split; [exact He|]. left. auto.
    - rewrite <- app_assoc in H. eexists. split; [exact H|]. split; [right; left; eexists; reflexivity|]. split; [|right; split; [discriminate|reflexivity]].
      intros Q. destruct Cl as [Cl _]. contradiction. }
  destruct X as (B & C & TB & HeB & HB). destruct (starts_stop n _ _ Sy TB HeB) as [S1 S2]. pose proof Sy as (NE & _).
  destruct (cov_cons_inv _ _ _ _ C) as (t & ts' & Et); [destruct (u_block y); [congruence|discriminate]|]. subst ts. rewrite fdoc_step in E. rewrite (stopped_units _ _ _ _ _ C), S1 in E. unfold is_terminator in E. rewrite (term_test _ _ _ _ _ C), S2 in E.
  destruct (fblock m (cst n) (t :: ts')) as [x r1] eqn:Fb. destruct (fdoc m (cst n) r1) as [k r2] eqn:Fd. cbn [fst flat_map] in E. destruct (fblock_one s _ _ _ _ _ Fb) as (y' & Ey). rewrite Ey in E. cbn [app] in E. injection E as -> E.
  pose proof (Cy s (t :: ts') B m x r1 C TB HeB ltac:(lia) Fb Ey) as Se. constructor; [exact Se|].
  destruct HB as [[-> _]|[NL ->]]; [constructor|].
  destruct (block_good y coll n (mild_settled _ _ My Se) Hn) as (_ & Pp & _). destruct (Pp s (t :: ts') _ m C TB HeB ltac:(lia)) as (x' & t' & ts1 & ts2 & P1 & P2 & _ & P4). rewrite Fb in P1. injection P1 as <- <-.
  destruct P4 as [P4|(_ & R & Q & _)]; [|discriminate Q]. destruct (cov_term _ _ _ _ P4) as (e & r3 & -> & F1 & F2 & F3 & F4).
  rewrite P2 in Hm. cbn [List.length] in Hm. rewrite app_length in Hm. cbn [List.length] in Hm. destruct m as [|m]; [lia|]. rewrite fdoc_step in Fd. rewrite (stopped_units _ _ _ _ _ P4) in Fd.
  rewrite cst_stop_false in Fd by (discriminate || (cbn; rewrite andb_false_r; reflexivity)). unfold is_terminator in Fd. rewrite F1 in Fd. change (kind_eqb Terminator Terminator) with true in Fd. cbn match in Fd.
  destruct (fdoc m (cst n) r3) as [k' r4] eqn:Fd'. injection Fd as <- _. cbn [flat_map blocks app] in E.
  apply (IH m r3 T Hn Fl); [| |exact F4|exact HT|lia|rewrite Fd'; exact E].
  - destruct l; [congruence|]. apply Cl.
  - destruct l; [congruence|]. exact He.
Qed.

(** ** Collapsibles *)

Lemma collapsible_conv : forall coll n title b, mild_block coll (YCollapsible title b) -> Forall (conv (S n)) b -> conv n (YCollapsible title b).
Proof.
  intros coll n title b ((L1 & L2 & L3) & Mb & Eb) Cb s ts B fuel x r H TB He Hf E Bx. apply mild_blocks in Mb. cbn [u_block] in H. rewrite <- !app_assoc in H.
  set (J := ujoin (map u_block b)) in *. set (ut := u_ctitle title) in *.
  assert (A1 : absent c_nl ut) by (unfold ut, u_ctitle, pp; apply keep_umark, absent_u0; exact L1).
  assert (A3 : raw_at c_space ut = false) by exact (begins_raw _ _ title (u_ctitle_chars title) L3).
  destruct b as [|m0 b]; [cbn; auto|]. assert (NJ : J <> []) by (unfold J; cbn [map ujoin]; inversion Mb as [|? ? M0 _]; subst; destruct (mild_starts _ _ M0) as (NE & _); destruct (u_block m0); [congruence|discriminate]).
  destruct (cov_step _ _ _ _ _ _ _ H (utok_cstart _)) as (t & ts' & -> & E1 & E2 & E3 & E4 & E5). cbn [line_end] in E5.
  assert (Nsp : raw_at c_space (ut ++ [raw c_nl] ++ J ++ [raw c_nl] ++ cend ++ B) = false) by (destruct ut; [reflexivity|exact A3]).
  destruct (cov_runs _ _ _ c_space Space 0 _ E5 eq_refl ltac:(left; discriminate) Nsp) as (t2 & ts2 & -> & F1 & F2 & F3 & F4 & F5). change (aft false (repeat (raw c_space) 1)) with false in F5.
  (* it was read as a collapsible *)
  assert (EC : fcollapsible fuel (cst n) (t :: t2 :: ts2) = CMatch x r).
  { unfold fblock in E. rewrite (fcode_none _ _ _ _ _ _ H) in E by reflexivity. destruct (fcollapsible fuel (cst n) (t :: t2 :: ts2)) as [z r1|ts'] eqn:E0; [congruence|]. exfalso.
    destruct (forelse fembed fhighlight (cst n) ts') as [[z r1]|] eqn:E9.
    - injection E as -> ->. apply forelse_some in E9. destruct E9 as [E9|E9]; [apply makes_embed in E9|apply makes_highlight in E9]; destruct E9 as [_ (o & k & c0 & ->)]; discriminate Bx.
    - apply fsimple_root in E. destruct x as [l|l|m o k c]; try contradiction. destruct m; try contradiction; discriminate Bx. }
  clear E. cbn [List.length] in Hf. destruct fuel as [|m]; [lia|]. cbn [fcollapsible fseq] in EC.
  replace (is_collapsible_start t) with true in EC by (unfold is_collapsible_start; rewrite E1, E2; reflexivity).
  replace (is_space_or_eol t2) with true in EC by (unfold is_space_or_eol; rewrite F1; reflexivity).
  (* the title line *)
  inversion Mb as [|? ? M0 Mb']; subst. pose proof (mild_starts _ _ M0) as (NE & S1 & S2 & S3).
  assert (PJ : raw2_at c_percent c_rcurly (J ++ [raw c_nl] ++ cend ++ B) = false).
  { unfold J. cbn [map ujoin]. destruct (raw2_at c_percent c_rcurly ((u_block m0 ++ match map u_block b with [] => [] | _ :: _ => raw c_nl :: raw c_nl :: ujoin (map u_block b) end) ++ [raw c_nl] ++ cend ++ B)) eqn:Q; [|reflexivity].
    rewrite <- app_assoc in Q. apply raw2_app in Q; [|exact NE]. destruct Q as [Q|[_ Q]]; [congruence|]. destruct (map u_block b); discriminate Q. }
  assert (Mod : forall E R, [raw c_nl] ++ J ++ [raw c_nl] ++ cend ++ B = E ++ R -> eol_pat E R -> ustop (cst n) (aft false ut) (E ++ R) = false ->
     exists r1 k2 r2, cov s true r1 R /\ fdoc m (cst (S n)) r1 = (k2, r2) /\ flat_map (blocks s) k2 = m0 :: b /\ List.length r1 < m).
  { intros E R X1 X2 X4. rewrite X1 in F5. destruct (modifier_units s (cst n) ts2 ut E R F5 A1 X2) as (b1 & c1 & r1 & G1 & G2 & G3 & G4); [apply line_calm0; exact A1|exact X4|].
    rewrite G1 in EC. cbn [opt_tree] in EC. destruct (nth_is 0 col0 r1); [|discriminate EC]. change (StopCollapsibleEnd :: cst n) with (cst (S n)) in EC. destruct (fdoc m (cst (S n)) r1) as [k2 r2] eqn:Fd.
    assert (Z : exists k3 r3, match r2 with e :: r3 => if is_eol e then ([Skip [e]], r3) else ([], r2) | [] => ([], r2) end = (k3, r3) /\ (k3 = [] \/ exists e, k3 = [Skip [e]])).
    { destruct r2 as [|e r3]; [eexists _, _; split; [reflexivity|left; reflexivity]|]. destruct (is_eol e); eexists _, _; (split; [reflexivity|]); eauto. }
    destruct Z as (k3 & r3 & Z1 & Z2). rewrite Z1 in EC. destruct (fcollapsible_end r3) as [[c rest]|]; [|discriminate EC]. injection EC as <- <-.
    exists r1, k2, r2. split; [exact G4|]. split; [exact Fd|]. split.
    - cbn [blocks app flat_map] in Bx. injection Bx as _ Bx. 
      replace (flat_map (fun d => match d with Node NDocument _ k4 _ => flat_map (blocks s) k4 | _ => [] end) k3) with (@nil ynode) in Bx by (destruct Z2 as [->|(e & ->)]; reflexivity).
      rewrite app_nil_r in Bx. exact Bx.
    - rewrite G2, app_length in Hf. cbn [List.length] in Hf. lia. }
  destruct (raw_at c_nl (u_block m0)) eqn:RJ.
  - exfalso. pose proof (starts_nl_raw _ _ M0 RJ) as SN. destruct m0 as [l| | | | | | | | |]; try contradiction. cbn [block_starts_nl] in SN. destruct M0 as [Nl Tl]. inversion Eb as [|? ? Eb0 _]; subst.
    destruct (led_units true l (u_lead (u_pars l)) Nl Tl) as (w & W & Nw & Lw); [|exact SN|apply u_lead_more|].
    { intros ->. apply Eb0. cbn. exists 0. reflexivity. }
    assert (EJ : exists R, J ++ [raw c_nl] ++ cend ++ B = raw c_nl :: w ++ R) by (unfold J; cbn [map ujoin u_block]; rewrite W, <- app_assoc; cbn [app]; eexists; reflexivity). destruct EJ as (R & EJ).
    destruct (Mod [raw c_nl; raw c_nl] (w ++ R)) as (r1 & k2 & r2 & C1 & D1 & D2 & _); [cbn [app]; cbn [app] in EJ; rewrite EJ; reflexivity|right; reflexivity| |].
    { apply cst_stop_false; [discriminate|]. cbn. rewrite andb_false_r. reflexivity. }
    assert (X : leading c_nl (first_text l) = 0); [|congruence].
    refine (fdoc_first s true (S n) m r1 (w ++ R) l b C1 _ _ _); [destruct w; [congruence|discriminate]|rewrite chars_app; apply leading0_app; [destruct w; [congruence|discriminate]|exact Lw]|]. rewrite D1. exact D2.
  - assert (RJJ : raw_at c_nl (J ++ [raw c_nl] ++ cend ++ B) = false) by (rewrite raw_at_app by exact NJ; unfold J; cbn [map ujoin]; rewrite raw_at_app by exact NE; exact RJ).
    destruct (Mod [raw c_nl] (J ++ [raw c_nl] ++ cend ++ B)) as (r1 & k2 & r2 & C1 & D1 & D2 & Lr); [reflexivity|left; split; [reflexivity|exact RJJ]| |].
    { apply (line_stop n); assumption. }
    assert (FS : Forall settled_block (m0 :: b)).
    { apply (docs_conv s (S n) true (m0 :: b) m r1 (raw c_nl :: cend ++ B)); [reflexivity| | | |exact C1|right; split; [discriminate|]; exists B; reflexivity|exact Lr|rewrite D1; exact D2].
      - rewrite Forall_forall in *. intros y Hy. split; [exact (Mb y Hy)|exact (Cb y Hy)].
      - clear - Eb Mb. revert m0 Eb Mb. induction b as [|q b IHb]; intros m0 Eb Mb; [exact I|]. inversion Eb; subst. inversion Mb; subst. split; [|apply IHb; assumption]. intros X. eapply H1. eapply u_block_ends; eassumption.
      - intros X. exfalso. rewrite Forall_forall in Eb, Mb. assert (In (last (m0 :: b) YThematicBreak) (m0 :: b)) as HI by (clear; revert m0; induction b as [|q b IH]; intros p; [left; reflexivity|right; exact (IH q)]).
        exact (Eb _ HI (u_block_ends _ _ (Mb _ HI) X)). }
    split.
    + clear - FS. revert FS. generalize (m0 :: b). intros l FS. induction FS; [exact I|]. split; assumption.
    + intros SN. destruct m0 as [l| | | | | | | | |]; try contradiction. cbn [block_starts_nl] in SN. destruct M0 as [Nl Tl]. inversion Eb as [|? ? Eb0 _]; subst.
      destruct (led_units true l (u_lead (u_pars l)) Nl Tl) as (w & W & Nw & Lw); [|exact SN|apply u_lead_more|].
      { intros ->. apply Eb0. cbn. exists 0. reflexivity. }
      cbn [u_block] in RJ. rewrite W in RJ. discriminate RJ.
Qed.

Lemma block_conv : forall y coll n, mild_block coll y -> single_block y -> (n <> 0 -> coll = true) -> conv n y.
Proof.
  fix IH 1. intros y coll n M S Hn. destruct y as [l|k l|i|l|lang code|l|t i ps| |kind args|title b]; try (intros s ts B fuel x r H TB He Hf E Bx; exact I).
  - exact (paragraph_conv coll n l M Hn).
  - exact (code_conv coll n lang code M).
  - exact (highlight_conv coll n t i ps M S Hn).
  - apply (collapsible_conv coll n title b M). destruct M as (_ & M & _). cbn [single_block] in S. induction b as [|m b IHb]; [constructor|]. destruct M as [M1 M2], S as [S1 S2].
    constructor; [exact (IH m true (Datatypes.S n) M1 S1 (fun _ => eq_refl))|exact (IHb M2 S2)].
Qed.

(** ** Documents *)

Lemma docs_conv0 : forall s b m ts, Forall (RawAst.mild false) b -> closed_body b -> cov s true ts (u_body b) -> List.length ts < m -> flat_map (blocks s) (fst (fdoc m [] ts)) = b -> Forall settled_block b.
Proof.
  intros s b m ts M C H Hm E. apply (docs_conv s 0 false b m ts []); [congruence| | |reflexivity|rewrite app_nil_r; exact H|left; reflexivity|exact Hm|exact E].
  - eapply Forall_impl; [|exact M]. intros y [M1 M2]. split; [exact M1|]. apply (block_conv y false 0 M1 M2). congruence.
  - clear - M C. induction b as [|m b IH]; [exact I|]. inversion M as [|? ? Mm Mb]; subst. destruct b as [|m2 b]; [exact I|]. destruct C as [C1 C2]. destruct Mm as [Mm _].
    split; [|exact (IH Mb C2)]. intros X. exact (C1 (u_block_ends m false Mm X)).
Qed.
Lemma plain_conv : forall b, Forall (RawAst.mild false) b -> closed_body b -> document_of (render (u_body b)) = mk_yamd None b -> Forall settled_block b.
Proof.
  intros b M C E.
  assert (Mb : Forall (mild_block false) b) by (eapply Forall_impl; [|exact M]; intros y [M1 _]; exact M1).
  assert (Hf : fine (u_body b)) by (apply ujoin_fine, Forall_map; eapply Forall_impl; [|exact Mb]; intros y; apply mild_fine).
  pose proof (cov_tokens _ Hf) as H. unfold document_of in E. set (s := render (u_body b)) in *. set (ts := spec_tokens s) in *.
  assert (Mn : fmetadata [] ts = None).
  { destruct ts as [|t ts']; [reflexivity|]. unfold fmetadata. apply fdelim_none. unfold is_three_dashes. rewrite swap3.
    rewrite (ktest _ _ _ _ _ c_minus Minus 3 H eq_refl); [reflexivity|lia|left; discriminate|]. destruct b as [|y b]; [reflexivity|]. inversion Mb as [|? ? My _]; subst. unfold u_body. cbn [map ujoin]. rewrite lead_off by (destruct (map u_block b); reflexivity). exact (lead3_block y false My). }
  unfold fparse in E. rewrite Mn in E. cbn [opt_tree app] in E. destruct (fdoc (3 * List.length ts + 5) [] ts) as [k r] eqn:Fd.
  apply (docs_conv0 s b (3 * List.length ts + 5) ts M C H); [lia|]. rewrite Fd. cbn [fst]. unfold doc_of in E. assert (Eb : body_of s [Node NDocument [] k []] = b) by (change (body (mk_yamd (option_map (trim_both c_nl) (child_text s NMetadata [Node NDocument [] k []])) (body_of s [Node NDocument [] k []])) = b); rewrite E; reflexivity).
  unfold body_of in Eb. cbn [flat_map] in Eb. rewrite app_nil_r in Eb. exact Eb.
Qed.
Lemma meta_conv : forall W b, let us := dash3 ++ W ++ dash3 ++ raw c_nl :: raw c_nl :: u_body b in fine us -> Forall (RawAst.mild false) b -> closed_body b ->
  raw_at c_minus W = false -> ends c_nl W -> (forall A1 A2, W = A1 ++ A2 -> A2 <> [] -> aft false A1 = true -> (lead c_minus A2 =? 3) = false) ->
  forall x, document_of (render us) = mk_yamd x b -> Forall settled_block b.
Proof.
  intros W b us Hf M C H0 (W0 & EW) HW x E. pose proof (cov_tokens us Hf) as H. unfold document_of in E. set (s := render us) in *. set (ts := spec_tokens s) in *. unfold us in H.
  assert (Hd : raw_at c_minus (W ++ dash3 ++ raw c_nl :: raw c_nl :: u_body b) = false) by (destruct W; [destruct W0; discriminate|exact H0]).
  destruct (cov_runs _ _ _ c_minus Minus 2 _ H eq_refl ltac:(left; discriminate) Hd) as (t & ts' & Ets & E1 & E2 & E3 & E4 & E5). change (aft true (repeat (raw c_minus) 3)) with false in E5.
  destruct (until_close s [] is_three_dashes W false ts' dash3 (raw c_nl :: raw c_nl :: u_body b) Minus E5) as (b1 & c & r2 & F1 & F2 & F3 & F4 & F5 & F6).
  - apply seam_special; try reflexivity; try discriminate. rewrite EW. intros (r & Er). apply app_inj_tail in Er. destruct Er as [_ Er]. discriminate.
  - apply calm_none.
  - intros A1 A2 w ts2 EA NA Cw. unfold is_three_dashes. rewrite swap3. destruct (aft false A1) eqn:Ea; [|rewrite (cov_col0 _ _ _ _ _ Cw); apply andb_false_r].
    rewrite (ktest _ _ _ _ _ c_minus Minus 3 Cw eq_refl); [reflexivity|lia|left; discriminate|]. specialize (HW A1 A2 EA NA Ea).
    assert (La : forall X, lead c_minus (A2 ++ X) = lead c_minus A2); [|rewrite La; exact HW].
    { intros X. destruct A2 as [|a A2 _] using rev_ind; [congruence|]. rewrite EW, app_assoc in EA. apply app_inj_tail in EA. destruct EA as [_ <-]. clear. rewrite <- app_assoc.
      induction A2 as [|a A2 IH]; [reflexivity|]. cbn [app lead]. destruct (negb (fst a) && char_eqb (snd a) c_minus); [cbn in IH; rewrite IH; reflexivity|reflexivity]. }
  - apply (delim_run c_minus Minus 2); [reflexivity|discriminate|reflexivity].
  - intros w K C0 L. unfold is_three_dashes. rewrite K, C0, L, EW, aft_app. reflexivity.
  - reflexivity.
  - cbn [line_end] in F6. assert (Mt : fmetadata [] ts = Some (Node NMetadata [t] [Leaf b1] [c], r2)).
    { rewrite Ets. unfold fmetadata, fdelim. replace (is_three_dashes t) with true by (unfold is_three_dashes; rewrite E1, E2, E3; reflexivity). rewrite F1. reflexivity. }
    unfold fparse in E. rewrite Mt in E. cbn [opt_tree app] in E. destruct (cov_term _ _ _ _ F6) as (e & r3 & -> & G1 & G2 & G3 & G4).
    replace (3 * List.length (e :: r3) + 5) with (S (3 * List.length r3 + 7)) in E by (cbn [List.length]; lia). rewrite fdoc_step in E. cbn [stopped existsb] in E. unfold is_terminator in E. rewrite G1 in E. change (kind_eqb Terminator Terminator) with true in E. cbn match in E.
    destruct (fdoc (3 * List.length r3 + 7) [] r3) as [k r4] eqn:Fd.
    apply (docs_conv0 s b (3 * List.length r3 + 7) r3 M C G4); [lia|]. rewrite Fd. cbn [fst]. apply (f_equal body) in E. unfold doc_of in E. cbn [body] in E. unfold body_of in E. cbn [flat_map blocks app] in E. rewrite app_nil_r in E. exact E.
Qed.

Theorem raw_conv : forall y, RawAst.mild_doc y -> document_of (display_yamd y) = y -> settled y.
Proof.
  intros [m b] (Tm & Mb & Cb) E. cbn [metadata body] in *. unfold settled. cbn [body].
  assert (M1 : Forall (mild_block false) b) by (eapply Forall_impl; [|exact Mb]; intros y [M1 _]; exact M1).
  assert (Hf : fine (u_body b)) by (apply ujoin_fine, Forall_map; eapply Forall_impl; [|exact M1]; intros y; apply mild_fine).
  unfold display_yamd in E. cbn [metadata body] in E. rewrite (display_body_units b M1) in E. destruct m as [m|].
  - destruct Tm as (T1 & T2 & T3 & T4 & T5). rewrite (ends_char_false m T4) in E. set (W := raw c_nl :: bare m ++ [raw c_nl]).
    assert (R : (s_ "---" ++ nl ++ m ++ nl ++ s_ "---" ++ nlnl ++ render (u_body b))%list = render (dash3 ++ W ++ dash3 ++ raw c_nl :: raw c_nl :: u_body b)).
    { unfold W. change (raw c_nl :: bare m ++ [raw c_nl]) with ([raw c_nl] ++ bare m ++ [raw c_nl]). change (raw c_nl :: raw c_nl :: u_body b) with ([raw c_nl; raw c_nl] ++ u_body b).
      rewrite !render_app, render_bare. rewrite <- !app_assoc. reflexivity. }
    apply (meta_conv W b) with (x := Some m); [|exact Mb|exact Cb|reflexivity|exists (raw c_nl :: bare m); reflexivity|exact (meta_lines m T5)|etransitivity; [apply f_equal; symmetry; exact R|exact E]].
    apply fine_app. split; [apply fine_lit; reflexivity|]. apply fine_app. split.
    + unfold W. change (raw c_nl :: bare m ++ [raw c_nl]) with ([raw c_nl] ++ bare m ++ [raw c_nl]). apply fine_app. split; [apply fine_lit; reflexivity|]. apply fine_app. split; [|apply fine_lit; reflexivity].
      split; [apply valid_bare; exact T1|]. intros X. apply T2. rewrite <- (chars_bare m). apply in_map_iff. exists (raw c_cr). split; [reflexivity|exact X].
    + change (raw c_nl :: raw c_nl :: u_body b) with ([raw c_nl; raw c_nl] ++ u_body b). apply fine_app. split; [apply fine_lit; reflexivity|]. apply fine_app. split; [apply fine_lit; reflexivity|exact Hf].
  - exact (plain_conv b Mb Cb E).
Qed.
