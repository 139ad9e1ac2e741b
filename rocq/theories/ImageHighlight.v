(** Highlights in which every character of a text is escaped: the parser reads the highlight back, with
    any title, any icon and any number of paragraphs, empty ones included. *)
From Coq Require Import String.
From Verif Require Import Base Lexer LexSpec LexProofs LexFacts Ops Parser FParser TokFacts ToYamd TreeAst Ast AstSpec NormalSpec Tame Units ULex Stops Inline AstUnits Calm Blocks Docs Highlight Lists ImageInline ImageLists.

Definition e_line (b : list par_node) : list uchar := match b with [] => eu nl | _ => uflats (eps b) end.

Lemma e_line_clean : forall b, clean (e_line b).
Proof. intros [|p b]; [apply clean_eu|apply clean_eps]. Qed.
Lemma e_line_render : forall b, render (e_line b) = src_line b.
Proof. intros [|p b]; [apply eu_render|apply eps_render]. Qed.
Lemma e_line_ne : forall b, normal_line b -> e_line b <> [].
Proof. intros [|p b] [N _]; [discriminate|]. apply ugoods_ne; [apply eps_good; exact N|discriminate]. Qed.

(** A line alone, and with a line feed after it, is read as the paragraph. *)
Lemma e_line_alone : forall b, normal_line b -> exists l, ugoods l /\ uflats l = e_line b /\ trim_trailing_newline_from_text (map uerase l) = b.
Proof.
  intros [|p b] [N T].
  - exists [UText (eu nl)]. split; [|split; reflexivity]. split; [|split; exact I]. constructor; [|constructor]. cbn [ugood]. split; [discriminate|]. repeat split; apply eu_absent.
  - exists (eps (p :: b)). split; [apply eps_good; exact N|]. split; [reflexivity|]. rewrite trim_same; [apply eps_erase|apply eps_good; exact N|apply eps_trim; exact T].
Qed.
Lemma e_line_nl : forall b, normal_line b -> exists l, ugoods l /\ uflats l = e_line b ++ [raw c_nl] /\ trim_trailing_newline_from_text (map uerase l) = b.
Proof.
  intros [|p b] [N T].
  - exists [UText (eu nl ++ [raw c_nl])]. split; [|split; reflexivity]. split; [|split; exact I]. constructor; [|constructor]. cbn [ugood]. split; [discriminate|].
    repeat split; apply absent_app; (split; [apply eu_absent|]); intros [Y|[]]; discriminate Y.
  - destruct (swallow (eps (p :: b))) as (l & G & E & Tr); [apply eps_good; exact N|discriminate|apply eps_trim; exact T|]. exists l. split; [exact G|]. split; [exact E|]. rewrite Tr. apply eps_erase.
Qed.

Lemma clean_bangs : forall us A1 A2, clean us -> us = A1 ++ A2 -> raw2_at c_bang c_bang A2 = false.
Proof.
  intros us A1 A2 H ->. destruct (raw2_at c_bang c_bang A2) eqn:E; [|reflexivity]. apply raw2_at_true in E. destruct E as (r & ->). exfalso.
  apply (clean_absent _ c_bang H); [nodelim|]. apply in_or_app. right. left. reflexivity.
Qed.
Lemma clean_aft : forall us, clean us -> us <> [] -> aft true us = false.
Proof. intros us C NE. destruct (aft true us) eqn:X; [|reflexivity]. apply aft_ends in X; [|exact NE]. exfalso. exact (clean_ends _ C X). Qed.

(** A paragraph before a blank line. *)
Lemma e_mid : forall s n ts b R, cov s true ts (e_line b ++ raw c_nl :: raw c_nl :: R) -> normal_line b ->
  exists k y e r, fparagraph (hstop n) ts = (Node NParagraph [] k [], e :: r) /\ trimmed s (Node NParagraph [] k []) = [b] /\ ts = y ++ e :: r
    /\ kind e = Terminator /\ cov s false (e :: r) (raw c_nl :: raw c_nl :: R) /\ cov s true r R.
Proof.
  intros s n ts b R H N. destruct (e_line_alone b N) as (l & G & El & Tr). pose proof (e_line_clean b) as C. pose proof (e_line_ne b N) as NE. pose proof (clean_tame n true _ C) as [Ta Tb]. rewrite <- El in *.
  destruct (paragraph_units s (hstop n) true ts l _ H G) as (k & ts1 & ts2 & E1 & E2 & E3 & E4).
  - apply seam_nl. apply clean_ends. exact C.
  - apply calm_cons; [apply calm_term; [exact Ta|intros X; exfalso; exact (clean_ends _ C X)]|]. apply calm_cons; [apply calm_hl; [intros A1 A2 E _; exact (clean_bangs _ _ _ C E)|reflexivity]|].
    apply calm_cend; [exact Tb|right; reflexivity].
  - reflexivity.
  - rewrite (clean_aft _ C NE) in E3. pose proof E3 as E5. destruct (cov_term _ _ _ _ E3) as (e & r & -> & F1 & F2 & F3 & F4). exists k, ts1, e, r. split; [exact E1|].
    split; [cbn [trimmed paragraph_of map]; rewrite E2, Tr; reflexivity|]. auto.
Qed.

(** The last paragraph. *)
Lemma e_last : forall s n ts b B, cov s true ts (e_line b ++ raw c_nl :: bang2 ++ B) -> normal_line b -> raw_at c_bang B = false ->
  exists k y r, fparagraph (hstop n) ts = (Node NParagraph [] k [], r) /\ trimmed s (Node NParagraph [] k []) = [b] /\ ts = y ++ r
    /\ y <> [] /\ cov s true r (bang2 ++ B).
Proof.
  intros s n ts b B H N HB. destruct (e_line_nl b N) as (l & G & El & Tr). pose proof (e_line_clean b) as C. pose proof (e_line_ne b N) as NE.
  assert (Ab : absent c_nl (e_line b)) by (apply clean_absent; [exact C|nodelim]). assert (Ap : absent c_percent (uflats l)) by (rewrite El; apply absent_app; split; [apply clean_absent; [exact C|nodelim]|intros [X|[]]; discriminate X]).
  change (raw c_nl :: bang2 ++ B) with ([raw c_nl] ++ bang2 ++ B) in H. rewrite app_assoc, <- El in H.
  assert (Ea : forall b, aft b (uflats l) = true) by (intros x; rewrite El, aft_app; reflexivity).
  destruct (paragraph_units s (hstop n) true ts l (bang2 ++ B) H G) as (k & ts1 & ts2 & E1 & E2 & E3 & E4).
  - rewrite El. apply seam_special; try reflexivity; try discriminate. intros (r & X). apply app_inj_tail in X. destruct X as [_ X]. discriminate X.
  - apply calm_cons; [apply calm_term|apply calm_cons; [apply calm_hl|apply calm_cend2]].
    + rewrite El. intros a c X. destruct c as [|u c _] using rev_ind.
      * rewrite app_nil_r in X. change (a ++ [raw c_nl; raw c_nl]) with (a ++ [raw c_nl] ++ [raw c_nl]) in X. rewrite app_assoc in X. apply app_inj_tail in X. destruct X as [X _]. apply Ab. rewrite X. apply in_or_app. right. left. reflexivity.
      * rewrite !app_assoc in X. apply app_inj_tail in X. destruct X as [X _]. apply Ab. rewrite X, <- app_assoc. apply in_or_app. right. left. reflexivity.
    + reflexivity.
    + intros A1 A2 X _. destruct (raw2_at c_bang c_bang A2) eqn:E; [|reflexivity]. apply raw2_at_true in E. destruct E as (r & ->). exfalso.
      assert (Y : absent c_bang (uflats l)) by (rewrite El; apply absent_app; split; [apply clean_absent; [exact C|nodelim]|intros [Y|[]]; discriminate Y]). apply Y. rewrite X. apply in_or_app. right. left. reflexivity.
    + rewrite El. intros (r & X). apply app_inj_tail in X. destruct X as [_ X]. discriminate X.
    + intros _. split.
      * intros _. destruct (raw2_at c_percent c_rcurly (uflats l)) eqn:E; [|reflexivity]. apply raw2_at_true in E. destruct E as (r & E). exfalso. apply Ap. rewrite E. left. reflexivity.
      * apply (nosub_absent _ (raw c_percent)); [right; left; reflexivity|exact Ap].
    + intros _. split; reflexivity.
  - rewrite Ea. pose proof (lead_repeat c_bang 2 B HB) as L. change (repeat (raw c_bang) 2) with bang2 in L.
    change (ustop (hstop n) true (bang2 ++ B)) with ((lead c_bang (bang2 ++ B) =? 2) || existsb (fires true (bang2 ++ B)) (cst n)). rewrite L. reflexivity.
  - rewrite Ea in E3. exists k, ts1, ts2. split; [exact E1|]. split; [cbn [trimmed paragraph_of map]; rewrite E2, Tr; reflexivity|]. split; [exact E4|]. split; [|exact E3].
    intros ->. cbn in E4. subst ts2. apply (cov_more _ _ _ _ _ _ H E3). rewrite El. destruct (e_line b); discriminate.
Qed.

Definition ebody (ps : list (list par_node)) (B : list uchar) : list uchar := match ps with [] => [] | _ => ujoin (map e_line ps) ++ [raw c_nl] end ++ bang2 ++ B.

Lemma e_pars : forall s n ps b m ts B, cov s true ts (ebody (b :: ps) B) -> Forall normal_line (b :: ps) -> stail n B -> List.length ts <= m ->
  exists p r k t c rest y, fparagraph (hstop n) ts = (p, r) /\ fhighlight_loop m (cst n) r = Some (k, t :: c, rest)
    /\ flat_map (trimmed s) (p :: k) = b :: ps /\ quiet (p :: k) /\ ts = y ++ t :: c ++ rest /\ after s false n rest B.
Proof.
  intros s n ps. induction ps as [|b2 ps IH]; intros b m ts B H F T Hm; inversion F as [|? ? Fb Fp]; subst; unfold ebody in H; cbn [map ujoin] in H.
  - rewrite app_nil_r, <- app_assoc in H. assert (HB : raw_at c_bang B = false) by (apply (stail_not n); [exact T|discriminate]).
    destruct (e_last _ n _ _ _ H Fb HB) as (k & y & r & E1 & E2 & -> & E4 & E5).
    destruct (hloop_end s n m r B E5 T) as (t & c & rest & F1 & -> & F3); [rewrite app_length in Hm; destruct y; [congruence|cbn in Hm; lia]|].
    exists (Node NParagraph [] k []), (t :: c ++ rest), [], t, c, rest, y. split; [exact E1|]. split; [exact F1|]. cbn [flat_map]. rewrite E2. repeat split; auto.
  - rewrite <- !app_assoc in H. cbn [app] in H.
    destruct (e_mid _ n _ _ _ H Fb) as (k & y & e & r & E1 & E2 & -> & E4 & E5 & E6). rewrite app_length in Hm. cbn [List.length] in Hm.
    destruct m as [|m]; [lia|].
    assert (E6' : cov s true r (ebody (b2 :: ps) B)) by (unfold ebody; cbn [map ujoin]; rewrite <- !app_assoc in *; exact E6).
    destruct (IH b2 m r B E6' Fp T ltac:(lia)) as (p & r2 & k2 & t & c & rest & z & F1 & F2 & F3 & F4 & F5 & F6).
    exists (Node NParagraph [] k []), (e :: r), (Leaf [e] :: p :: k2), t, c, rest, (y ++ e :: z). split; [exact E1|]. split.
    { cbn [fhighlight_loop]. rewrite (stopped_units _ _ _ _ _ E5). rewrite cst_stop_false by (discriminate || reflexivity).
      replace (is_two_bangs e) with false by (unfold is_two_bangs; rewrite E4; reflexivity). replace (is_terminator e) with true by (unfold is_terminator; rewrite E4; reflexivity).
      unfold hstop in F1. rewrite F1, F2. reflexivity. }
    split; [|split; [|split; [|exact F6]]].
    + cbn [flat_map] in *. rewrite E2. cbn [trimmed paragraph_of map app]. rewrite F3. reflexivity.
    + destruct F4 as [Q1 Q2]. split; [exact Q1|exact Q2].
    + rewrite F5, <- !app_assoc. reflexivity.
Qed.

Lemma ebody_head : forall ps B c, Forall normal_line ps -> c <> c_bang -> ~ In c delims -> raw_at c (ebody ps B) = false.
Proof.
  intros ps B c F N1 N2. unfold ebody. destruct ps as [|b ps].
  - cbn [app raw_at raw fst snd negb]. apply N.eqb_neq. intros X. apply N1. symmetry. exact X.
  - inversion F as [|? ? Fb _]; subst. cbn [map ujoin]. rewrite <- !app_assoc. rewrite raw_at_app by (apply e_line_ne; exact Fb). apply absent_raw_at, clean_absent; [apply e_line_clean|exact N2].
Qed.
Lemma raw2_head : forall c d us, raw_at c us = false -> raw2_at c d us = false.
Proof. intros c d us H. destruct (raw2_at c d us) eqn:E; [|reflexivity]. apply raw2_at_true in E. destruct E as (r & ->). rewrite raw_at_raw in H. discriminate. Qed.

Definition eo (o : option str) : option (list uchar) := option_map eu o.
Definition e_highlight (ot oi : option str) (ps : list (list par_node)) : list uchar := bang2 ++ utitle (eo ot) ++ [raw c_nl] ++ uicon (eo oi) ++ ebody ps [].

Lemma ebody_app : forall ps B, ebody ps B = ebody ps [] ++ B.
Proof. intros ps B. unfold ebody. rewrite app_nil_r, <- app_assoc. reflexivity. Qed.

Lemma e_loop : forall s n ps ts B, cov s true ts (ebody ps B) -> Forall normal_line ps -> stail n B ->
  exists k t c rest y, nth_is 0 col0 ts = true /\ fhighlight_loop (S (List.length ts)) (cst n) ts = Some (k, t :: c, rest) /\ ts = y ++ t :: c ++ rest /\ quiet k /\ flat_map (trimmed s) k = ps /\ after s false n rest B.
Proof.
  intros s n ps ts B H F T. destruct ps as [|b ps].
  - change (ebody [] B) with (bang2 ++ B) in H. destruct (hloop_end s n (S (List.length ts)) ts B H T ltac:(lia)) as (t & c & rest & Y1 & Y2 & Y3).
    exists [], t, c, rest, []. split; [rewrite Y2 in H |- *; exact (cov_col0 _ _ _ _ _ H)|]. split; [exact Y1|]. split; [exact Y2|]. split; [split; reflexivity|]. split; [reflexivity|exact Y3].
  - destruct (e_pars s n ps b (List.length ts) ts B H F T (le_n _)) as (p & r & k & t & c & rest & y & Y1 & Y2 & Y3 & Y4 & Y5 & Y6).
    destruct ts as [|w ts]; [apply cov_nil_r in H; inversion F as [|? ? Fb _]; subst; unfold ebody in H; cbn [map ujoin] in H; pose proof (e_line_ne b Fb); destruct (e_line b); [congruence|discriminate H]|].
    exists (p :: k), t, c, rest, y. split; [exact (cov_col0 _ _ _ _ _ H)|]. split; [|split; [exact Y5|]; split; [exact Y4|]; split; [exact Y3|exact Y6]].
    assert (Hd : forall d, d = c_nl \/ d = c_percent -> raw_at d (ebody (b :: ps) B) = false) by (intros d [-> | ->]; apply ebody_head; first [exact F|discriminate|nodelim]).
    assert (Hb : raw_at c_bang (ebody (b :: ps) B) = false) by (inversion F as [|? ? Fb _]; subst; unfold ebody; cbn [map ujoin]; rewrite <- !app_assoc; rewrite raw_at_app by (apply e_line_ne; exact Fb); apply absent_raw_at, clean_absent; [apply e_line_clean|nodelim]).
    assert (NE : ebody (b :: ps) B <> []) by (unfold ebody; destruct (ujoin (map e_line (b :: ps))); discriminate).
    cbn [fhighlight_loop]. rewrite (stopped_units _ _ _ _ _ H). rewrite cst_stop_false; [|exact NE|].
    2:{ cbn [fires andb]. rewrite raw2_head by (apply Hd; right; reflexivity). cbn [orb]. pose proof (Hd c_nl (or_introl eq_refl)) as Q. destruct (ebody (b :: ps) B) as [|u us]; [congruence|]. change (raw_at c_nl (u :: us)) with (is_nl u) in Q. rewrite Q. reflexivity. }
    replace (is_two_bangs w) with false.
    2:{ symmetry. unfold is_two_bangs. rewrite swap3. rewrite (run_test _ _ _ _ _ c_bang Bang 2 H eq_refl ltac:(lia) ltac:(left; discriminate)). rewrite (proj1 (lead_0 _ _) Hb). reflexivity. }
    replace (is_terminator w) with false by (symmetry; unfold is_terminator; rewrite (term_test _ _ _ _ _ H); apply raw2_head, Hd; left; reflexivity).
    unfold hstop in Y1. rewrite Y1. rewrite Y2. reflexivity.
Qed.

Lemma eo_chars : forall o, option_map chars (eo o) = o.
Proof. intros [x|]; [|reflexivity]. cbn. rewrite eu_chars. reflexivity. Qed.

Lemma e_highlight_parses : forall n ot oi ps, Forall normal_line ps -> parses n (e_highlight ot oi ps) [YHighlight ot oi ps].
Proof.
  intros n ot oi ps F s ts B fuel H T Hend Hfu. unfold e_highlight in H. rewrite <- !app_assoc in H. cbn [app] in H. rewrite <- ebody_app in H.
  assert (Ea : aft true (e_highlight ot oi ps) = false) by (unfold e_highlight, ebody; rewrite !aft_app; reflexivity). rewrite Ea. clear Ea Hend.
  set (rest1 := uicon (eo oi) ++ ebody ps B) in *.
  assert (N1 : raw_at c_bang (utitle (eo ot) ++ raw c_nl :: rest1) = false) by (destruct ot; reflexivity).
  destruct (two_bangs_units _ _ _ H N1) as (t & r & -> & E1 & E2).
  assert (Lb : lead c_bang (bang2 ++ utitle (eo ot) ++ raw c_nl :: rest1) = 2) by exact (lead_repeat c_bang 2 _ N1).
  unfold fblock. rewrite (fcode_none _ _ _ _ _ _ H) by reflexivity. rewrite (fcoll_none _ _ _ _ _ _ _ H) by reflexivity. unfold forelse. rewrite (fembed_none _ _ _ _ _ _ H) by reflexivity.
  assert (Hb : raw_at c_nl (ebody ps B) = false /\ raw2_at c_percent c_rcurly (ebody ps B) = false) by (split; [|apply raw2_head]; apply ebody_head; first [exact F|discriminate|nodelim]).
  assert (Hr : raw_at c_nl rest1 = false /\ raw2_at c_percent c_rcurly rest1 = false) by (unfold rest1; destruct oi; [split; reflexivity|exact Hb]).
  (* the icon and the body, given the tokens after the first line *)
  assert (Rest : forall r1, cov s true r1 rest1 -> exists k2 r2 k3 t3 c3 rest y, opt_tree (ficon (StopTerminator :: cst n) r1) r1 = (k2, r2)
     /\ nth_is 0 col0 r2 = true /\ fhighlight_loop (S (List.length r2)) (cst n) r2 = Some (k3, t3 :: c3, rest) /\ r1 = y ++ t3 :: c3 ++ rest
     /\ flat_map (child NModifier) (k2 ++ k3) = [] /\ child_text s NIcon (k2 ++ k3) = oi /\ flat_map (trimmed s) (k2 ++ k3) = ps /\ after s false n rest B).
  { intros r1 C1. destruct oi as [i|].
    - unfold rest1 in C1. cbn [eo option_map uicon uoption] in C1. rewrite <- !app_assoc in C1. cbn [app] in C1.
      destruct (icon_units s n r1 (eu i) (ebody ps B) C1 (eu_absent _ _) (eu_raw_at _ _) (proj1 Hb) (proj2 Hb)) as (o & b & c & r2 & I1 & I2 & I3 & I4).
      destruct (e_loop s n ps r2 B I4 F T) as (k & t3 & c3 & rest & y & L0 & L1 & L2 & [L3 L3'] & L4 & L5).
      rewrite I1. exists [Node NIcon o [Leaf b] [c]], r2, k, t3, c3, rest, (o ++ b ++ c :: y). split; [reflexivity|]. split; [exact L0|]. split; [exact L1|].
      split; [rewrite I2, L2, <- !app_assoc; reflexivity|]. split; [exact L3|]. split; [|split; [exact L4|exact L5]].
      rewrite eu_chars in I3. unfold child_text. cbn [app flat_map child]. destruct (node_eq_dec NIcon NIcon) as [_|X]; [|congruence]. cbn [app inner flat_map]. rewrite app_nil_r, I3. reflexivity.
    - unfold rest1 in C1. cbn [eo option_map uicon uoption app] in C1.
      destruct (e_loop s n ps r1 B C1 F T) as (k & t3 & c3 & rest & y & L0 & L1 & L2 & [L3 L3'] & L4 & L5).
      exists [], r1, k, t3, c3, rest, y. rewrite (ficon_none _ _ _ _ _ C1).
      2:{ unfold icon_at. destruct ps as [|b ps].
          - change (ebody [] B) with (bang2 ++ B). pose proof (stail_not n B c_bang T ltac:(discriminate)) as HB. pose proof (lead_repeat c_bang 2 B HB) as L. change (repeat (raw c_bang) 2) with bang2 in L. rewrite L. reflexivity.
          - assert (Q : raw_at c_bang (ebody (b :: ps) B) = false) by (inversion F as [|? ? Fb _]; subst; unfold ebody; cbn [map ujoin]; rewrite <- !app_assoc; rewrite raw_at_app by (apply e_line_ne; exact Fb); apply absent_raw_at, clean_absent; [apply e_line_clean|nodelim]).
            rewrite (proj1 (lead_0 _ _) Q). reflexivity. }
      split; [reflexivity|]. split; [exact L0|]. split; [exact L1|]. split; [exact L2|]. split; [exact L3|]. split; [|split; [exact L4|exact L5]]. unfold child_text. cbn [app]. rewrite L3'. reflexivity. }
  destruct ot as [ut|].
  - cbn [eo option_map utitle uoption app] in E2. assert (Ns : raw_at c_space (eu ut ++ raw c_nl :: rest1) = false) by (destruct ut; reflexivity).
    change (raw c_space :: eu ut ++ raw c_nl :: rest1) with (repeat (raw c_space) 1 ++ eu ut ++ raw c_nl :: rest1) in E2.
    destruct (cov_runs _ _ _ c_space Space 0 _ E2 eq_refl ltac:(left; discriminate) Ns) as (t2 & r2 & -> & F1 & F2 & F3 & F4 & F5). change (aft false (repeat (raw c_space) 1)) with false in F5.
    change (raw c_nl :: rest1) with ([raw c_nl] ++ rest1) in F5.
    destruct (modifier_units s (cst n) r2 (eu ut) [raw c_nl] rest1 F5 (eu_absent _ _)) as (b1 & c1 & r3 & G1 & G2 & G3 & G4); [left; split; [reflexivity|apply Hr]|apply line_calm0; apply eu_absent|apply line_stop; apply Hr|].
    destruct (Rest r3 G4) as (k2 & r4 & k3 & t3 & c3 & rest & y & R1 & R2 & R3 & R4 & R5 & R6 & R7 & R8).
    unfold fhighlight. cbn [fseq]. rewrite E1. replace (is_space_1 t2) with true by (unfold is_space_1; rewrite F1, F3; reflexivity). cbn [orb last]. replace (is_eol t2) with false by (unfold is_eol; rewrite F1; reflexivity).
    cbn [negb]. rewrite G1. cbn [opt_tree]. rewrite R1, R2, R3. eexists _, t, (t2 :: b1 ++ c1 :: y ++ t3 :: c3), rest. split; [reflexivity|]. split.
    { rewrite G2, R4. cbn. rewrite <- !app_assoc. cbn. rewrite <- !app_assoc. reflexivity. }
    split; [|exact R8]. cbn [blocks app]. rewrite child_text_hd. cbn [flat_map trimmed paragraph_of map app inner]. rewrite app_nil_r, G3, R7, eu_chars.
    change (child_text s NIcon (Node NModifier [] [Leaf b1] [c1] :: k2 ++ k3)) with (child_text s NIcon (k2 ++ k3)). rewrite R6. reflexivity.
  - cbn [eo option_map utitle uoption app] in E2.
    destruct (cov_eol _ _ _ _ E2 (proj1 Hr)) as (t2 & r2 & -> & F1 & F2 & F3 & F4).
    destruct (Rest r2 F4) as (k2 & r4 & k3 & t3 & c3 & rest & y & R1 & R2 & R3 & R4 & R5 & R6 & R7 & R8).
    unfold fhighlight. cbn [fseq]. rewrite E1. replace (is_eol t2) with true by (unfold is_eol; rewrite F1; reflexivity). rewrite orb_true_r. cbn [last]. replace (is_eol t2) with true by (unfold is_eol; rewrite F1; reflexivity).
    cbn [negb]. rewrite R1, R2, R3. eexists _, t, (t2 :: y ++ t3 :: c3), rest. split; [reflexivity|]. split.
    { rewrite R4. cbn. rewrite <- !app_assoc. reflexivity. }
    split; [|exact R8]. cbn [blocks app]. rewrite R7, R6. unfold child_text at 1. rewrite R5. reflexivity.
Qed.

Lemma join_render : forall l, render (ujoin l) = between nlnl (map render l).
Proof.
  induction l as [|a l IH]; [reflexivity|]. cbn [ujoin map between]. rewrite render_app. f_equal. destruct l as [|b l]; [reflexivity|]. cbn [map].
  change (render (raw c_nl :: raw c_nl :: ujoin (b :: l))) with (nlnl ++ render (ujoin (b :: l)))%list. rewrite IH. reflexivity.
Qed.
Lemma e_highlight_render : forall ot oi ps, render (e_highlight ot oi ps) = src_node (YHighlight ot oi ps).
Proof.
  intros ot oi ps. unfold e_highlight, ebody. rewrite !render_app.
  assert (E1 : render (utitle (eo ot)) = src_some (fun t => s_ " " ++ escaped t)%list ot) by (destruct ot; [cbn; rewrite eu_render|]; reflexivity).
  assert (E2 : render (uicon (eo oi)) = src_some (fun i => s_ "! " ++ escaped i ++ nl)%list oi) by (destruct oi; [cbn [eo option_map uicon uoption src_some]; rewrite !render_app, eu_render|]; reflexivity).
  assert (E3 : render (match ps with [] => [] | _ => ujoin (map e_line ps) ++ [raw c_nl] end) = match ps with [] => [] | _ => between nlnl (map src_line ps) ++ nl end%list).
  { destruct ps as [|b ps]; [reflexivity|]. rewrite render_app, join_render, map_map, (map_ext _ _ e_line_render). reflexivity. }
  rewrite E1, E2, E3. reflexivity.
Qed.
