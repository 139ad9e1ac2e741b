(** Highlights on units: the parser reads a highlight back from its text. *)
From Coq Require Import String.
From Verif Require Import Base Lexer LexSpec LexProofs LexFacts Ops Parser FParser TokFacts ToYamd TreeAst Ast Tame Units ULex Stops Inline AstUnits Calm Blocks Docs.

(** ** The line feed after the last paragraph *)

(** The last text does not end with a line feed. *)
Definition trim_ok (l : list uitem) : Prop := forall r us, l = r ++ [UText us] -> trim_end c_nl (chars us) = chars us.

Lemma uflats_app : forall a b, uflats (a ++ b) = uflats a ++ uflats b.
Proof. intros a b. unfold uflats. apply flat_map_app. Qed.
Lemma trim_snoc : forall b x, trim_trailing_newline_from_text (b ++ [PText x]) = match trim_end c_nl x with [] => b | y => b ++ [PText y] end.
Proof.
  intros b x. unfold trim_trailing_newline_from_text. rewrite rev_app_distr. cbn [rev app]. destruct (trim_end c_nl x) as [|c y].
  - apply rev_involutive.
  - cbn [rev]. rewrite rev_involutive. reflexivity.
Qed.
Lemma trim_other : forall b p, (forall x, p <> PText x) -> trim_trailing_newline_from_text (b ++ [p]) = b ++ [p].
Proof. intros b p H. unfold trim_trailing_newline_from_text. rewrite rev_app_distr. cbn [rev app]. destruct p; try reflexivity. exfalso. eapply H. reflexivity. Qed.
Lemma trim_end_nl : forall x, trim_end c_nl (x ++ [c_nl]) = trim_end c_nl x.
Proof. intros x. unfold trim_end. rewrite rev_app_distr. reflexivity. Qed.

Lemma trim_same : forall l, ugoods l -> trim_ok l -> trim_trailing_newline_from_text (map uerase l) = map uerase l.
Proof.
  intros l G T. destruct l as [|x l _] using rev_ind; [reflexivity|]. rewrite map_app. cbn [map]. destruct G as [G _]. apply Forall_app in G. destruct G as [_ G]. inversion G as [|? ? Gx _]; subst.
  destruct x as [us|us|us|us|us|t u|w]; try (apply trim_other; discriminate). cbn [uerase]. rewrite trim_snoc, (T l us eq_refl).
  destruct Gx as [Gx _]. destruct us as [|u us]; [congruence|]. reflexivity.
Qed.

Lemma chain_snoc : forall l x y, chain unext (l ++ [x]) -> unext x y -> chain unext (l ++ [x; y]).
Proof.
  induction l as [|z l IH]; intros x y H N; [cbn; auto|]. cbn [app chain] in *. destruct H as [H1 H2]. split; [|exact (IH x y H2 N)]. destruct l; exact H1.
Qed.

(** A paragraph that takes a final line feed, which is then cut off. *)
Lemma swallow : forall l, ugoods l -> l <> [] -> trim_ok l ->
  exists l', ugoods l' /\ uflats l' = uflats l ++ [raw c_nl] /\ trim_trailing_newline_from_text (map uerase l') = map uerase l.
Proof.
  intros l [G Ch] NE T. destruct l as [|x l _] using rev_ind; [congruence|]. pose proof G as G0. apply Forall_app in G. destruct G as [G1 G]. inversion G as [|? ? Gx _]; subst.
  assert (X : (exists us, x = UText us) \/ utxt x = false) by (destruct x; eauto). destruct X as [(us & ->)|X].
  - exists (l ++ [UText (us ++ [raw c_nl])]). split; [split|split].
    + apply Forall_app. split; [exact G1|]. constructor; [|constructor]. destruct Gx as (Q1 & Q). cbn [ugood]. split; [destruct us; discriminate|].
      repeat split; intros Y; apply in_app_iff in Y; destruct Y as [Y|[Y|[]]]; try discriminate Y; revert Y; apply Q.
    + apply (uchain_shape (l ++ [UText us])); [|exact Ch]. rewrite !map_app. reflexivity.
    + rewrite !uflats_app. unfold uflats. cbn [flat_map uflat]. rewrite !app_nil_r, app_assoc. reflexivity.
    + rewrite !map_app. cbn [map uerase]. rewrite chars_app. cbn [chars map raw snd]. rewrite trim_snoc, trim_end_nl, (T l us eq_refl).
      destruct Gx as [Gx _]. destruct us as [|u us]; [congruence|]. reflexivity.
  - exists ((l ++ [x]) ++ [UText [raw c_nl]]). split; [split|split].
    + apply Forall_app. split; [exact G0|]. constructor; [|constructor]. cbn. split; [discriminate|]. repeat split; intros [Y|[]]; discriminate Y.
    + rewrite <- app_assoc. apply chain_snoc; [exact Ch|]. destruct x; try exact I. discriminate.
    + rewrite uflats_app. reflexivity.
    + rewrite map_app. cbn [map uerase chars raw snd]. rewrite trim_snoc. reflexivity.
Qed.

Lemma cov_nil_r : forall s b us, cov s b [] us -> us = [].
Proof. intros s b us H. inversion H. reflexivity. Qed.

(** ** Paragraphs of a highlight *)

Definition hpar (n : nat) (l : list uitem) : Prop :=
  ugoods l /\ l <> [] /\ ~ ends c_nl (uflats l) /\ tame_at n true (uflats l) /\ raw2_at c_percent c_rcurly (uflats l) = false
  /\ (forall A1 A2, uflats l = A1 ++ A2 -> aft true A1 = true -> raw2_at c_bang c_bang A2 = false) /\ trim_ok l.
Definition hstop (n : nat) : list stop_condition := StopTerminator :: StopHighlightEnd :: cst n.
Definition bang2 : list uchar := [raw c_bang; raw c_bang].

Lemma ugoods_ne : forall l, ugoods l -> l <> [] -> uflats l <> [].
Proof. intros [|x l] [G _] NE; [congruence|]. inversion G; subst. unfold uflats. cbn [flat_map]. pose proof (uflat_nonempty x ltac:(assumption)). destruct (uflat x); [congruence|discriminate]. Qed.

(** A paragraph before a blank line. *)
Lemma hpar_mid : forall s n ts l R, cov s true ts (uflats l ++ raw c_nl :: raw c_nl :: R) -> l = [] \/ hpar n l ->
  exists k y e r b, fparagraph (hstop n) ts = (Node NParagraph [] k [], e :: r) /\ trimmed s (Node NParagraph [] k []) = [map uerase l] /\ ts = y ++ e :: r
    /\ kind e = Terminator /\ cov s b (e :: r) (raw c_nl :: raw c_nl :: R) /\ cov s true r R.
Proof.
  intros s n ts l R H [->|(G & NE & He & [Ta Tb] & Hp & Hb & Ht)].
  { destruct (paragraph_units s (hstop n) true ts [] _ H) as (k & ts1 & ts2 & E1 & E2 & E3 & E4); [split; constructor|left; reflexivity|exact I|reflexivity|].
    destruct (cov_term _ _ _ _ E3) as (e & r & -> & F1 & F2 & F3 & F4). exists k, ts1, e, r, true. split; [exact E1|]. split; [cbn [trimmed paragraph_of map]; rewrite E2; reflexivity|]. auto. }
  pose proof (ugoods_ne l G NE) as NU.
  destruct (paragraph_units s (hstop n) true ts l _ H G) as (k & ts1 & ts2 & E1 & E2 & E3 & E4).
  - apply seam_nl. exact He.
  - apply calm_cons; [apply calm_term; [exact Ta|intros X; contradiction]|]. apply calm_cons; [apply calm_hl; [exact Hb|reflexivity]|].
    apply calm_cend; [exact Tb|right; reflexivity].
  - reflexivity.
  - replace (aft true (uflats l)) with false in E3 by (destruct (aft true (uflats l)) eqn:X; [apply aft_ends in X; [contradiction|exact NU]|reflexivity]).
    destruct (cov_term _ _ _ _ E3) as (e & r & -> & F1 & F2 & F3 & F4). exists k, ts1, e, r, false. split; [exact E1|]. split; [cbn [trimmed paragraph_of map]; rewrite E2, trim_same by assumption; reflexivity|]. auto.
Qed.

(** The last paragraph. *)
Lemma hpar_last : forall s n ts l B, cov s true ts (uflats l ++ raw c_nl :: bang2 ++ B) -> hpar n l -> raw_at c_bang B = false ->
  exists k y r, fparagraph (hstop n) ts = (Node NParagraph [] k [], r) /\ trimmed s (Node NParagraph [] k []) = [map uerase l] /\ ts = y ++ r
    /\ y <> [] /\ cov s true r (bang2 ++ B).
Proof.
  intros s n ts l B H (G & NE & He & [Ta Tb] & Hp & Hb & Ht) HB. pose proof (ugoods_ne l G NE) as NU. destruct (swallow l G NE Ht) as (l' & G' & E' & T').
  change (raw c_nl :: bang2 ++ B) with ([raw c_nl] ++ bang2 ++ B) in H. rewrite app_assoc, <- E' in H.
  assert (Ea : forall b, aft b (uflats l') = true) by (intros b; rewrite E', aft_app; reflexivity).
  destruct (paragraph_units s (hstop n) true ts l' (bang2 ++ B) H G') as (k & ts1 & ts2 & E1 & E2 & E3 & E4).
  - rewrite E'. apply seam_special; try reflexivity; try discriminate. intros (r & X). apply app_inj_tail in X. destruct X as [_ X]. discriminate X.
  - rewrite E'. apply calm_cons; [apply calm_term|apply calm_cons; [apply calm_hl|apply calm_cend2]].
    + intros a b X. destruct b as [|u b _] using rev_ind.
      * rewrite app_nil_r in X. change (a ++ [raw c_nl; raw c_nl]) with (a ++ [raw c_nl] ++ [raw c_nl]) in X. rewrite app_assoc in X. apply app_inj_tail in X. destruct X as [X _]. apply He. exists a. exact X.
      * rewrite !app_assoc in X. apply app_inj_tail in X. destruct X as [X _]. rewrite <- app_assoc in X. exact (Ta a b X).
    + reflexivity.
    + intros A1 A2 X Xa. destruct A2 as [|u A2 _] using rev_ind; [reflexivity|]. rewrite app_assoc in X. apply app_inj_tail in X. destruct X as [X <-]. specialize (Hb A1 A2 X Xa).
      destruct (raw2_at c_bang c_bang (A2 ++ [raw c_nl])) eqn:Q; [|reflexivity]. destruct A2 as [|a A2]; [discriminate|]. apply raw2_app in Q; [|discriminate]. destruct Q as [Q|[_ Q]]; [congruence|discriminate].
    + intros (r & X). apply app_inj_tail in X. destruct X as [_ X]. discriminate X.
    + intros Hn. destruct (Tb Hn) as [T1 T2]. split.
      * intros _. destruct (raw2_at c_percent c_rcurly (uflats l ++ [raw c_nl])) eqn:Q; [|reflexivity]. apply raw2_app in Q; [|exact NU]. destruct Q as [Q|[_ Q]]; [congruence|discriminate].
      * intros a b X. destruct b as [|u b _] using rev_ind.
        -- rewrite app_nil_r in X. unfold cpat in X. change (a ++ [raw c_nl; raw c_percent; raw c_rcurly]) with (a ++ [raw c_nl; raw c_percent] ++ [raw c_rcurly]) in X. rewrite app_assoc in X. apply app_inj_tail in X. destruct X as [_ X]. discriminate X.
        -- rewrite !app_assoc in X. apply app_inj_tail in X. destruct X as [X _]. rewrite <- app_assoc in X. exact (T2 a b X).
    + intros _. split; [reflexivity|]. reflexivity.
  - rewrite Ea. pose proof (lead_repeat c_bang 2 B HB) as L. change (repeat (raw c_bang) 2) with bang2 in L.
    change (ustop (hstop n) true (bang2 ++ B)) with ((lead c_bang (bang2 ++ B) =? 2) || existsb (fires true (bang2 ++ B)) (cst n)). rewrite L. reflexivity.
  - rewrite Ea in E3. exists k, ts1, ts2. split; [exact E1|]. split; [cbn [trimmed paragraph_of map]; rewrite E2, T'; reflexivity|]. split; [exact E4|]. split; [|exact E3].
    intros ->. cbn in E4. subst ts2. apply (cov_more _ _ _ _ _ _ H E3). rewrite E'. destruct (uflats l); discriminate.
Qed.

(** An empty last paragraph. *)
Lemma hpar_empty : forall s n ts B, cov s true ts (raw c_nl :: bang2 ++ B) -> raw_at c_bang B = false ->
  exists k y r, fparagraph (hstop n) ts = (Node NParagraph [] k [], r) /\ trimmed s (Node NParagraph [] k []) = [[]] /\ ts = y ++ r
    /\ y <> [] /\ cov s true r (bang2 ++ B).
Proof.
  intros s n ts B H HB. change (raw c_nl :: bang2 ++ B) with (uflats [UText [raw c_nl]] ++ bang2 ++ B) in H.
  destruct (paragraph_units s (hstop n) true ts [UText [raw c_nl]] (bang2 ++ B) H) as (k & ts1 & ts2 & E1 & E2 & E3 & E4).
  - split; [|split; exact I]. constructor; [|constructor]. cbn. split; [discriminate|]. repeat split; intros [Y|[]]; discriminate Y.
  - apply seam_special; try reflexivity; try discriminate. intros (r & X). change (uflats [UText [raw c_nl]]) with ([] ++ [raw c_nl]) in X. apply app_inj_tail in X. destruct X as [_ X]. discriminate X.
  - split; [|exact I]. change (ustop (hstop n) true (raw c_nl :: bang2 ++ B)) with (ustop (cst n) true (raw c_nl :: bang2 ++ B)). apply cst_stop_false; [discriminate|]. reflexivity.
  - pose proof (lead_repeat c_bang 2 B HB) as L. change (repeat (raw c_bang) 2) with bang2 in L.
    change (ustop (hstop n) (aft true (uflats [UText [raw c_nl]])) (bang2 ++ B)) with ((lead c_bang (bang2 ++ B) =? 2) || existsb (fires true (bang2 ++ B)) (cst n)). rewrite L. reflexivity.
  - exists k, ts1, ts2. split; [exact E1|]. split; [cbn [trimmed paragraph_of map]; rewrite E2; reflexivity|]. split; [exact E4|]. split; [|exact E3].
    intros ->. cbn in E4. subst ts2. apply (cov_more _ _ _ _ _ _ H E3). discriminate.
Qed.

Definition quiet (k : list tree) : Prop := flat_map (child NModifier) k = [] /\ flat_map (child NIcon) k = [].

Lemma weol_units : forall s b n ts B c, cov s b ts B -> stail n B -> exists e rest, with_eol c ts = (c :: e, rest) /\ ts = e ++ rest /\ after s b n rest B.
Proof.
  intros s b n ts B c H T. destruct T as [->|[(R & ->)|(Hn & R & ->)]].
  - apply cov_nil_inv in H. subst ts. exists [], []. repeat split. left. constructor.
  - destruct (cov_term _ _ _ _ H) as (t & ts' & -> & E1 & E2 & E3 & E4). exists [], (t :: ts'). unfold with_eol, is_eol. rewrite E1. repeat split. left. exact H.
  - destruct (cov_eol _ _ _ _ H eq_refl) as (t & ts' & -> & E1 & E2 & E3 & E4). exists [t], ts'. unfold with_eol, is_eol. rewrite E1. repeat split. right. split; [exact Hn|]. exists R. auto.
Qed.
Lemma two_bangs_units : forall s ts B, cov s true ts (bang2 ++ B) -> raw_at c_bang B = false -> exists t r, ts = t :: r /\ is_two_bangs t = true /\ cov s false r B.
Proof.
  intros s ts B H HB. destruct (cov_runs _ _ _ c_bang Bang 1 _ H eq_refl ltac:(left; discriminate) HB) as (t & r & -> & E1 & E2 & E3 & E4 & E5). exists t, r. split; [reflexivity|]. split; [|exact E5].
  unfold is_two_bangs. rewrite E1, E2, E3. reflexivity.
Qed.

Lemma hloop_end : forall s n m ts B, cov s true ts (bang2 ++ B) -> stail n B -> 0 < m ->
  exists t c rest, fhighlight_loop m (cst n) ts = Some ([], t :: c, rest) /\ ts = t :: c ++ rest /\ after s false n rest B.
Proof.
  intros s n m ts B H T Hm. assert (HB : raw_at c_bang B = false) by (apply (stail_not n); [exact T|discriminate]).
  destruct m as [|m]; [lia|]. destruct (two_bangs_units _ _ _ H HB) as (t & r & -> & E1 & E2). cbn [fhighlight_loop]. rewrite (stopped_units _ _ _ _ _ H).
  rewrite cst_stop_false by (discriminate || reflexivity). rewrite E1. destruct (weol_units _ _ n _ _ t E2 T) as (e & rest & F1 & F2 & F3). rewrite F1. exists t, e, rest. rewrite F2. auto.
Qed.

Definition hbody (ls : list (list uitem)) (B : list uchar) : list uchar := ujoin (map uflats ls) ++ raw c_nl :: bang2 ++ B.

Lemma hloop_pars : forall s n ls l m ts B, cov s true ts (hbody (l :: ls) B) -> Forall (fun l => l = [] \/ hpar n l) (l :: ls) -> stail n B -> List.length ts <= m ->
  exists p r k t c rest y, fparagraph (hstop n) ts = (p, r) /\ fhighlight_loop m (cst n) r = Some (k, t :: c, rest)
    /\ flat_map (trimmed s) (p :: k) = map (map uerase) (l :: ls) /\ quiet (p :: k) /\ ts = y ++ t :: c ++ rest /\ after s false n rest B.
Proof.
  intros s n ls. induction ls as [|l2 ls IH]; intros l m ts B H Hlls T Hm; inversion Hlls as [|? ? Hl Hls]; subst; clear Hlls; unfold hbody in H; cbn [map ujoin] in H.
  - rewrite app_nil_r in H. assert (HB : raw_at c_bang B = false) by (apply (stail_not n); [exact T|discriminate]).
    assert (X : exists k y r, fparagraph (hstop n) ts = (Node NParagraph [] k [], r) /\ trimmed s (Node NParagraph [] k []) = [map uerase l] /\ ts = y ++ r /\ y <> [] /\ cov s true r (bang2 ++ B))
      by (destruct Hl as [->|Hl]; [exact (hpar_empty _ n _ _ H HB)|exact (hpar_last _ n _ _ _ H Hl HB)]).
    destruct X as (k & y & r & E1 & E2 & -> & E4 & E5).
    destruct (hloop_end s n m r B E5 T) as (t & c & rest & F1 & -> & F3); [rewrite app_length in Hm; destruct y; [congruence|cbn in Hm; lia]|].
    exists (Node NParagraph [] k []), (t :: c ++ rest), [], t, c, rest, y. split; [exact E1|]. split; [exact F1|]. cbn [flat_map map]. rewrite E2. repeat split; auto.
  - rewrite <- app_assoc in H.
    destruct (hpar_mid _ n _ _ _ H Hl) as (k & y & e & r & b & E1 & E2 & -> & E4 & E5 & E6). rewrite app_length in Hm. cbn [List.length] in Hm.
    destruct m as [|m]; [lia|]. change (cov s true r (hbody (l2 :: ls) B)) in E6.
    destruct (IH l2 m r B E6 Hls T ltac:(lia)) as (p & r2 & k2 & t & c & rest & z & F1 & F2 & F3 & F4 & F5 & F6).
    exists (Node NParagraph [] k []), (e :: r), (Leaf [e] :: p :: k2), t, c, rest, (y ++ e :: z). split; [exact E1|]. split.
    { cbn [fhighlight_loop]. rewrite (stopped_units _ _ _ _ _ E5). rewrite cst_stop_false by (discriminate || (destruct b; reflexivity)).
      replace (is_two_bangs e) with false by (unfold is_two_bangs; rewrite E4; reflexivity). replace (is_terminator e) with true by (unfold is_terminator; rewrite E4; reflexivity).
      unfold hstop in F1. rewrite F1, F2. reflexivity. }
    split; [|split; [|split; [|exact F6]]].
    + cbn [flat_map map] in *. rewrite E2. cbn [trimmed paragraph_of map app]. rewrite F3. reflexivity.
    + destruct F4 as [Q1 Q2]. split; [exact Q1|exact Q2].
    + rewrite F5, <- !app_assoc. reflexivity.
Qed.

(** ** Title, icon and the whole highlight *)

(** A line that would be read as the icon. *)
Definition icon_at (us : list uchar) : bool := (lead c_bang us =? 1) && (lead c_space (skipn 1 us) =? 1).
Lemma ficon_none : forall s b ts us st, cov s b ts us -> icon_at us = false -> ficon st ts = None.
Proof.
  intros s b ts us st H Hi. unfold ficon. destruct ts as [|t ts]; [reflexivity|]. destruct (is_one_bang t) eqn:E1; [|rewrite fseq_first by exact E1; reflexivity]. cbn [fseq]. rewrite E1.
  unfold icon_at in Hi. unfold is_one_bang in E1. rewrite swap3 in E1. apply andb_true_iff in E1. destruct E1 as [E1 _].
  rewrite (run_test _ _ _ _ _ c_bang Bang 1 H eq_refl ltac:(lia) ltac:(left; discriminate)) in E1. rewrite E1 in Hi. apply Nat.eqb_eq in E1.
  destruct (cov_run _ _ _ _ _ c_bang Bang 0 H eq_refl E1 ltac:(left; discriminate)) as (_ & _ & _ & _ & C). destruct ts as [|t2 ts]; [reflexivity|].
  cbn [fseq]. rewrite (space1_test _ _ _ _ _ C). cbn [andb] in Hi. rewrite Hi. reflexivity.
Qed.

Definition uoption (f : list uchar -> list uchar) (o : option (list uchar)) : list uchar := match o with Some x => f x | None => [] end.
Definition utitle (o : option (list uchar)) : list uchar := uoption (fun t => raw c_space :: t) o.
Definition uicon (o : option (list uchar)) : list uchar := uoption (fun i => [raw c_bang; raw c_space] ++ i ++ [raw c_nl]) o.
Definition oline (o : option (list uchar)) : Prop := match o with Some t => absent c_nl t /\ raw_at c_space t = false | None => True end.

Lemma line_calm : forall n A B, absent c_nl A -> (n <> 0 -> calm (cst n) false A B).
Proof.
  intros n A B Ab Hn. apply calm_cst1. apply calm_intro. intros Y1 Y2 -> NY. destruct Y2 as [|y Y2]; [congruence|]. cbn [ustop existsb fires app]. rewrite orb_false_r. apply orb_false_iff. split.
  - destruct (aft false Y1) eqn:Ey; [|reflexivity]. exfalso. apply aft_true in Ey. destruct Ey as [[_ Ey]|(r & ->)]; [discriminate|]. apply Ab. rewrite !in_app_iff. left. right. left. reflexivity.
  - destruct (is_nl y) eqn:Ey; [|reflexivity]. exfalso. apply is_nl_raw in Ey. subst y. apply Ab. rewrite in_app_iff. right. left. reflexivity.
Qed.
Lemma line_calm0 : forall n A B, absent c_nl A -> calm (cst n) false A B.
Proof. intros [|n] A B H; [apply calm_none|]. apply line_calm; [exact H|discriminate]. Qed.
Lemma line_stop : forall n b R, raw_at c_nl R = false -> raw2_at c_percent c_rcurly R = false -> ustop (cst n) b (raw c_nl :: R) = false.
Proof.
  intros n b R H1 H2. apply cst_stop_false; [discriminate|]. cbn [fires]. replace (raw2_at c_percent c_rcurly (raw c_nl :: R)) with false by (destruct R; reflexivity). rewrite andb_false_r. cbn [orb].
  rewrite H2. apply andb_false_r.
Qed.

Lemma icon_units : forall s n ts i R, cov s true ts ([raw c_bang; raw c_space] ++ i ++ raw c_nl :: R) -> absent c_nl i -> raw_at c_space i = false -> raw_at c_nl R = false -> raw2_at c_percent c_rcurly R = false ->
  exists o b c r, ficon (StopTerminator :: cst n) ts = Some (Node NIcon o [Leaf b] [c], r) /\ ts = o ++ b ++ c :: r /\ ttexts s b = chars i /\ cov s true r R.
Proof.
  intros s n ts i R H Ab Hs H1 H2. change ([raw c_bang; raw c_space] ++ i ++ raw c_nl :: R) with (repeat (raw c_bang) 1 ++ raw c_space :: i ++ raw c_nl :: R) in H.
  destruct (cov_runs _ _ _ c_bang Bang 0 _ H eq_refl ltac:(left; discriminate) eq_refl) as (t & r & -> & E1 & E2 & E3 & E4 & E5). change (aft true (repeat (raw c_bang) 1)) with false in E5.
  assert (Ns : raw_at c_space (i ++ raw c_nl :: R) = false) by (destruct i; [reflexivity|exact Hs]).
  change (raw c_space :: i ++ raw c_nl :: R) with (repeat (raw c_space) 1 ++ i ++ raw c_nl :: R) in E5.
  destruct (cov_runs _ _ _ c_space Space 0 _ E5 eq_refl ltac:(left; discriminate) Ns) as (t2 & r2 & -> & F1 & F2 & F3 & F4 & F5). change (aft false (repeat (raw c_space) 1)) with false in F5.
  unfold ficon. cbn [fseq]. replace (is_one_bang t) with true by (unfold is_one_bang; rewrite E1, E2, E3; reflexivity). replace (is_space_1 t2) with true by (unfold is_space_1; rewrite F1, F3; reflexivity).
  assert (Hf := cov_fine _ _ _ _ F5). apply fine_app in Hf. destruct Hf as [_ Hf]. apply fine_cons in Hf.
  assert (Ea : aft false i = false) by (destruct (aft false i) eqn:X; [|reflexivity]; apply aft_true in X; destruct X as [[_ X]|X]; [discriminate|exfalso; exact (absent_ends _ _ Ab X)]).
  destruct (until_close s (StopTerminator :: cst n) is_eol i false r2 [raw c_nl] R Eol F5) as (b & c & r3 & G1 & G2 & G3 & G4 & G5 & G6).
  - apply seam_nl. apply absent_ends. exact Ab.
  - apply calm_cons; [|apply line_calm0; exact Ab]. apply calm_term; [apply (nosub_absent _ (raw c_nl)); [left; reflexivity|exact Ab]|]. intros X. exfalso. exact (absent_ends _ _ Ab X).
  - intros A1 A2 w ts' -> NA X. apply absent_suffix in Ab. destruct (no_line_end _ _ _ _ _ _ X NA Ab) as [K1 K2]. unfold is_eol. destruct (kind w); try reflexivity; congruence.
  - apply utok_eol; [apply Hf|exact H1].
  - intros w K _ _. unfold is_eol. rewrite K. reflexivity.
  - change (ustop (StopTerminator :: cst n) (aft false i) ([raw c_nl] ++ R)) with (raw2_at c_nl c_nl (raw c_nl :: R) || ustop (cst n) (aft false i) (raw c_nl :: R)).
    replace (raw2_at c_nl c_nl (raw c_nl :: R)) with false by (destruct R; [reflexivity|]; symmetry; exact H1). rewrite line_stop by assumption. reflexivity.
  - rewrite G1. exists [t; t2], b, c, r3. split; [reflexivity|]. split; [rewrite G2; reflexivity|]. auto.
Qed.

(** No icon: its line ends with a blank line. *)
Lemma ficon_blank : forall s n ts A R, cov s true ts (A ++ raw c_nl :: R) -> absent c_nl A -> raw_at c_nl R = true -> ficon (StopTerminator :: cst n) ts = None.
Proof.
  intros s n ts A R H Ab HR. destruct (icon_at (A ++ raw c_nl :: R)) eqn:I; [|exact (ficon_none _ _ _ _ _ H I)]. unfold icon_at in I. apply andb_true_iff in I. destruct I as [I1 I2]. apply Nat.eqb_eq in I1, I2.
  destruct ts as [|t ts]; [reflexivity|]. destruct (cov_run _ _ _ _ _ c_bang Bang 0 H eq_refl I1 ltac:(left; discriminate)) as (_ & _ & _ & _ & C). destruct ts as [|t2 ts]; [unfold ficon; cbn [fseq]; destruct (is_one_bang t); reflexivity|].
  destruct (cov_run _ _ _ _ _ c_space Space 0 C eq_refl I2 ltac:(left; discriminate)) as (_ & _ & _ & _ & D).
  destruct (lead_ge1 c_bang _ ltac:(rewrite I1; apply le_n)) as (r & E & _). rewrite E in D, I2. cbn [skipn] in D, I2. destruct (lead_ge1 c_space r ltac:(lia)) as (r2 & -> & _). cbn [skipn] in D.
  destruct A as [|a [|b A]]; [discriminate E|discriminate E|]. injection E as -> -> E. rewrite <- E in D. assert (Ab' : absent c_nl A) by (intros X; apply Ab; right; right; exact X).
  unfold ficon. cbn [fseq]. destruct (is_one_bang t); [|reflexivity]. destruct (is_space_1 t2); [|reflexivity].
  destruct (until_units s (StopTerminator :: cst n) is_eol A _ ts (raw c_nl :: R) D) as (b1 & r3 & G1 & G2 & G3 & G4).
  - apply seam_nl. apply absent_ends. exact Ab'.
  - apply calm_cons; [|apply line_calm0; exact Ab']. apply calm_term; [apply (nosub_absent _ (raw c_nl)); [left; reflexivity|exact Ab']|]. intros X. exfalso. exact (absent_ends _ _ Ab' X).
  - intros A1 A2 w ts' -> NA X. apply absent_suffix in Ab'. destruct (no_line_end _ _ _ _ _ _ X NA Ab') as [K1 K2]. unfold is_eol. destruct (kind w); try reflexivity; congruence.
  - rewrite G4. destruct r3 as [|w r3]; [reflexivity|]. cbn [until]. rewrite (stopped_units _ _ _ _ _ G3). cbn [ustop existsb fires]. replace (raw2_at c_nl c_nl (raw c_nl :: R)) with true by (destruct R; [discriminate|symmetry; exact HR]). reflexivity.
Qed.
Lemma raw2_tail : forall c d A x B, A <> [] -> raw2_at c d A = false -> raw_at d (x :: B) = false -> raw2_at c d (A ++ x :: B) = false.
Proof.
  intros c d A x B NE H1 H2. destruct (raw2_at c d (A ++ x :: B)) eqn:E; [|reflexivity]. apply raw2_app in E; [|exact NE]. destruct E as [E|[_ E]]; congruence.
Qed.
Lemma hbody_cons : forall l ls B, exists R, hbody (l :: ls) B = uflats l ++ raw c_nl :: R /\ (ls = [] /\ R = bang2 ++ B \/ raw_at c_nl R = true).
Proof.
  intros l ls B. unfold hbody. cbn [map ujoin]. destruct ls as [|l2 ls]; cbn [map].
  - rewrite app_nil_r. eexists. split; [reflexivity|]. left. split; reflexivity.
  - rewrite <- app_assoc. eexists. split; [reflexivity|]. right. reflexivity.
Qed.

Lemma highlight_parses : forall n ot oi ls, oline ot -> oline oi -> (ls = [] -> ot <> None /\ oi = None) -> Forall (fun l => l = [] \/ hpar n l) ls ->
  match ls with l :: _ => hpar n l /\ raw_at c_nl (uflats l) = false /\ (oi = None -> (forall R, icon_at (uflats l ++ raw c_nl :: R) = false) \/ ls <> [l] /\ absent c_nl (uflats l)) | [] => True end ->
  parses n (bang2 ++ utitle ot ++ [raw c_nl] ++ uicon oi ++ ujoin (map uflats ls) ++ [raw c_nl] ++ bang2)
    [YHighlight (option_map chars ot) (option_map chars oi) (map (map uerase) ls)].
Proof.
  intros n ot oi ls Ht Hi He F Hl s ts B fuel H T Hend Hfu. rewrite <- !app_assoc in H. cbn [app] in H. change (ujoin (map uflats ls) ++ raw c_nl :: bang2 ++ B) with (hbody ls B) in H.
  assert (Ea : aft true (bang2 ++ utitle ot ++ [raw c_nl] ++ uicon oi ++ ujoin (map uflats ls) ++ [raw c_nl] ++ bang2) = false) by (rewrite !aft_app; reflexivity). rewrite Ea.
  assert (N1 : raw_at c_bang (utitle ot ++ raw c_nl :: uicon oi ++ hbody ls B) = false) by (destruct ot; reflexivity).
  destruct (two_bangs_units _ _ _ H N1) as (t & r & -> & E1 & E2).
  assert (Lb : lead c_bang (bang2 ++ utitle ot ++ raw c_nl :: uicon oi ++ hbody ls B) = 2) by exact (lead_repeat c_bang 2 _ N1).
  unfold fblock. rewrite (fcode_none _ _ _ _ _ _ H) by reflexivity. rewrite (fcoll_none _ _ _ _ _ _ _ H) by reflexivity. unfold forelse. rewrite (fembed_none _ _ _ _ _ _ H) by reflexivity.
  (* what follows the first line *)
  set (rest1 := uicon oi ++ hbody ls B) in *.
  assert (Hr : ls <> [] -> raw_at c_nl rest1 = false /\ raw2_at c_percent c_rcurly rest1 = false).
  { intros NL. destruct oi as [i|]; [split; reflexivity|]. cbn [uicon uoption app] in rest1. unfold rest1. destruct ls as [|l ls]; [congruence|]. destruct Hl as [Fl Hl]. destruct Fl as (Gl & NE & _ & _ & Hp & _).
    pose proof (ugoods_ne l Gl NE) as NU. destruct (hbody_cons l ls B) as (R & -> & _). split; [rewrite raw_at_app by exact NU; apply Hl|]. apply raw2_tail; [exact NU|exact Hp|reflexivity]. }
  (* the icon and the body, given the tokens after the first line *)
  assert (Rest : forall r1, cov s true r1 (match ls with [] => bang2 ++ B | _ => rest1 end) -> exists k2 r2 k3 t3 c3 rest y, opt_tree (ficon (StopTerminator :: cst n) r1) r1 = (k2, r2)
     /\ nth_is 0 col0 r2 = true /\ fhighlight_loop (S (List.length r2)) (cst n) r2 = Some (k3, t3 :: c3, rest) /\ r1 = y ++ t3 :: c3 ++ rest
     /\ flat_map (child NModifier) (k2 ++ k3) = [] /\ child_text s NIcon (k2 ++ k3) = option_map chars oi /\ flat_map (trimmed s) (k2 ++ k3) = map (map uerase) ls /\ after s false n rest B).
  { intros r1 C1. assert (X : exists k2 r2 y, opt_tree (ficon (StopTerminator :: cst n) r1) r1 = (k2, r2) /\ r1 = y ++ r2 /\ cov s true r2 (match ls with [] => bang2 ++ B | _ => hbody ls B end)
       /\ flat_map (child NModifier) k2 = [] /\ flat_map (trimmed s) k2 = [] /\ (forall k3, flat_map (child NIcon) k3 = [] -> child_text s NIcon (k2 ++ k3) = option_map chars oi)).
    { destruct ls as [|l ls].
      - destruct (He eq_refl) as [_ ->]. exists [], r1, []. rewrite (ficon_none _ _ _ _ _ C1).
        2:{ unfold icon_at. pose proof (stail_not n B c_bang T ltac:(discriminate)) as HB. pose proof (lead_repeat c_bang 2 B HB) as L. change (repeat (raw c_bang) 2) with bang2 in L. rewrite L. reflexivity. }
        split; [reflexivity|]. split; [reflexivity|]. split; [exact C1|]. split; [reflexivity|]. split; [reflexivity|]. intros k3 Q. unfold child_text. cbn [app]. rewrite Q. reflexivity.
      - destruct oi as [i|].
        + destruct Hi as [Hi1 Hi2]. unfold rest1 in C1. cbn [uicon uoption] in C1. rewrite <- !app_assoc in C1. cbn [app] in C1.
          destruct Hl as [Fl Hl]. destruct Fl as (Gl & NE & _ & _ & Hp & _). pose proof (ugoods_ne l Gl NE) as NU. destruct (hbody_cons l ls B) as (R & EB & _).
          destruct (icon_units s n r1 i (hbody (l :: ls) B) C1 Hi1 Hi2) as (o & b & c & r2 & I1 & I2 & I3 & I4).
          { rewrite EB, raw_at_app by exact NU. apply Hl. }
          { rewrite EB. apply raw2_tail; [exact NU|exact Hp|reflexivity]. }
          rewrite I1. exists [Node NIcon o [Leaf b] [c]], r2, (o ++ b ++ [c]). split; [reflexivity|]. split; [rewrite I2, <- !app_assoc; reflexivity|]. split; [exact I4|]. split; [reflexivity|]. split; [reflexivity|].
          intros k3 Q. unfold child_text. cbn [app flat_map child]. destruct (node_eq_dec NIcon NIcon) as [_|X]; [|congruence]. cbn [app inner flat_map]. rewrite app_nil_r, I3. reflexivity.
        + exists [], r1, []. destruct Hl as [_ [_ Hl]]. destruct (hbody_cons l ls B) as (R & EB & ER). unfold rest1 in C1. cbn [uicon uoption app] in C1.
          assert (NI : ficon (StopTerminator :: cst n) r1 = None).
          { destruct (Hl eq_refl) as [Hl'|[Hl1 Hl2]]; [apply (ficon_none _ _ _ _ _ C1); rewrite EB; apply Hl'|]. rewrite EB in C1. apply (ficon_blank _ _ _ _ _ C1 Hl2). destruct ER as [[-> _]|ER]; [congruence|exact ER]. }
          rewrite NI. split; [reflexivity|]. split; [reflexivity|]. split; [exact C1|]. split; [reflexivity|]. split; [reflexivity|].
          intros k3 Q. unfold child_text. cbn [app]. rewrite Q. reflexivity. }
    destruct X as (k2 & r2 & y & X1 & X2 & X3 & X4 & X5 & X6).
    destruct ls as [|l ls].
    - destruct (hloop_end s n (S (List.length r2)) r2 B X3 T ltac:(lia)) as (t3 & c3 & rest & Y1 & Y2 & Y3).
      exists k2, r2, [], t3, c3, rest, y. split; [exact X1|]. split; [rewrite Y2 in X3 |- *; exact (cov_col0 _ _ _ _ _ X3)|]. split; [exact Y1|]. split; [rewrite X2, Y2; reflexivity|].
      rewrite !flat_map_app, X4, X5, X6 by reflexivity. auto.
    - destruct Hl as [Fl Hl]. pose proof Fl as (Gl & NE & _ & _ & Hp & Hbb & _). pose proof (ugoods_ne l Gl NE) as NU. destruct (hbody_cons l ls B) as (R & EB & ER).
      destruct (hloop_pars s n ls l (List.length r2) r2 B X3 F T ltac:(lia)) as (p & r3 & k & t3 & c3 & rest & z & Y1 & Y2 & Y3 & Y4 & Y5 & Y6).
      rewrite EB in X3. destruct r2 as [|w r2]; [apply cov_nil_r in X3; destruct (uflats l); discriminate|].
      exists k2, (w :: r2), (p :: k), t3, c3, rest, (y ++ z). split; [exact X1|]. split; [exact (cov_col0 _ _ _ _ _ X3)|]. split.
      { cbn [fhighlight_loop]. rewrite (stopped_units _ _ _ _ _ X3).
        assert (NU' : uflats l ++ raw c_nl :: R <> []) by (destruct (uflats l); discriminate).
        rewrite cst_stop_false; [|exact NU'|].
        2:{ cbn [fires andb]. rewrite raw2_tail by (assumption || reflexivity). cbn [orb]. destruct Hl as [Hl _]. destruct (uflats l) as [|u us]; [congruence|]. cbn [app]. change (raw_at c_nl (u :: us)) with (is_nl u) in Hl. rewrite Hl. reflexivity. }
        replace (is_two_bangs w) with false.
        2:{ symmetry. unfold is_two_bangs. rewrite swap3. destruct (kind_eqb (kind w) Bang && (tlen w =? 2)) eqn:K; [|reflexivity]. exfalso.
            rewrite (run_test _ _ _ _ _ c_bang Bang 2 X3 eq_refl ltac:(lia) ltac:(left; discriminate)) in K. apply Nat.eqb_eq in K. destruct (lead_split c_bang (uflats l ++ raw c_nl :: R)) as [Es _]. rewrite K in Es.
            assert (Q : raw2_at c_bang c_bang (uflats l ++ raw c_nl :: R) = true) by (rewrite Es; reflexivity). rewrite raw2_tail in Q; [discriminate|exact NU|exact (Hbb [] _ eq_refl eq_refl)|reflexivity]. }
        replace (is_terminator w) with false.
        2:{ symmetry. unfold is_terminator. rewrite (term_test _ _ _ _ _ X3). destruct Hl as [Hl _]. destruct (raw2_at c_nl c_nl (uflats l ++ raw c_nl :: R)) eqn:Q; [|reflexivity]. exfalso.
            apply raw2_app in Q; [|exact NU]. destruct Q as [Q|[Q _]]; [|rewrite Q in Hl; discriminate]. apply raw2_at_true in Q. destruct Q as (q & Q). rewrite Q in Hl. discriminate. }
        unfold hstop in Y1. rewrite Y1. rewrite Y2. reflexivity. }
      split; [rewrite X2, Y5, <- app_assoc; reflexivity|]. rewrite !flat_map_app, X4, X5. destruct Y4 as [Q1 Q2]. rewrite X6 by exact Q2. auto. }
  (* the first line *)
  assert (NT : ls <> [] -> utok (raw c_nl :: rest1) = Some (Eol, [raw c_nl], rest1)).
  { intros NL. apply utok_eol; [|apply Hr; exact NL]. assert (Hf := cov_fine _ _ _ _ E2). apply fine_app in Hf. destruct Hf as [_ Hf]. apply fine_cons in Hf. apply Hf. }
  destruct ot as [ut|].
  - destruct Ht as [Ht1 Ht2]. cbn [utitle uoption app] in E2. assert (Ns : raw_at c_space (ut ++ raw c_nl :: rest1) = false) by (destruct ut; [reflexivity|exact Ht2]).
    change (raw c_space :: ut ++ raw c_nl :: rest1) with (repeat (raw c_space) 1 ++ ut ++ raw c_nl :: rest1) in E2.
    destruct (cov_runs _ _ _ c_space Space 0 _ E2 eq_refl ltac:(left; discriminate) Ns) as (t2 & r2 & -> & F1 & F2 & F3 & F4 & F5). change (aft false (repeat (raw c_space) 1)) with false in F5.
    assert (X : exists E R, raw c_nl :: rest1 = E ++ R /\ eol_pat E R /\ R = match ls with [] => bang2 ++ B | _ => rest1 end /\ ustop (cst n) (aft false ut) (E ++ R) = false).
    { destruct ls as [|l ls].
      - destruct (He eq_refl) as [_ ->]. exists [raw c_nl; raw c_nl], (bang2 ++ B). split; [reflexivity|]. split; [right; reflexivity|]. split; [reflexivity|].
        apply cst_stop_false; [discriminate|]. cbn. rewrite andb_false_r. reflexivity.
      - exists [raw c_nl], rest1. destruct (Hr ltac:(discriminate)) as [R1 R2]. split; [reflexivity|]. split; [left; auto|]. split; [reflexivity|]. apply line_stop; assumption. }
    destruct X as (E & R & X1 & X2 & X3 & X4). rewrite X1 in F5.
    destruct (modifier_units s (cst n) r2 ut E R F5 Ht1 X2) as (b1 & c1 & r3 & G1 & G2 & G3 & G4); [apply line_calm0; exact Ht1|exact X4|].
    rewrite X3 in G4. destruct (Rest r3 G4) as (k2 & r4 & k3 & t3 & c3 & rest & y & R1 & R2 & R3 & R4 & R5 & R6 & R7 & R8).
    unfold fhighlight. cbn [fseq]. rewrite E1. replace (is_space_1 t2) with true by (unfold is_space_1; rewrite F1, F3; reflexivity). cbn [orb last]. replace (is_eol t2) with false by (unfold is_eol; rewrite F1; reflexivity).
    cbn [negb]. rewrite G1. cbn [opt_tree]. rewrite R1, R2, R3. eexists _, t, (t2 :: b1 ++ c1 :: y ++ t3 :: c3), rest. split; [reflexivity|]. split.
    { rewrite G2, R4. cbn. rewrite <- !app_assoc. cbn. rewrite <- !app_assoc. reflexivity. }
    split; [|exact R8]. cbn [blocks app]. rewrite child_text_hd. cbn [flat_map trimmed paragraph_of map app inner]. rewrite app_nil_r, G3, R7.
    change (child_text s NIcon (Node NModifier [] [Leaf b1] [c1] :: k2 ++ k3)) with (child_text s NIcon (k2 ++ k3)). rewrite R6. reflexivity.
  - destruct ls as [|l ls]; [destruct (He eq_refl) as [X _]; congruence|]. cbn [utitle uoption app] in E2.
    destruct (Hr ltac:(discriminate)) as [Q1 Q2]. destruct (cov_eol _ _ _ _ E2 Q1) as (t2 & r2 & -> & F1 & F2 & F3 & F4).
    destruct (Rest r2 F4) as (k2 & r4 & k3 & t3 & c3 & rest & y & R1 & R2 & R3 & R4 & R5 & R6 & R7 & R8).
    unfold fhighlight. cbn [fseq]. rewrite E1. replace (is_eol t2) with true by (unfold is_eol; rewrite F1; reflexivity). rewrite orb_true_r. cbn [last]. replace (is_eol t2) with true by (unfold is_eol; rewrite F1; reflexivity).
    cbn [negb]. rewrite R1, R2, R3. eexists _, t, (t2 :: y ++ t3 :: c3), rest. split; [reflexivity|]. split.
    { rewrite R4. cbn. rewrite <- !app_assoc. reflexivity. }
    split; [|exact R8]. cbn [blocks app]. unfold child_text at 1. rewrite R5, R6, R7. reflexivity.
Qed.
