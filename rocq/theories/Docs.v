(** Documents on units: sequences of blocks, collapsibles, metadata. *)
From Coq Require Import String.
From Verif Require Import Base Lexer LexSpec LexProofs LexFacts Ops Parser FParser TokFacts ToYamd TreeAst Ast Tame Units ULex Stops Inline AstUnits Calm Blocks.

(** ** Sequences of blocks *)

Fixpoint ujoin (l : list (list uchar)) : list uchar :=
  match l with [] => [] | a :: r => a ++ match r with [] => [] | _ => raw c_nl :: raw c_nl :: ujoin r end end.
(** Only the last block may end with a line feed. *)
Fixpoint closed (l : list (list uchar)) : Prop :=
  match l with [] => True | a :: r => match r with [] => True | _ => ~ ends c_nl a /\ closed r end end.
Definition is_block (n : nat) (p : list uchar * list ynode) : Prop := starts (fst p) /\ parses n (fst p) (snd p).
Definition dtail (n : nat) (T : list uchar) : Prop := T = [] \/ (n <> 0 /\ exists R, T = raw c_nl :: raw c_percent :: raw c_rcurly :: R).

Lemma dtail_stail : forall n T, dtail n T -> stail n T.
Proof. intros n T [->|H]; [left; reflexivity|right; right; exact H]. Qed.

Lemma raw2_app : forall c d A B, raw2_at c d (A ++ B) = true -> A <> [] -> raw2_at c d A = true \/ (A = [raw c] /\ raw_at d B = true).
Proof.
  intros c d A B E NE. apply raw2_at_true in E. destruct E as (r & E). destruct A as [|a [|a' A]]; [congruence| |].
  - injection E as -> E. right. split; [reflexivity|]. cbn in E. rewrite E. apply raw_at_raw.
  - injection E as -> -> _. left. apply raw2_at_raw.
Qed.
Lemma starts_stop : forall n A B, starts A -> stail n B -> (ends c_nl A -> B = []) ->
  ustop (cst n) true (A ++ B) = false /\ raw2_at c_nl c_nl (A ++ B) = false.
Proof.
  intros n A B (NE & H1 & H2 & H3) T He. pose proof (stail_not n B c_rcurly T ltac:(discriminate)) as NB. split.
  - apply cst_stop_false; [destruct A; [congruence|discriminate]|]. cbn [fires andb]. apply orb_false_iff. split.
    + destruct (raw2_at c_percent c_rcurly (A ++ B)) eqn:E; [|reflexivity]. apply raw2_app in E; [|exact NE]. destruct E as [E|[_ E]]; congruence.
    + destruct A as [|a A]; [congruence|]. cbn [app]. destruct (is_nl a) eqn:Ea; [|reflexivity]. cbn [andb]. apply is_nl_raw in Ea. subst a. specialize (H3 eq_refl). cbn [skipn] in H3.
      destruct A as [|a A]; [rewrite (He (ex_intro _ [] eq_refl)); reflexivity|]. destruct (raw2_at c_percent c_rcurly ((a :: A) ++ B)) eqn:E; [|reflexivity].
      apply raw2_app in E; [|discriminate]. destruct E as [E|[_ E]]; congruence.
  - destruct (raw2_at c_nl c_nl (A ++ B)) eqn:E; [|reflexivity]. apply raw2_app in E; [|exact NE]. destruct E as [E|[-> E]]; [congruence|].
    rewrite (He (ex_intro _ [] eq_refl)) in E. discriminate.
Qed.

Lemma docs_end : forall s b n m ts T, after s b n ts T -> dtail n T -> fdoc m (cst n) ts = ([], ts).
Proof.
  intros s b n m ts T H HT. destruct m as [|m]; [reflexivity|]. destruct ts as [|t ts]; [reflexivity|]. rewrite fdoc_step.
  replace (stopped (cst n) (t :: ts)) with true; [reflexivity|]. symmetry. destruct H as [H|(Hn & R & E & H)]; rewrite (stopped_units _ _ _ _ _ H).
  - destruct HT as [->|(Hn & R & ->)]; [reflexivity|]. destruct n as [|n]; [congruence|]. cbn. rewrite andb_false_r. reflexivity.
  - destruct n as [|n]; [congruence|]. reflexivity.
Qed.

Lemma docs_units : forall s n l m ts T, l <> [] -> Forall (is_block n) l -> closed (map fst l) -> (ends c_nl (fst (last l ([], []))) -> T = []) ->
  cov s true ts (ujoin (map fst l) ++ T) -> dtail n T -> List.length ts < m ->
  exists k b ts1 ts2, fdoc m (cst n) ts = (k, ts2) /\ flat_map (blocks s) k = flat_map snd l /\ after s b n ts2 T /\ ts = ts1 ++ ts2.
Proof.
  intros s n l. induction l as [|p l IH]; intros m ts T NE F Cl He H HT Hm; [congruence|]. inversion F as [|? ? Fp Fl]; subst. destruct Fp as [Sp Pp].
  destruct m as [|m]; [lia|]. cbn [map ujoin] in H.
  assert (X : exists B, cov s true ts (fst p ++ B) /\ stail n B /\ (ends c_nl (fst p) -> B = [])
    /\ ((l = [] /\ B = T) \/ (l <> [] /\ B = raw c_nl :: raw c_nl :: ujoin (map fst l) ++ T))).
  { destruct l as [|q l].
    - rewrite app_nil_r in H. exists T. split; [exact H|]. split; [apply dtail_stail; exact HT|]. split; [exact He|]. left. auto.
    - rewrite <- app_assoc in H. eexists. split; [exact H|]. split; [right; left; eexists; reflexivity|]. split; [|right; split; [discriminate|reflexivity]].
      intros E. destruct Cl as [Cl _]. contradiction. }
  destruct X as (B & C & TB & HeB & HB). destruct (starts_stop n _ _ Sp TB HeB) as [S1 S2].
  destruct (Pp s ts B m C TB HeB ltac:(lia)) as (x & t & ts1 & ts2 & E1 & -> & E3 & E4). rewrite fdoc_step. rewrite (stopped_units _ _ _ _ _ C), S1.
  unfold is_terminator. rewrite (term_test _ _ _ _ _ C), S2, E1. cbn [List.length] in Hm. rewrite app_length in Hm.
  destruct HB as [[-> ->]|[NL ->]].
  - rewrite (docs_end _ _ _ _ _ _ E4 HT). exists [x], (aft true (fst p)), (t :: ts1), ts2. split; [reflexivity|]. cbn [flat_map]. rewrite E3, !app_nil_r. auto.
  - destruct E4 as [E4|(_ & R & Q & _)]; [|discriminate Q]. destruct (cov_term _ _ _ _ E4) as (e & r3 & -> & F1 & F2 & F3 & F4).
    cbn [List.length] in Hm. destruct m as [|m]; [lia|]. rewrite fdoc_step. rewrite (stopped_units _ _ _ _ _ E4).
    rewrite cst_stop_false by (discriminate || (cbn; rewrite andb_false_r; reflexivity)). unfold is_terminator. rewrite F1. change (kind_eqb Terminator Terminator) with true. cbn match.
    destruct (IH m r3 T NL Fl) as (k & b & ts3 & ts4 & I1 & I2 & I3 & ->).
    + destruct l; [congruence|]. apply Cl.
    + destruct l; [congruence|]. exact He.
    + exact F4.
    + exact HT.
    + lia.
    + rewrite I1. exists (x :: Leaf [e] :: k), b, (t :: ts1 ++ e :: ts3), ts4. split; [reflexivity|]. cbn [flat_map blocks app]. rewrite E3, I2. repeat split; [exact I3|].
      cbn. rewrite <- app_assoc. reflexivity.
Qed.

(** ** Collapsibles *)

Lemma cend_units : forall s n ts B, cov s true ts (raw c_percent :: raw c_rcurly :: B) -> stail n B ->
  exists t c rest, fcollapsible_end ts = Some (t :: c, rest) /\ ts = t :: c ++ rest /\ after s false n rest B.
Proof.
  intros s n ts B H T. destruct (cov_cend _ _ _ _ H) as (t & ts' & -> & E1 & E2 & E3). assert (Ht : is_collapsible_end t = true) by (unfold is_collapsible_end; rewrite E1, E2; reflexivity).
  unfold fcollapsible_end. cbn [fseq]. rewrite Ht. destruct T as [->|[(R & ->)|(Hn & R & ->)]].
  - apply cov_nil_inv in E3. subst ts'. exists t, [], []. repeat split. left. constructor.
  - destruct (cov_term _ _ _ _ E3) as (e & r & -> & F1 & F2 & F3 & F4). unfold is_eol. rewrite F1. exists t, [], (e :: r). repeat split. left. exact E3.
  - destruct (cov_eol _ _ _ _ E3 eq_refl) as (e & r & -> & F1 & F2 & F3 & F4). unfold is_eol. rewrite F1. exists t, [e], r. repeat split. right. split; [exact Hn|]. exists R. auto.
Qed.

Definition cstart : list uchar := [raw c_lcurly; raw c_percent].
Definition cend : list uchar := [raw c_percent; raw c_rcurly].
Lemma collapsible_parses : forall n ut l, absent c_nl ut -> raw_at c_space ut = false ->
  Forall (is_block (S n)) l -> Forall (fun p => ~ ends c_nl (fst p)) l -> raw_at c_nl (ujoin (map fst l)) = false ->
  parses n (cstart ++ [raw c_space] ++ ut ++ [raw c_nl] ++ ujoin (map fst l) ++ [raw c_nl] ++ cend) [YCollapsible (chars ut) (flat_map snd l)].
Proof.
  intros n ut l A1 A3 F Fe Hnl s ts B fuel H T He Hfu. rewrite <- !app_assoc in H.
  assert (Ea : aft true (cstart ++ [raw c_space] ++ ut ++ [raw c_nl] ++ ujoin (map fst l) ++ [raw c_nl] ++ cend) = false) by (rewrite !aft_app; reflexivity). rewrite Ea.
  destruct (cov_step _ _ _ _ _ _ _ H (utok_cstart _)) as (t & ts' & -> & E1 & E2 & E3 & E4 & E5). cbn [line_end] in E5.
  assert (Nsp : raw_at c_space (ut ++ [raw c_nl] ++ ujoin (map fst l) ++ [raw c_nl] ++ cend ++ B) = false) by (destruct ut; [reflexivity|exact A3]).
  destruct (cov_runs _ _ _ c_space Space 0 _ E5 eq_refl ltac:(left; discriminate) Nsp) as (t2 & ts2 & -> & F1 & F2 & F3 & F4 & F5). change (aft false (repeat (raw c_space) 1)) with false in F5.
  unfold fblock. rewrite (fcode_none _ _ _ _ _ _ H) by reflexivity. cbn [List.length] in Hfu. destruct fuel as [|m]; [lia|]. cbn [fcollapsible fseq].
  replace (is_collapsible_start t) with true by (unfold is_collapsible_start; rewrite E1, E2; reflexivity).
  replace (is_space_or_eol t2) with true by (unfold is_space_or_eol; rewrite F1; reflexivity).
  (* the title *)
  set (J := ujoin (map fst l)) in *.
  assert (X : exists E R, ut ++ [raw c_nl] ++ J ++ [raw c_nl] ++ cend ++ B = ut ++ E ++ R /\ eol_pat E R /\ R = match l with [] => cend ++ B | _ => J ++ [raw c_nl] ++ cend ++ B end
     /\ ustop (cst n) (aft false ut) (E ++ R) = false /\ raw_at c_rcurly (E ++ R) = false).
  { destruct l as [|p l].
    - exists [raw c_nl; raw c_nl], (cend ++ B). split; [reflexivity|]. split; [right; reflexivity|]. split; [reflexivity|]. split; [|reflexivity].
      apply cst_stop_false; [discriminate|]. cbn. rewrite andb_false_r. reflexivity.
    - exists [raw c_nl], (J ++ [raw c_nl] ++ cend ++ B). inversion F as [|? ? [Fp _] _]; subst. destruct Fp as (NE & S1 & S2 & S3).
      assert (NJ : J <> []) by (unfold J; cbn [map ujoin]; destruct (fst p); [congruence|discriminate]).
      split; [reflexivity|]. split; [left; split; [reflexivity|]; rewrite raw_at_app by exact NJ; exact Hnl|]. split; [reflexivity|]. split; [|reflexivity].
      apply cst_stop_false; [discriminate|]. cbn [fires app]. replace (raw2_at c_percent c_rcurly (raw c_nl :: J ++ [raw c_nl] ++ cend ++ B)) with false by reflexivity. rewrite andb_false_r. cbn [orb is_nl raw fst snd negb andb].
      change (char_eqb c_nl c_nl) with true. cbn [andb]. unfold J. cbn [map ujoin]. 
      destruct (raw2_at c_percent c_rcurly ((fst p ++ match map fst l with [] => [] | _ :: _ => raw c_nl :: raw c_nl :: ujoin (map fst l) end) ++ [raw c_nl] ++ cend ++ B)) eqn:E; [|exact E].
      rewrite <- app_assoc in E. apply raw2_app in E; [|exact NE]. destruct E as [E|[_ E]]; [congruence|]. destruct (map fst l); discriminate E. }
  destruct X as (E & R & X1 & X2 & X3 & X4 & X5). rewrite X1 in F5.
  destruct (modifier_units s (cst n) ts2 ut E R F5 A1 X2) as (b1 & c1 & r1 & G1 & G2 & G3 & G4).
  { destruct n as [|n]; [apply calm_none|]. apply calm_cst1. apply calm_intro. intros Y1 Y2 -> NY. destruct Y2 as [|y Y2]; [congruence|]. cbn [ustop existsb fires app]. rewrite orb_false_r. apply orb_false_iff. split.
    - destruct (aft false Y1) eqn:Ey; [|reflexivity]. exfalso. apply aft_true in Ey. destruct Ey as [[_ Ey]|(r & ->)]; [discriminate|]. apply A1. rewrite !in_app_iff. left. right. left. reflexivity.
    - destruct (is_nl y) eqn:Ey; [|reflexivity]. exfalso. apply is_nl_raw in Ey. subst y. apply A1. rewrite in_app_iff. right. left. reflexivity. }
  { exact X4. }
  rewrite G1. cbn [opt_tree].
  assert (Lr : List.length r1 < m) by (rewrite G2, app_length in Hfu; cbn [List.length] in Hfu; lia).
  assert (C0 : nth_is 0 col0 r1 = true).
  { assert (NR : R <> []) by (rewrite X3; destruct l; [discriminate|]; destruct J; discriminate). destruct (cov_cons_inv _ _ _ _ G4 NR) as (w & r & ->). exact (cov_col0 _ _ _ _ _ G4). }
  rewrite C0.
  (* the body *)
  assert (Y : exists k2 b r2 y, fdoc m (StopCollapsibleEnd :: cst n) r1 = (k2, r2) /\ flat_map (blocks s) k2 = flat_map snd l /\ r1 = y ++ r2
    /\ after s b (S n) r2 (raw c_nl :: raw c_percent :: raw c_rcurly :: B)).
  { destruct l as [|p l].
    - exists [], true, r1, []. subst R. split; [exact (docs_end s true (S n) m r1 (raw c_nl :: raw c_percent :: raw c_rcurly :: B) ltac:(right; split; [discriminate|]; exists B; auto) ltac:(right; split; [discriminate|]; eauto))|].
      split; [reflexivity|]. split; [reflexivity|]. right. split; [discriminate|]. exists B. split; [reflexivity|exact G4].
    - assert (Cl : closed (map fst (p :: l))).
      { clear - Fe. revert p Fe. induction l as [|q l IH]; intros p Fe; [exact I|]. inversion Fe; subst. split; [assumption|]. apply IH. assumption. }
      destruct (docs_units s (S n) (p :: l) m r1 (raw c_nl :: raw c_percent :: raw c_rcurly :: B) ltac:(discriminate) F Cl) as (k & b & y & r2 & D1 & D2 & D3 & D4).
      + intros Hl. exfalso. rewrite Forall_forall in Fe. refine (Fe (last (p :: l) ([], [])) _ Hl). clear. revert p. induction l as [|q l IH]; intros p; [left; reflexivity|]. right. exact (IH q).
      + subst R. exact G4.
      + right. split; [discriminate|]. eauto.
      + exact Lr.
      + exists k, b, r2, y. auto. }
  destruct Y as (k2 & b2 & r2 & y & Y1 & Y2 & Y3 & Y4). rewrite Y1.
  assert (Z : exists k3 z r3, match r2 with e :: r3 => if is_eol e then ([Skip [e]], r3) else ([], r2) | [] => ([], r2) end = (k3, r3)
     /\ r2 = z ++ r3 /\ cov s true r3 (raw c_percent :: raw c_rcurly :: B) /\ (k3 = [] \/ exists e, k3 = [Skip [e]])).
  { destruct Y4 as [Y4|(_ & R' & Q & Y4)].
    - destruct (cov_eol _ _ _ _ Y4 eq_refl) as (e & r3 & -> & K1 & K2 & K3 & K4). exists [Skip [e]], [e], r3. unfold is_eol. rewrite K1. repeat split; eauto.
    - injection Q as <-. exists [], [], r2. split; [|repeat split; auto]. destruct r2 as [|e r3]; [reflexivity|]. unfold is_eol. rewrite (eol_test _ _ _ _ _ Y4). reflexivity. }
  destruct Z as (k3 & z & r3 & Z1 & Z2 & Z3 & Z4). rewrite Z1.
  destruct (cend_units s n r3 B Z3 T) as (t3 & c3 & rest & W1 & W2 & W3). rewrite W1.
  eexists _, t, (t2 :: b1 ++ c1 :: y ++ z ++ t3 :: c3), rest. split; [reflexivity|]. split.
  { rewrite G2, Y3, Z2, W2. cbn. rewrite <- !app_assoc. cbn. rewrite <- !app_assoc. reflexivity. }
  split; [|exact W3]. cbn [blocks app flat_map]. rewrite child_text_hd. cbn [text_or_empty inner flat_map]. rewrite app_nil_r, G3, Y2.
  replace (flat_map (fun d => match d with Node NDocument _ k4 _ => flat_map (blocks s) k4 | _ => [] end) k3) with (@nil ynode) by (destruct Z4 as [->|(e & ->)]; reflexivity).
  rewrite app_nil_r. reflexivity.
Qed.

(** ** Whole documents *)

Lemma spec_nil : spec_tokens [] = [].
Proof. reflexivity. Qed.

Lemma body_units : forall s m ts us l, cov s true ts us -> us = ujoin (map fst l) -> Forall (is_block 0) l -> closed (map fst l) -> List.length ts < m ->
  exists k, fdoc m [] ts = (k, []) /\ flat_map (blocks s) k = flat_map snd l.
Proof.
  intros s m ts us l H -> F Cl Hm. destruct l as [|p l].
  - apply cov_nil_inv in H. subst ts. exists []. split; [destruct m; reflexivity|reflexivity].
  - rewrite <- (app_nil_r (ujoin _)) in H. destruct (docs_units s 0 (p :: l) m ts [] ltac:(discriminate) F Cl ltac:(reflexivity) H ltac:(left; reflexivity) Hm) as (k & b & ts1 & ts2 & E1 & E2 & E3 & E4).
    destruct E3 as [E3|(Hn & _)]; [|congruence]. apply cov_nil_inv in E3. subst ts2. exists k. auto.
Qed.

Lemma document_plain : forall l, let us := ujoin (map fst l) in fine us -> Forall (is_block 0) l -> closed (map fst l) -> (lead c_minus us =? 3) = false ->
  document_of (render us) = mk_yamd None (flat_map snd l).
Proof.
  intros l us Hf F Cl Hm. pose proof (cov_tokens us Hf) as H. unfold document_of. set (s := render us) in *. set (ts := spec_tokens s) in *.
  assert (M : fmetadata [] ts = None).
  { destruct ts as [|t ts']; [reflexivity|]. unfold fmetadata. apply fdelim_none. unfold is_three_dashes. rewrite swap3.
    rewrite (ktest _ _ _ _ _ c_minus Minus 3 H eq_refl) by (lia || (left; discriminate) || exact Hm). reflexivity. }
  unfold fparse. rewrite M. cbn [opt_tree app]. destruct (body_units s (3 * List.length ts + 5) ts us l H eq_refl F Cl ltac:(lia)) as (k & E1 & E2). rewrite E1.
  unfold doc_of. cbn [child_text flat_map child app option_map]. unfold body_of. cbn [flat_map]. rewrite E2, app_nil_r. reflexivity.
Qed.

Definition dash3 : list uchar := [raw c_minus; raw c_minus; raw c_minus].
Lemma document_meta : forall W l, let us := dash3 ++ W ++ dash3 ++ raw c_nl :: raw c_nl :: ujoin (map fst l) in fine us -> Forall (is_block 0) l -> closed (map fst l) ->
  raw_at c_minus W = false -> ends c_nl W -> (forall A1 A2, W = A1 ++ A2 -> A2 <> [] -> aft false A1 = true -> (lead c_minus A2 =? 3) = false) ->
  document_of (render us) = mk_yamd (Some (trim_both c_nl (chars W))) (flat_map snd l).
Proof.
  intros W l us Hf F Cl H0 (W0 & EW) HW. pose proof (cov_tokens us Hf) as H. unfold document_of. set (s := render us) in *. set (ts := spec_tokens s) in *. unfold us in H.
  assert (Hd : raw_at c_minus (W ++ dash3 ++ raw c_nl :: raw c_nl :: ujoin (map fst l)) = false) by (destruct W; [destruct W0; discriminate|exact H0]).
  destruct (cov_runs _ _ _ c_minus Minus 2 _ H eq_refl ltac:(left; discriminate) Hd) as (t & ts' & Ets & E1 & E2 & E3 & E4 & E5). change (aft true (repeat (raw c_minus) 3)) with false in E5.
  destruct (until_close s [] is_three_dashes W false ts' dash3 (raw c_nl :: raw c_nl :: ujoin (map fst l)) Minus E5) as (b & c & r2 & F1 & F2 & F3 & F4 & F5 & F6).
  - apply seam_special; try reflexivity; try discriminate. rewrite EW. intros (r & E). apply app_inj_tail in E. destruct E as [_ E]. discriminate.
  - apply calm_none.
  - intros A1 A2 w ts2 E NA C. unfold is_three_dashes. rewrite swap3. destruct (aft false A1) eqn:Ea; [|rewrite (cov_col0 _ _ _ _ _ C); apply andb_false_r].
    rewrite (ktest _ _ _ _ _ c_minus Minus 3 C eq_refl); [reflexivity|lia|left; discriminate|]. specialize (HW A1 A2 E NA Ea).
    assert (La : forall X, lead c_minus (A2 ++ X) = lead c_minus A2); [|rewrite La; exact HW].
    { intros X. destruct A2 as [|a A2 _] using rev_ind; [congruence|]. rewrite EW, app_assoc in E. apply app_inj_tail in E. destruct E as [_ <-]. clear. rewrite <- app_assoc.
      induction A2 as [|a A2 IH]; [reflexivity|]. cbn [app lead]. destruct (negb (fst a) && char_eqb (snd a) c_minus); [cbn in IH; rewrite IH; reflexivity|reflexivity]. }
  - apply (delim_run c_minus Minus 2); [reflexivity|discriminate|reflexivity].
  - intros w K C0 L. unfold is_three_dashes. rewrite K, C0, L, EW, aft_app. reflexivity.
  - reflexivity.
  - cbn [line_end] in F6. assert (M : fmetadata [] ts = Some (Node NMetadata [t] [Leaf b] [c], r2)).
    { rewrite Ets. unfold fmetadata, fdelim. replace (is_three_dashes t) with true by (unfold is_three_dashes; rewrite E1, E2, E3; reflexivity). rewrite F1. reflexivity. }
    unfold fparse. rewrite M. cbn [opt_tree app]. destruct (cov_term _ _ _ _ F6) as (e & r3 & -> & G1 & G2 & G3 & G4).
    replace (3 * List.length (e :: r3) + 5) with (S (3 * List.length r3 + 7)) by (cbn [List.length]; lia). rewrite fdoc_step. cbn [stopped existsb]. unfold is_terminator. rewrite G1. change (kind_eqb Terminator Terminator) with true. cbn match.
    destruct (body_units s (3 * List.length r3 + 7) r3 _ l G4 eq_refl F Cl ltac:(lia)) as (k & K1 & K2). rewrite K1.
    unfold doc_of. rewrite child_text_hd. cbn [option_map inner flat_map]. rewrite app_nil_r, F3. f_equal. unfold body_of. cbn [flat_map blocks app]. rewrite K2, app_nil_r. reflexivity.
Qed.
