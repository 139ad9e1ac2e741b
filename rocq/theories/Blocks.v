(** Blocks on units: the parser reads a block back from its text. *)
From Coq Require Import String.
From Verif Require Import Base Lexer LexSpec LexProofs LexFacts Ops Parser FParser TokFacts ToYamd TreeAst Ast Tame Units ULex Stops LinkUnits Inline AstUnits Calm.

(** ** What can come after a block *)

(** The end of the text, a blank line, or the end of an enclosing collapsible. *)
Definition stail (n : nat) (B : list uchar) : Prop :=
  B = [] \/ (exists R, B = raw c_nl :: raw c_nl :: R) \/ (n <> 0 /\ exists R, B = raw c_nl :: raw c_percent :: raw c_rcurly :: R).
(** Tokens after a block; the line ending before the end of the collapsible may be consumed. *)
Definition after (s : str) (b : bool) (n : nat) (ts : list token) (B : list uchar) : Prop :=
  cov s b ts B \/ (n <> 0 /\ exists R, B = raw c_nl :: raw c_percent :: raw c_rcurly :: R /\ cov s true ts (raw c_percent :: raw c_rcurly :: R)).

Lemma stail_seam : forall n A B, stail n B -> (ends c_nl A -> B = []) -> seam A B.
Proof.
  intros n A B T H. destruct T as [->|T]; [apply seam_nil_r|]. assert (X : exists R, B = raw c_nl :: R) by (destruct T as [(R & ->)|(_ & R & ->)]; eauto).
  destruct X as (R & ->). apply seam_special; try reflexivity; try discriminate. intros E. specialize (H E). discriminate.
Qed.
Lemma stail_head : forall n B, stail n B -> B = [] \/ raw_at c_nl B = true.
Proof. intros n B [->|[(R & ->)|(_ & R & ->)]]; [left|right|right]; reflexivity. Qed.
Lemma stail_not : forall n B c, stail n B -> c <> c_nl -> raw_at c B = false.
Proof.
  intros n B c T H. destruct (stail_head n B T) as [->|X]; [reflexivity|]. apply raw_at_true in X. destruct X as (r & ->). apply N.eqb_neq. intros X. apply H. symmetry. exact X.
Qed.
Lemma cst_stop : forall n b us, n <> 0 -> ustop (cst n) b us = ustop [StopCollapsibleEnd] b us.
Proof.
  intros [|n] b us H; [congruence|]. unfold ustop. destruct us as [|u us]; [reflexivity|]. cbn [cst repeat existsb]. rewrite orb_false_r. destruct (fires b (u :: us) StopCollapsibleEnd) eqn:E; [reflexivity|]. cbn [orb].
  clear H. induction n as [|n IH]; [reflexivity|]. cbn [repeat existsb]. rewrite E, IH. reflexivity.
Qed.
Lemma cst_stop_false : forall n b us, us <> [] -> fires b us StopCollapsibleEnd = false -> ustop (cst n) b us = false.
Proof.
  intros n b us NE H. destruct us as [|u us]; [congruence|]. unfold ustop. induction n as [|n IH]; [reflexivity|]. cbn [cst repeat existsb]. rewrite H. exact IH.
Qed.
Lemma stail_stop : forall n b B, stail n B -> ustop (StopTerminator :: cst n) b B = true.
Proof.
  intros n b B [->|[(R & ->)|(Hn & R & ->)]]; [reflexivity|reflexivity|]. cbn [ustop existsb fires raw2_at andb orb char_eqb]. 
  destruct n as [|n]; [congruence|]. cbn. rewrite andb_false_r. reflexivity.
Qed.
Lemma stail_calm : forall n b A B, stail n B -> (ends c_nl A -> B = []) -> nosub [raw c_nl; raw c_nl] A ->
  (n <> 0 -> (b = true -> raw2_at c_percent c_rcurly A = false) /\ nosub cpat A) -> calm (StopTerminator :: cst n) b A B.
Proof.
  intros n b A B T He H2 Hp. apply calm_cons.
  - apply calm_term; [exact H2|]. intros E. rewrite (He E). reflexivity.
  - apply calm_cend; [exact Hp|]. exact (stail_head _ _ T).
Qed.

(** *** The first tokens *)

Lemma cov_nil_inv : forall s b ts, cov s b ts [] -> ts = [].
Proof. intros s b ts H. inversion H; [reflexivity|]. discriminate. Qed.
Lemma cov_more : forall s b b' ts A B, cov s b ts (A ++ B) -> cov s b' ts B -> A <> [] -> False.
Proof.
  intros s b b' ts A B H1 H2 NE. apply cov_text in H1. apply cov_text in H2. rewrite H2, chars_app in H1. apply (f_equal (@List.length _)) in H1. rewrite app_length in H1.
  destruct A; [congruence|cbn in H1; lia].
Qed.
Lemma cov_cons_inv : forall s b ts us, cov s b ts us -> us <> [] -> exists t ts', ts = t :: ts'.
Proof. intros s b ts us H NE. destruct H; [congruence|eauto]. Qed.
Lemma cov_col0 : forall s b t ts us, cov s b (t :: ts) us -> col0 t = b.
Proof. intros s b t ts us H. inversion H; assumption. Qed.
Lemma cov_term : forall s b ts R, cov s b ts (raw c_nl :: raw c_nl :: R) -> exists t ts', ts = t :: ts' /\ kind t = Terminator /\ col0 t = b /\ ttext s t = [c_nl; c_nl] /\ cov s true ts' R.
Proof.
  intros s b ts R H. destruct (cov_step _ _ _ _ _ _ _ H (utok_term R)) as (t & ts' & E1 & E2 & E3 & E4 & E5 & E6). exists t, ts'. auto.
Qed.
Lemma cov_eol : forall s b ts R, cov s b ts (raw c_nl :: R) -> raw_at c_nl R = false -> exists t ts', ts = t :: ts' /\ kind t = Eol /\ col0 t = b /\ ttext s t = [c_nl] /\ cov s true ts' R.
Proof.
  intros s b ts R H HR. pose proof (cov_fine _ _ _ _ H) as Hf. apply fine_cons in Hf. destruct (cov_step _ _ _ _ _ _ _ H (utok_eol R (proj2 Hf) HR)) as (t & ts' & E1 & E2 & E3 & E4 & E5 & E6).
  exists t, ts'. auto.
Qed.
Lemma cov_cend : forall s b ts R, cov s b ts (raw c_percent :: raw c_rcurly :: R) -> exists t ts', ts = t :: ts' /\ kind t = CollapsibleEnd /\ col0 t = b /\ cov s false ts' R.
Proof.
  intros s b ts R H. destruct (cov_step _ _ _ _ _ _ _ H (utok_cend R)) as (t & ts' & E1 & E2 & E3 & E4 & E5 & E6). exists t, ts'. auto.
Qed.
(** A run of a delimiter. *)
Lemma cov_runs : forall s b ts c k n R, cov s b ts (repeat (raw c) (S n) ++ R) -> run_kind c = Some k -> c <> c_lcurly \/ 1 <= n -> raw_at c R = false ->
  exists t ts', ts = t :: ts' /\ kind t = k /\ col0 t = b /\ tlen t = S n /\ ttext s t = repeat c (S n) /\ cov s (aft b (repeat (raw c) (S n))) ts' R.
Proof.
  intros s b ts c k n R H K Hc HR. pose proof (lead_repeat c (S n) R HR) as L.
  assert (U : utok (repeat (raw c) (S n) ++ R) = Some (k, repeat (raw c) (S n), R)).
  { rewrite (utok_lead c k _ n K L); [rewrite skipn_repeat; reflexivity|]. intros -> ->. destruct Hc; [congruence|lia]. }
  destruct (cov_delim _ _ _ _ _ _ H U) as (t & ts' & E1 & E2 & E3 & E4 & E5 & E6). exists t, ts'. repeat (split; [assumption|]). split; [|split; [|exact E6]].
  - rewrite E5. exact (byte_len_repeat c (S n) (run_ascii _ _ K)).
  - rewrite E4. clear. induction n as [|n IH]; [reflexivity|]. cbn [repeat chars raw snd] in *. rewrite IH. reflexivity.
Qed.

(** ** Blocks that do not start here *)


Lemma ktest : forall s b t ts us c k n, cov s b (t :: ts) us -> run_kind c = Some k -> 1 <= n -> (c <> c_lcurly \/ 2 <= n) -> (lead c us =? n) = false ->
  kind_eqb (kind t) k && (tlen t =? n) = false.
Proof. intros. erewrite run_test; eassumption. Qed.
Lemma fseq_first : forall p ps t ts, p t = false -> fseq (p :: ps) (t :: ts) = None.
Proof. intros p ps t ts H. cbn. rewrite H. reflexivity. Qed.
Lemma swap3 : forall a b c, a && b && c = a && c && b.
Proof. intros [] [] []; reflexivity. Qed.

Lemma fcode_none : forall s b t ts us st, cov s b (t :: ts) us -> (lead c_backtick us =? 3) = false -> fcode st (t :: ts) = None.
Proof.
  intros s b t ts us st H L. assert (E : is_backtick3 t = false).
  { unfold is_backtick3. rewrite swap3. rewrite (ktest _ _ _ _ _ c_backtick Backtick 3 H eq_refl) by (lia || (left; discriminate) || exact L). reflexivity. }
  unfold fcode, ffence. rewrite !fseq_first by exact E. reflexivity.
Qed.
Lemma fcoll_none : forall s b t ts us n st, cov s b (t :: ts) us -> raw2_at c_lcurly c_percent us = false -> fcollapsible n st (t :: ts) = CFail (t :: ts).
Proof.
  intros s b t ts us n st H L. destruct n as [|n]; [reflexivity|]. cbn [fcollapsible]. rewrite fseq_first; [reflexivity|].
  unfold is_collapsible_start. rewrite (cstart_test _ _ _ _ _ H), L. reflexivity.
Qed.
Lemma fembed_none : forall s b t ts us st, cov s b (t :: ts) us -> (lead c_lcurly us =? 2) = false -> fembed st (t :: ts) = None.
Proof.
  intros s b t ts us st H L. unfold fembed, is_left_curly2. rewrite swap3.
  rewrite (ktest _ _ _ _ _ c_lcurly LeftCurlyBrace 2 H eq_refl) by (lia || (right; lia) || exact L). reflexivity.
Qed.
Lemma fhighlight_none : forall s b t ts us st, cov s b (t :: ts) us -> (lead c_bang us =? 2) = false -> fhighlight st (t :: ts) = None.
Proof.
  intros s b t ts us st H L. unfold fhighlight. rewrite fseq_first; [reflexivity|]. unfold is_two_bangs. rewrite swap3.
  rewrite (ktest _ _ _ _ _ c_bang Bang 2 H eq_refl) by (lia || (left; discriminate) || exact L). reflexivity.
Qed.
Lemma fbreak_none : forall s b t ts us st, cov s b (t :: ts) us -> (lead c_minus us =? 5) = false -> fbreak st (t :: ts) = None.
Proof.
  intros s b t ts us st H L. unfold fbreak, is_dash5. rewrite swap3.
  rewrite (ktest _ _ _ _ _ c_minus Minus 5 H eq_refl) by (lia || (left; discriminate) || exact L). reflexivity.
Qed.

Lemma flist_none : forall s b ts us n st, cov s b ts us -> us <> [] -> uboundary 0 None us = false -> flist n 0 st ts = None.
Proof.
  intros s b ts us n st H NE Hu. destruct n as [|n]; [reflexivity|]. cbn [flist]. destruct n as [|n]; [reflexivity|].
  assert (E : fitem (S n) 0 None st ts = None); [|rewrite E; reflexivity]. cbn [fitem]. destruct (nth_is 0 col0 ts); [cbn [negb]|reflexivity].
  change (umarker None us && (lead c_space (skipn 1 us) =? 1) = false) in Hu. destruct (nth_error ts (if 0 =? 0 then 0 else 1)) as [m|]; [|reflexivity]. destruct (list_kind_of m); [|reflexivity].
  pose proof (marker_space _ _ _ _ None H) as M. rewrite Hu in M. cbn [marker_preds Nat.eqb]. unfold marker_preds. cbn [Nat.eqb].
  destruct ts as [|t ts]; [reflexivity|]. unfold nth_is in M. cbn in M. cbn [fseq]. destruct (is_list_marker None t); [|reflexivity]. cbn [andb] in M. destruct ts as [|t2 ts]; [reflexivity|]. cbn in M. rewrite M. reflexivity.
Qed.
Lemma flist0_none : forall s b ts us st, cov s b ts us -> us <> [] -> uboundary 0 None us = false -> flist0 st ts = None.
Proof. intros s b ts us st H NE Hu. unfold flist0. erewrite flist_none; eauto. Qed.
Lemma is_bang_test : forall s b t ts us, cov s b (t :: ts) us -> is_bang t = (lead c_bang us =? 1).
Proof. intros s b t ts us H. apply (run_test _ _ _ _ _ c_bang Bang 1 H eq_refl); [lia|left; discriminate]. Qed.
Lemma raw2_lead : forall c d us, c <> d -> raw2_at c d us = (lead c us =? 1) && raw_at d (skipn 1 us).
Proof.
  intros c d us Hd. destruct us as [|u us]; [reflexivity|]. unfold raw2_at. cbn [lead skipn]. destruct (negb (fst u) && char_eqb (snd u) c) eqn:E.
  - destruct us as [|v us]; [reflexivity|]. cbn [lead raw_at]. destruct (negb (fst v) && char_eqb (snd v) c) eqn:F; [|reflexivity].
    apply andb_true_iff in F. destruct F as [_ F]. apply char_eqb_eq in F. rewrite F. replace (char_eqb c d) with false by (symmetry; apply N.eqb_neq; exact Hd). rewrite andb_false_r. reflexivity.
  - reflexivity.
Qed.
Lemma fimage_none : forall s b t ts us st, cov s b (t :: ts) us -> raw2_at c_bang c_lsquare us = false -> fimage st (t :: ts) = None.
Proof.
  intros s b t ts us st H L. rewrite raw2_lead in L by discriminate. unfold fimage. rewrite (is_bang_test _ _ _ _ _ H). destruct (lead c_bang us =? 1) eqn:E; [|reflexivity]. cbn [andb] in L.
  apply Nat.eqb_eq in E. destruct (cov_run _ _ _ _ _ c_bang Bang 0 H eq_refl E ltac:(left; discriminate)) as (_ & _ & _ & _ & C).
  destruct ts as [|t2 ts]; [reflexivity|]. unfold ftitle. rewrite fdelim_none; [reflexivity|]. unfold is_left_bracket. rewrite (single_test _ _ _ _ _ c_lsquare _ C eq_refl), L. reflexivity.
Qed.
Lemma fimages_none : forall s b t ts us st, cov s b (t :: ts) us -> raw2_at c_bang c_lsquare us = false -> fimages st (t :: ts) = None.
Proof.
  intros s b t ts us st H L. unfold fimages. cbn [fimages_loop List.length]. rewrite (fimage_none _ _ _ _ _ _ H L). destruct (stopped st (t :: ts)); reflexivity.
Qed.
(** One to six hash signs and one space. *)
Definition heading_at (us : list uchar) : bool :=
  (1 <=? lead c_hash us) && (lead c_hash us <=? 6) && (lead c_space (skipn (lead c_hash us) us) =? 1).
Lemma fheading_none : forall s b t ts us st, cov s b (t :: ts) us -> heading_at us = false -> fheading st (t :: ts) = None.
Proof.
  intros s b t ts us st H L. unfold fheading. destruct ts as [|t2 ts]; [reflexivity|]. destruct (is_hash t && is_space_1 t2) eqn:E; [|reflexivity]. exfalso.
  apply andb_true_iff in E. destruct E as [E1 E2]. unfold is_hash in E1. apply andb_true_iff in E1. destruct E1 as [E1 E3]. apply andb_true_iff in E1. destruct E1 as [E1 _].
  apply Nat.leb_le in E3. unfold heading_at in L.
  assert (X : exists n, lead c_hash us = S n).
  { apply kind_eqb_eq in E1. destruct (kind_first _ _ _ _ _ c_hash H) as (r & ->); [rewrite E1; reflexivity|]. cbn. eauto. }
  destruct X as (n & X). rewrite X in L. destruct (cov_run _ _ _ _ _ c_hash Hash n H eq_refl X ltac:(left; discriminate)) as (_ & _ & _ & _ & C).
  pose proof (run_test _ _ _ _ _ c_hash Hash (S n) H eq_refl ltac:(lia) ltac:(left; discriminate)) as T. rewrite E1, X, Nat.eqb_refl in T. cbn [andb] in T. apply Nat.eqb_eq in T.
  rewrite (space1_test _ _ _ _ _ C) in E2. rewrite E2, andb_true_r in L. replace (S n <=? 6) with true in L by (symmetry; apply Nat.leb_le; lia). discriminate.
Qed.

(** The block at a position that is not a blank line. *)
Definition fblock (n : nat) (st : list stop_condition) (ts : list token) : tree * list token :=
  match fcode st ts with
  | Some y => y
  | None =>
      match fcollapsible n st ts with
      | CMatch y r1 => (y, r1)
      | CFail ts' => match forelse fembed fhighlight st ts' with Some y => y | None => fsimple st ts' end
      end
  end.
Lemma fdoc_step : forall n st t r, fdoc (S n) st (t :: r) =
  if stopped st (t :: r) then ([], t :: r)
  else if is_terminator t then let (k, r2) := fdoc n st r in (Leaf [t] :: k, r2)
  else let (x, r1) := fblock n st (t :: r) in let (k, r2) := fdoc n st r1 in (x :: k, r2).
Proof. intros. cbn [fdoc]. destruct (stopped st (t :: r)); [reflexivity|]. destruct (is_terminator t); reflexivity. Qed.

Lemma fblock_simple : forall s b t ts us n st, cov s b (t :: ts) us -> (lead c_backtick us =? 3) = false -> raw_at c_lcurly us = false -> (lead c_bang us =? 2) = false ->
  fblock n st (t :: ts) = fsimple st (t :: ts).
Proof.
  intros s b t ts us n st H H1 H2 H3. unfold fblock. rewrite (fcode_none _ _ _ _ _ _ H H1).
  rewrite (fcoll_none _ _ _ _ _ _ _ H) by (destruct us as [|u us]; [reflexivity|]; cbn in H2 |- *; rewrite H2; destruct us; reflexivity).
  unfold forelse. rewrite (fembed_none _ _ _ _ _ _ H) by (apply lead_0 in H2; rewrite H2; reflexivity). rewrite (fhighlight_none _ _ _ _ _ _ H H3). reflexivity.
Qed.

(** ** Blocks that are read back *)

(** [A] starts a block: it is neither a blank line nor the end of a collapsible. *)
Definition starts (A : list uchar) : Prop :=
  A <> [] /\ raw2_at c_nl c_nl A = false /\ raw2_at c_percent c_rcurly A = false /\ (raw_at c_nl A = true -> raw2_at c_percent c_rcurly (skipn 1 A) = false).
(** [A] is read as a block with content [ys] below [n] collapsibles. *)
Definition parses (n : nat) (A : list uchar) (ys : list ynode) : Prop :=
  forall s ts B fuel, cov s true ts (A ++ B) -> stail n B -> (ends c_nl A -> B = []) -> List.length ts <= fuel ->
  exists x t ts1 ts2, fblock fuel (cst n) ts = (x, ts2) /\ ts = t :: ts1 ++ ts2 /\ blocks s x = ys /\ after s (aft true A) n ts2 B.

(** *** Paragraphs *)

Definition plain_start (us : list uchar) : Prop :=
  (lead c_backtick us =? 3) = false /\ raw_at c_lcurly us = false /\ (lead c_bang us =? 2) = false /\ uboundary 0 None us = false
  /\ (lead c_minus us =? 5) = false /\ heading_at us = false.

Lemma fsimple_paragraph : forall s b t ts us st, cov s b (t :: ts) us -> us <> [] -> plain_start us -> fimages (StopTerminator :: st) (t :: ts) = None -> fsimple st (t :: ts) = fparagraph (StopTerminator :: st) (t :: ts).
Proof.
  intros s b t ts us st H NE (H1 & H2 & H3 & H4 & H6 & H7) H5. unfold fsimple, forelse.
  rewrite (flist0_none _ _ _ _ _ H NE H4), H5, (fbreak_none _ _ _ _ _ _ H H6), (fheading_none _ _ _ _ _ _ H H7). reflexivity.
Qed.

Definition tame_at (n : nat) (b : bool) (A : list uchar) : Prop :=
  nosub [raw c_nl; raw c_nl] A /\ (n <> 0 -> (b = true -> raw2_at c_percent c_rcurly A = false) /\ nosub cpat A).

Lemma paragraph_parses : forall n l, ugoods l -> uflats l <> [] -> tame_at n true (uflats l) -> (forall B, stail n B -> (ends c_nl (uflats l) -> B = []) -> plain_start (uflats l ++ B)) ->
  (forall s t ts B, cov s true (t :: ts) (uflats l ++ B) -> stail n B -> (ends c_nl (uflats l) -> B = []) -> fimages (StopTerminator :: cst n) (t :: ts) = None) ->
  parses n (uflats l) [YParagraph (map uerase l)].
Proof.
  intros n l G NE [Ta Tb] P Im s ts B fuel H T He Hf. specialize (P B T He).
  assert (NE' : uflats l ++ B <> []) by (destruct (uflats l); [congruence|discriminate]).
  destruct (cov_cons_inv _ _ _ _ H NE') as (t & ts' & ->).
  pose proof P as (P1 & P2 & P3 & _).
  rewrite (fblock_simple _ _ _ _ _ _ _ H) by assumption.
  rewrite (fsimple_paragraph _ _ _ _ _ _ H NE' P (Im _ _ _ _ H T He)).
  destruct (paragraph_units _ (StopTerminator :: cst n) _ _ _ _ H G) as (k & ts1 & ts2 & E1 & E2 & E3 & E4).
  - exact (stail_seam _ _ _ T He).
  - apply stail_calm; auto.
  - apply stail_stop. exact T.
  - rewrite E1. destruct ts1 as [|t1 ts1].
    { exfalso. cbn in E4. subst ts2. exact (cov_more _ _ _ _ _ _ H E3 NE). }
    injection E4 as <- E4. exists (Node NParagraph [] k []), t, ts1, ts2. split; [reflexivity|]. split; [rewrite E4; reflexivity|]. cbn [blocks]. rewrite E2. split; [reflexivity|]. left. exact E3.
Qed.

(** *** Thematic breaks *)

Lemma break_parses : forall n, parses n (repeat (raw c_minus) 5) [YThematicBreak].
Proof.
  intros n s ts B fuel H T He Hf. assert (NB : raw_at c_minus B = false) by (apply (stail_not n); [exact T|discriminate]).
  pose proof (lead_repeat c_minus 5 B NB) as L.
  destruct (cov_runs _ _ _ c_minus Minus 4 _ H eq_refl ltac:(left; discriminate) NB) as (t & ts' & -> & E1 & E2 & E3 & E4 & E5).
  rewrite (fblock_simple _ _ _ _ _ _ _ H) by reflexivity. unfold fsimple, forelse.
  rewrite (flist0_none _ _ _ _ _ H) by (try discriminate; unfold uboundary, umarker; cbn [skipn]; rewrite L; reflexivity).
  rewrite (fimages_none _ _ _ _ _ _ H) by reflexivity. unfold fbreak, is_dash5. rewrite E1, E2, E3.
  exists (Node NThematicBreak [] [Leaf [t]] []), t, [], ts'. split; [reflexivity|]. split; [reflexivity|]. split; [reflexivity|]. left. exact E5.
Qed.

(** *** Headings *)

Lemma heading_parses : forall n k l, k < 6 -> hgoods l -> raw_at c_space (uflats l) = false -> tame_at n false (uflats l) ->
  parses n (repeat (raw c_hash) (S k) ++ [raw c_space] ++ uflats l) [YHeading (S k) (map herase l)].
Proof.
  intros n k l Hk G Hsp [Ta Tb] s ts B fuel H T He Hf. rewrite <- !app_assoc in H.
  assert (He' : ends c_nl (uflats l) -> B = []).
  { intros (r & E). apply He. exists (repeat (raw c_hash) (S k) ++ [raw c_space] ++ r). rewrite E, <- !app_assoc. reflexivity. }
  assert (HspB : raw_at c_space (uflats l ++ B) = false).
  { destruct (uflats l) eqn:E; [|exact Hsp]. apply (stail_not n); [exact T|discriminate]. }
  pose proof (lead_repeat c_hash (S k) ([raw c_space] ++ uflats l ++ B) eq_refl) as L.
  destruct (cov_runs _ _ _ c_hash Hash k _ H eq_refl ltac:(left; discriminate) eq_refl) as (t & ts' & -> & E1 & E2 & E3 & E4 & E5).
  destruct (cov_runs _ _ _ c_space Space 0 _ E5 eq_refl ltac:(left; discriminate) HspB) as (t2 & ts2 & -> & F1 & F2 & F3 & F4 & F5).
  assert (Ha : forall m, aft true (repeat (raw c_hash) (S m)) = false) by (clear; induction m as [|m IH]; [reflexivity|exact IH]).
  rewrite Ha in F5. cbn [aft repeat is_nl raw fst snd andb negb char_eqb] in F5. change (c_space =? c_nl)%N with false in F5.
  rewrite (fblock_simple _ _ _ _ _ _ _ H) by reflexivity. unfold fsimple, forelse.
  rewrite (flist0_none _ _ _ _ _ H) by (discriminate || reflexivity).
  rewrite (fimages_none _ _ _ _ _ _ H) by reflexivity. rewrite (fbreak_none _ _ _ _ _ _ H) by reflexivity.
  unfold fheading. replace (is_hash t) with true by (unfold is_hash; rewrite E1, E2, E3; symmetry; apply Nat.leb_le; lia).
  replace (is_space_1 t2) with true by (unfold is_space_1; rewrite F1, F3; reflexivity). cbn [andb].
  destruct (heading_items _ (StopTerminator :: cst n) _ _ _ _ (S (List.length ts2)) F5 G) as (kk & ts3 & ts4 & G1 & G2 & G3 & G4).
  - exact (stail_seam _ _ _ T He').
  - apply stail_calm; auto.
  - apply stail_stop. exact T.
  - lia.
  - rewrite G1. eexists _, t, (t2 :: ts3), ts4. split; [reflexivity|]. split; [rewrite G4; reflexivity|]. cbn [blocks]. rewrite G2. split.
    + rewrite ttexts_cons, E4. cbn [ttexts flat_map]. rewrite F4, app_nil_r. cbn [repeat]. change (c_hash :: repeat c_hash k) with (repeat c_hash (S k)). rewrite (count_hashes_repeat (S k)). reflexivity.
    + left. rewrite !aft_app, Ha. exact G3.
Qed.

(** *** Images *)

Definition uimage (i : list uchar * list uchar) : list uchar := raw c_bang :: ulink (fst i) (snd i).
Fixpoint uimages (l : list (list uchar * list uchar)) : list uchar :=
  match l with [] => [] | i :: r => uimage i ++ match r with [] => [] | _ => raw c_nl :: uimages r end end.
Definition eimage (i : list uchar * list uchar) : image_node := mk_image (chars (fst i)) (chars (snd i)).
Definition igood (n : nat) (i : list uchar * list uchar) : Prop :=
  absent c_rsquare (fst i) /\ absent c_lparen (snd i) /\ absent c_rparen (snd i) /\
  forall p, (p = [raw c_nl; raw c_nl] \/ (n <> 0 /\ p = cpat)) -> nosub p (fst i) /\ nosub p (snd i).

Lemma uimage_ends : forall i, ends c_rparen (uimage i).
Proof. intros [a u]. unfold uimage, ulink. cbn [fst snd]. exists (raw c_bang :: [raw c_lsquare] ++ a ++ [raw c_rsquare] ++ [raw c_lparen] ++ u). cbn [app]. rewrite <- !app_assoc. reflexivity. Qed.
Lemma ends_one : forall c d us, ends c us -> ends d us -> c = d.
Proof. intros c d us (r & ->) (r' & E). apply app_inj_tail in E. destruct E as [_ E]. injection E as E. exact E. Qed.
Lemma nodelim_term : nodelim [raw c_nl; raw c_nl].
Proof. repeat constructor; cbn; intuition discriminate. Qed.
Lemma nodelim_cpat : nodelim cpat.
Proof. repeat constructor; cbn; intuition discriminate. Qed.
Lemma image_calm : forall n b i R, igood n i -> R = [] \/ raw_at c_nl R = true -> calm (StopTerminator :: cst n) b (uimage i) R.
Proof.
  intros n b i R (G1 & G2 & G3 & G4) HR.
  assert (N : forall p, p = [raw c_nl; raw c_nl] \/ (n <> 0 /\ p = cpat) -> nosub p (uimage i)).
  { intros p Hp. destruct (G4 p Hp) as [N1 N2]. unfold uimage. assert (D : p <> [] /\ nodelim p /\ ~ In (raw c_bang) p).
    { destruct Hp as [->|[_ ->]]; (split; [discriminate|]); (split; [first [apply nodelim_term|apply nodelim_cpat]|]); cbn; intuition discriminate. }
    destruct D as (D1 & D2 & D3). apply nosub_cons; [exact D3|exact D1|]. change (nosub p (uflat (UAnchor (fst i) (snd i)))). apply uflat_nosub; auto.
    - repeat split; assumption.
    - cbn [uparts]. repeat constructor; assumption. }
  apply calm_cons.
  - apply calm_term; [apply N; left; reflexivity|]. intros E. exfalso. discriminate (ends_one _ _ _ E (uimage_ends i)).
  - apply calm_cend; [|exact HR]. intros Hn. split; [reflexivity|apply N; auto].
Qed.

Lemma image_units0 : forall s n b ts i R, cov s b ts (uimage i ++ R) -> absent c_rsquare (fst i) -> absent c_lparen (snd i) -> absent c_rparen (snd i) -> calm (StopTerminator :: cst n) b (uimage i) R ->
  exists t ts1 ts2 t1 t2, ts = t :: ts1 ++ ts2 /\ cov s false ts2 R /\ (forall o c, image_of s (Node NImage o [t1; t2] c) = [eimage i])
    /\ fimage (StopTerminator :: cst n) ts = match ts2 with
         | e :: r3 => if is_eol e then Some (Node NImage [t] [t1; t2] [e], r3) else if stopped (StopTerminator :: cst n) ts2 then Some (Node NImage [t] [t1; t2] [], ts2) else None
         | [] => Some (Node NImage [t] [t1; t2] [], []) end.
Proof.
  intros s n b ts i R H G1 G2 G3 C.
  destruct (cov_runs s b ts c_bang Bang 0 (ulink (fst i) (snd i) ++ R) H eq_refl ltac:(left; discriminate) eq_refl) as (t & ts' & -> & E1 & E2 & E3 & E4 & E5).
  destruct C as [_ C].
  destruct (link_units _ (StopTerminator :: cst n) _ _ _ _ _ E5 G1 G2 G3 C) as (o1 & a & c1 & o2 & d & c2 & ts2 & -> & F1 & F2 & F3 & F4 & F5).
  exists t, (o1 :: a ++ c1 :: o2 :: d ++ [c2]), ts2, (Node NTitle [o1] [Leaf a] [c1]), (Node NDestination [o2] [Leaf d] [c2]).
  split; [cbn; rewrite <- !app_assoc; cbn; rewrite <- app_assoc; reflexivity|]. split.
  { assert (Ea : aft (aft b (repeat (raw c_bang) 1)) (ulink (fst i) (snd i)) = false); [|rewrite <- Ea; exact F5].
    unfold ulink. rewrite !aft_app. reflexivity. }
  split.
  { intros o c. cbn [image_of]. destruct (link_of s [o1] a [c1] [o2] d [c2]) as [L1 L2]. rewrite L1, L2, F3, F4. reflexivity. }
  unfold fimage, is_bang. rewrite E1, E3, F1, F2. reflexivity.
Qed.

Lemma image_units : forall s n b ts i R, cov s b ts (uimage i ++ R) -> igood n i -> R = [] \/ raw_at c_nl R = true ->
  exists t ts1 ts2 t1 t2, ts = t :: ts1 ++ ts2 /\ cov s false ts2 R /\ (forall o c, image_of s (Node NImage o [t1; t2] c) = [eimage i])
    /\ fimage (StopTerminator :: cst n) ts = match ts2 with
         | e :: r3 => if is_eol e then Some (Node NImage [t] [t1; t2] [e], r3) else if stopped (StopTerminator :: cst n) ts2 then Some (Node NImage [t] [t1; t2] [], ts2) else None
         | [] => Some (Node NImage [t] [t1; t2] [], []) end.
Proof.
  intros s n b ts i R H G HR. pose proof (image_calm n b i R G HR) as C. destruct G as (G1 & G2 & G3 & _). exact (image_units0 s n b ts i R H G1 G2 G3 C).
Qed.

(** A paragraph is not read as images unless it looks like images. *)
Lemma goods_ne : forall l, ugoods l -> uflats l = [] -> l = [].
Proof.
  intros [|x l] [G _] E; [reflexivity|]. exfalso. inversion G; subst. unfold uflats in E. cbn [flat_map] in E. pose proof (uflat_nonempty x ltac:(assumption)) as NE. destruct (uflat x); [congruence|discriminate].
Qed.
Lemma goods_tail : forall x l, ugoods (x :: l) -> ugoods l.
Proof. intros x l [G Ch]. inversion G; subst. split; [assumption|]. destruct l; [exact I|apply Ch]. Qed.
Lemma image_head : forall l B, ugoods l -> l <> [] -> raw_at c_lsquare B = false -> raw2_at c_bang c_lsquare (uflats l ++ B) = true -> exists t u r, l = UText [raw c_bang] :: UAnchor t u :: r.
Proof.
  intros l B [G Ch] NE HB H. apply raw2_at_true in H. destruct H as (q & H). destruct l as [|x l]; [congruence|]. inversion G as [|? ? Gx Gl]; subst. unfold uflats in H. cbn [flat_map] in H.
  destruct (utxt x) eqn:T.
  2:{ destruct (proj1 (uflat_ends x T)) as (c & r & E & Hc). rewrite E in H. injection H as -> _. exfalso. cbn in Hc. repeat (destruct Hc as [Hc|Hc]; [discriminate Hc|]). exact Hc. }
  destruct x as [us|us|us|us|us|t u|w]; try discriminate. cbn [uflat] in H. destruct Gx as (Nx & _ & _ & _ & _ & Ax). destruct us as [|u0 us]; [congruence|]. injection H as -> H.
  destruct us as [|u1 us]; [|injection H as -> _; exfalso; apply Ax; right; left; reflexivity].
  destruct l as [|y l]; [cbn in H; rewrite H in HB; discriminate HB|]. inversion Gl as [|? ? Gy _]; subst. destruct Ch as [Ch _]. cbn [flat_map] in H.
  destruct y as [us|us|us|us|us|t u|w]; cbn [uflat] in H; try discriminate H; [destruct Ch|]. exists t, u, l. reflexivity.
Qed.
Lemma loop_none : forall s n N l m b ts B, List.length l <= N -> ugoods l -> l <> [] -> ~ like_images (map uerase l) -> cov s b ts (uflats l ++ B) -> stail n B ->
  calm (StopTerminator :: cst n) b (uflats l) B -> fimages_loop m (StopTerminator :: cst n) ts = None.
Proof.
  intros s n N. induction N as [|N IH]; intros l m b ts B LN G NE Nl H T C; [destruct l; [congruence|cbn in LN; lia]|].
  destruct m as [|m]; [reflexivity|]. cbn [fimages_loop].
  assert (NU : uflats l <> []) by (intros X; apply NE; exact (goods_ne l G X)).
  assert (NU' : uflats l ++ B <> []) by (destruct (uflats l); [congruence|discriminate]).
  destruct (cov_cons_inv _ _ _ _ H NU') as (t & ts' & ->).
  assert (HB : raw_at c_lsquare B = false) by (apply (stail_not n); [exact T|discriminate]).
  destruct (raw2_at c_bang c_lsquare (uflats l ++ B)) eqn:R2.
  2:{ rewrite (fimage_none _ _ _ _ _ _ H R2), (stopped_units _ _ _ _ _ H). pose proof (calm_at _ b [] _ _ C NU) as X. cbn [aft] in X. rewrite X. reflexivity. }
  destruct (image_head l B G NE HB R2) as (ut & uu & r & ->). clear R2. cbn [map uerase like_images chars raw snd] in Nl.
  assert (Nr : ~ images_after (map uerase r)) by tauto. clear Nl.
  pose proof (goods_tail _ _ (goods_tail _ _ G)) as Gr. destruct G as [G Ch]. inversion G as [|? ? _ G']; subst. inversion G' as [|? ? Ga _]; subst. destruct Ga as (A1 & A2 & A3).
  change (uflats (UText [raw c_bang] :: UAnchor ut uu :: r)) with (uimage (ut, uu) ++ uflats r) in *.
  assert (Eb : aft b (uimage (ut, uu)) = false) by (unfold uimage, ulink; cbn [aft fst snd]; rewrite !aft_app; reflexivity).
  pose proof (calm_left _ _ _ _ _ C) as C1. pose proof (calm_right _ _ _ _ _ C) as C2. rewrite Eb in C2. rewrite <- app_assoc in H.
  destruct (image_units0 s n b (t :: ts') (ut, uu) (uflats r ++ B) H A1 A2 A3 C1) as (t0 & ts1 & ts2 & t1 & t2 & _ & E1 & _ & E3).
  assert (Nz : r <> []) by (intros ->; apply Nr; exact I). assert (NR : uflats r <> []) by (intros X; apply Nz; exact (goods_ne r Gr X)).
  assert (NR' : uflats r ++ B <> []) by (destruct (uflats r); [congruence|discriminate]).
  destruct (cov_cons_inv _ _ _ _ E1 NR') as (e & r3 & ->). rewrite E3. clear E3.
  destruct (is_eol e) eqn:Ee.
  2:{ rewrite (stopped_units _ _ _ _ _ E1). pose proof (calm_at _ false [] _ _ C2 NR) as X. cbn [aft] in X. rewrite X.
      rewrite (stopped_units _ _ _ _ _ H). rewrite app_assoc. pose proof (calm_at _ b [] _ _ C ltac:(discriminate)) as Y. cbn [aft] in Y. rewrite Y. reflexivity. }
  unfold is_eol in Ee. rewrite (eol_test _ _ _ _ _ E1) in Ee. apply andb_true_iff in Ee. destruct Ee as [Ee1 Ee2].
  (* the line feed starts a text *)
  destruct r as [|x r]; [congruence|]. assert (Tx : utxt x = true).
  { destruct (utxt x) eqn:Tx; [reflexivity|]. exfalso. destruct (proj1 (uflat_ends x Tx)) as (c & q & E & Hc). unfold uflats in Ee1. cbn [flat_map] in Ee1. rewrite E in Ee1. apply raw_at_true in Ee1. destruct Ee1 as (q' & Ee1).
    injection Ee1 as -> _. cbn in Hc. repeat (destruct Hc as [Hc|Hc]; [discriminate Hc|]). exact Hc. }
  destruct x as [us|us|us|us|us|? ?|w]; try discriminate Tx. clear Tx. destruct Gr as [Gr Cr]. inversion Gr as [|? ? Gx Gr']; subst. destruct Gx as (Nx & Gx). destruct us as [|v us]; [congruence|].
  assert (v = raw c_nl) by (apply raw_at_true in Ee1; destruct Ee1 as (q & Ee1); injection Ee1 as -> _; reflexivity). subst v.
  change (uflats (UText (raw c_nl :: us) :: r)) with (raw c_nl :: us ++ uflats r) in *. cbn [app] in E1. rewrite <- app_assoc in E1.
  assert (Nn : raw_at c_nl (us ++ uflats r ++ B) = false).
  { cbn [app] in Ee2. rewrite <- app_assoc in Ee2. destruct (raw_at c_nl (us ++ uflats r ++ B)) eqn:X; [|reflexivity]. apply raw_at_true in X. destruct X as (q & X). rewrite X in Ee2. discriminate Ee2. }
  destruct (cov_eol _ _ _ _ E1 Nn) as (e' & r3' & Er & _ & _ & _ & F4). injection Er as <- <-.
  assert (C3 : calm (StopTerminator :: cst n) true (us ++ uflats r) B) by exact (proj2 C2).
  cbn [List.length] in LN. destruct us as [|v us].
  - (* another node follows *)
    cbn [app] in *. destruct r as [|y r]; [exfalso; apply Nr; reflexivity|].
    rewrite (IH (y :: r) m true r3 B); [reflexivity|cbn [List.length] in *; lia|split; [exact Gr'|apply Cr]|discriminate| |exact F4|exact T|exact C3].
    destruct Cr as [Cr _]. destruct y; try (cbn; tauto).
  - rewrite (IH (UText (v :: us) :: r) m true r3 B); [reflexivity|cbn [List.length] in *; lia| |discriminate| | |exact T|exact C3].
    + split; [|destruct r; exact Cr]. constructor; [|exact Gr']. split; [discriminate|]. unfold absent in *. cbn [In] in *. tauto.
    + intros L. apply Nr. cbn [map uerase like_images images_after chars raw snd] in *. destruct r as [|y r]; [destruct L|]. destruct y; cbn [map uerase] in *; try destruct L. rename H0 into L1, H1 into L2. injection L1 as L1 L3. rewrite L1, L3. split; [reflexivity|exact L2].
    + change (uflats (UText (v :: us) :: r)) with ((v :: us) ++ uflats r). rewrite <- app_assoc. exact F4.
Qed.
Lemma no_images : forall s n l t ts B, ugoods l -> l <> [] -> ~ like_images (map uerase l) -> tame_at n true (uflats l) -> cov s true (t :: ts) (uflats l ++ B) -> stail n B -> (ends c_nl (uflats l) -> B = []) ->
  fimages (StopTerminator :: cst n) (t :: ts) = None.
Proof.
  intros s n l t ts B G NE Nl [Ta Tb] H T He. unfold fimages. rewrite (loop_none s n (List.length l) l _ true _ B (le_n _) G NE Nl H T); [reflexivity|]. apply stail_calm; auto.
Qed.

Lemma images_loop_units : forall s n l m b ts B, l <> [] -> Forall (igood n) l -> cov s b ts (uimages l ++ B) -> stail n B -> List.length ts < m ->
  exists k t ts1 ts2, fimages_loop m (StopTerminator :: cst n) ts = Some (k, ts2) /\ flat_map (image_of s) k = map eimage l /\ List.length k = List.length l
    /\ ts = t :: ts1 ++ ts2 /\ after s false n ts2 B.
Proof.
  intros s n l. induction l as [|i l IH]; intros m b ts B NE G H T Hm; [congruence|]. inversion G as [|? ? Gi Gl]; subst. cbn [uimages] in H.
  destruct m as [|m]; [lia|].
  destruct l as [|j l].
  - rewrite app_nil_r in H. destruct (image_units _ n _ _ _ _ H Gi (stail_head _ _ T)) as (t & ts1 & ts2 & t1 & t2 & -> & E1 & E2 & E3).
    assert (Q : forall r b', cov s b' r B \/ (b' = true /\ exists R, n <> 0 /\ B = raw c_nl :: raw c_percent :: raw c_rcurly :: R /\ cov s b' r (raw c_percent :: raw c_rcurly :: R)) -> 0 < m ->
                fimages_loop m (StopTerminator :: cst n) r = Some ([], r)).
    { intros r b' Hr Hm'. destruct m as [|m']; [lia|]. cbn [fimages_loop]. destruct r as [|e r]; [reflexivity|].
      destruct Hr as [Hr|(-> & R & Hn & EB & Hr)].
      - rewrite (fimage_none _ _ _ _ _ _ Hr). 2:{ destruct (stail_head _ _ T) as [->|X]; [reflexivity|]. apply raw_at_true in X. destruct X as (r' & ->). reflexivity. }
        rewrite (stopped_units _ _ _ _ _ Hr), stail_stop by exact T. reflexivity.
      - rewrite (fimage_none _ _ _ _ _ _ Hr) by reflexivity. rewrite (stopped_units _ _ _ _ _ Hr). destruct n as [|n]; [congruence|]. reflexivity. }
    cbn [List.length] in Hm. rewrite app_length in Hm.
    destruct T as [->|[(R & ->)|(Hn & R & ->)]].
    + apply cov_nil_inv in E1. subst ts2. cbn [fimages_loop]. rewrite E3. rewrite (Q [] false) by (first [lia | left; constructor]).
      eexists _, t, ts1, []. split; [reflexivity|]. cbn [flat_map map List.length]. rewrite E2. repeat split. left. constructor.
    + destruct (cov_term _ _ _ _ E1) as (e & r3 & -> & F1 & F2 & F3 & F4). cbn [fimages_loop]. rewrite E3. unfold is_eol. rewrite F1. change (kind_eqb Terminator Eol) with false. cbn match.
      rewrite (stopped_units _ _ _ _ _ E1). change (ustop (StopTerminator :: cst n) false (raw c_nl :: raw c_nl :: R)) with true. cbn match.
      rewrite (Q (e :: r3) false) by (first [cbn in Hm; lia | left; exact E1]).
      eexists _, t, ts1, _. split; [reflexivity|]. cbn [flat_map map List.length]. rewrite E2. repeat split. left. exact E1.
    + destruct (cov_eol _ _ _ _ E1 eq_refl) as (e & r3 & -> & F1 & F2 & F3 & F4). cbn [fimages_loop]. rewrite E3. unfold is_eol. rewrite F1. change (kind_eqb Eol Eol) with true. cbn match.
      rewrite (Q r3 true) by (first [cbn in Hm; lia | right; split; [reflexivity|]; exists R; auto]).
      eexists _, t, (ts1 ++ [e]), r3. split; [reflexivity|]. cbn [flat_map map List.length]. rewrite E2. rewrite <- app_assoc. repeat split. right. split; [exact Hn|]. exists R. auto.
  - rewrite <- app_assoc in H. destruct (image_units _ n _ _ _ _ H Gi ltac:(right; reflexivity)) as (t & ts1 & ts2 & t1 & t2 & -> & E1 & E2 & E3).
    cbn [app] in E1. assert (Nj : raw_at c_nl (uimages (j :: l) ++ B) = false) by reflexivity.
    destruct (cov_eol _ _ _ _ E1 Nj) as (e & r3 & -> & F1 & F2 & F3 & F4). cbn [fimages_loop]. rewrite E3. unfold is_eol. rewrite F1. change (kind_eqb Eol Eol) with true. cbn match.
    cbn [List.length] in Hm. rewrite app_length in Hm. cbn [List.length] in Hm.
    destruct (IH m true r3 B ltac:(discriminate) Gl F4 T ltac:(lia)) as (k & t' & ts1' & ts2' & I1 & I2 & I3 & -> & I5). rewrite I1.
    eexists _, t, (ts1 ++ e :: t' :: ts1'), ts2'. split; [reflexivity|]. cbn [flat_map map]. rewrite E2, I2. cbn [List.length] in *. rewrite I3.
    split; [reflexivity|]. split; [reflexivity|]. split; [|exact I5]. rewrite <- app_assoc. reflexivity.
Qed.

Lemma images_parses : forall n l, l <> [] -> Forall (igood n) l ->
  parses n (uimages l) match l with [i] => [YImage (eimage i)] | _ => [YImages (map eimage l)] end.
Proof.
  intros n l NE G s ts B fuel H T He Hf.
  destruct (images_loop_units s n l (S (List.length ts)) true ts B NE G H T ltac:(lia)) as (k & t & ts1 & ts2 & E1 & E2 & E3 & -> & E5).
  destruct l as [|i l]; [congruence|].
  rewrite (fblock_simple _ _ _ _ _ _ _ H) by (destruct l; reflexivity). unfold fsimple, forelse.
  rewrite (flist0_none _ _ _ _ _ H) by (destruct l; (discriminate || reflexivity)). unfold fimages. rewrite E1.
  assert (Ea : aft true (uimages (i :: l)) = false).
  { clear - NE. generalize true. revert i NE. induction l as [|j l IH]; intros i NE b; cbn [uimages]; rewrite aft_app; [cbn [aft]; destruct (uimage_ends i) as (r & ->); rewrite aft_app; reflexivity|].
    cbn [aft]. apply IH. discriminate. }
  rewrite Ea. destruct l as [|j l].
  - destruct k as [|x [|? ?]]; try discriminate. exists x, t, ts1, ts2. split; [reflexivity|]. split; [reflexivity|]. split; [|exact E5].
    cbn [flat_map] in E2. rewrite app_nil_r in E2. destruct x as [?|?|[] o kk c]; try discriminate E2. cbn [blocks]. rewrite E2. reflexivity.
  - destruct k as [|x [|y k]]; try discriminate. eexists _, t, ts1, ts2. split; [reflexivity|]. split; [reflexivity|]. split; [|exact E5].
    change ([YImages (flat_map (image_of s) (x :: y :: k))] = [YImages (map eimage (i :: j :: l))]). rewrite E2. reflexivity.
Qed.

(** *** Closing delimiters *)

Lemma close_units : forall s b n ts B c, cov s b ts B -> stail n B ->
  exists e rest, fclose_line (cst n) c ts = Some (c :: e, rest) /\ ts = e ++ rest /\ after s b n rest B.
Proof.
  intros s b n ts B c H T. destruct T as [->|[(R & ->)|(Hn & R & ->)]].
  - apply cov_nil_inv in H. subst ts. exists [], []. repeat split. left. constructor.
  - destruct (cov_term _ _ _ _ H) as (t & ts' & -> & E1 & E2 & E3 & E4). exists [], (t :: ts'). unfold fclose_line, is_eol, is_terminator. rewrite E1, orb_true_r. repeat split. left. exact H.
  - destruct (cov_eol _ _ _ _ H eq_refl) as (t & ts' & -> & E1 & E2 & E3 & E4). exists [t], ts'. unfold fclose_line, is_eol. rewrite E1. repeat split. right. split; [exact Hn|]. exists R. auto.
Qed.

Lemma no_line_end : forall s b t ts A B, cov s b (t :: ts) (A ++ B) -> A <> [] -> absent c_nl A -> kind t <> Eol /\ kind t <> Terminator.
Proof.
  intros s b t ts A B H NE Ab. assert (X : raw_at c_nl (A ++ B) = false) by (rewrite raw_at_app by exact NE; apply absent_raw_at; exact Ab). split; intros K.
  - pose proof (eol_test _ _ _ _ _ H) as T. rewrite K, X in T. discriminate.
  - pose proof (term_test _ _ _ _ _ H) as T. rewrite K in T. symmetry in T. apply raw2_at_true in T. destruct T as (r & T). rewrite T in X. discriminate.
Qed.
Lemma seam_nl : forall A B, ~ ends c_nl A -> seam A (raw c_nl :: B).
Proof. intros A B H. apply seam_special; try reflexivity; try discriminate. exact H. Qed.

Definition eol_pat (E R : list uchar) : Prop := (E = [raw c_nl] /\ raw_at c_nl R = false) \/ E = [raw c_nl; raw c_nl].
Lemma modifier_units : forall s st ts A E R, cov s false ts (A ++ E ++ R) -> absent c_nl A -> eol_pat E R -> calm st false A (E ++ R) -> ustop st (aft false A) (E ++ R) = false ->
  exists b c r1, fmodifier st ts = Some (Node NModifier [] [Leaf b] [c], r1) /\ ts = b ++ c :: r1 /\ ttexts s b = chars A /\ cov s true r1 R.
Proof.
  intros s st ts A E R H Ab HE Hc Hst. unfold fmodifier.
  assert (NE : A ++ E ++ R <> []) by (destruct HE as [[-> _]| ->]; destruct A; discriminate).
  assert (C0 : nth_is 0 col0 ts = false).
  { destruct (cov_cons_inv _ _ _ _ H NE) as (t & ts' & ->). exact (cov_col0 _ _ _ _ _ H). }
  rewrite C0. assert (Hf := cov_fine _ _ _ _ H). apply fine_app in Hf. destruct Hf as [_ Hf].
  assert (U : exists k, utok (E ++ R) = Some (k, E, R) /\ (k = Eol \/ k = Terminator)).
  { destruct HE as [[-> HR]| ->].
    - exists Eol. split; [|auto]. apply utok_eol; [|exact HR]. apply fine_cons in Hf. apply Hf.
    - exists Terminator. split; [|auto]. apply utok_term. }
  destruct U as (k & U & Hk).
  destruct (until_close s st is_eol_or_terminator A false ts E R k H) as (b & c & r1 & F1 & F2 & F3 & F4 & F5 & F6).
  - destruct HE as [[-> _]| ->]; apply seam_nl; apply absent_ends; exact Ab.
  - exact Hc.
  - intros A1 A2 t ts' -> NA X. apply absent_suffix in Ab. destruct (no_line_end _ _ _ _ _ _ X NA Ab) as [K1 K2]. unfold is_eol_or_terminator. destruct (kind t); try reflexivity; congruence.
  - exact U.
  - intros t K _ _. unfold is_eol_or_terminator. rewrite K. destruct Hk as [->| ->]; reflexivity.
  - exact Hst.
  - rewrite F1. exists b, c, r1. repeat (split; [assumption || reflexivity|]). destruct Hk as [-> | ->]; exact F6.
Qed.

(** *** Code *)

Definition fence : list uchar := [raw c_backtick; raw c_backtick; raw c_backtick].
Definition fenced (us : list uchar) : Prop := forall a b, us = a ++ fence ++ b -> exists a' u, a = a' ++ [u] /\ snd u = c_backtick.

Lemma code_body : forall s n ts uc W B, cov s true ts (W ++ fence ++ B) -> (W = [] /\ uc = [] \/ W = uc ++ [raw c_nl]) -> ~ ends c_nl uc -> fenced uc -> stail n B ->
  exists b c r2 cl rest, until [] is_backtick3 ts = Some (b, c, r2) /\ fclose_line (cst n) c r2 = Some (cl, rest) /\ ts = b ++ cl ++ rest /\ cl <> []
    /\ ttexts s b = chars W /\ after s false n rest B.
Proof.
  intros s n ts uc W B H HW He Hf T.
  assert (NB : raw_at c_backtick B = false) by (apply (stail_not n); [exact T|discriminate]).
  assert (Ea : aft true W = true) by (destruct HW as [[-> _]| ->]; [reflexivity|rewrite aft_app; reflexivity]).
  destruct (until_close s [] is_backtick3 W true ts fence B Backtick H) as (b & c & r2 & F1 & F2 & F3 & F4 & F5 & F6).
  - apply seam_special; try reflexivity; try discriminate. destruct HW as [[-> _]| ->]; intros (r & E); [destruct r; discriminate|]. apply app_inj_tail in E. destruct E as [_ E]. discriminate.
  - apply calm_none.
  - intros A1 A2 t ts' EW NA X. destruct HW as [[-> _]| ->]; [symmetry in EW; apply app_eq_nil in EW; destruct EW as [_ ->]; congruence|].
    unfold is_backtick3. rewrite swap3. destruct (kind_eqb (kind t) Backtick && (tlen t =? 3)) eqn:K; [|reflexivity]. cbn [andb].
    rewrite (run_test _ _ _ _ _ c_backtick Backtick 3 X eq_refl ltac:(lia) ltac:(left; discriminate)) in K. apply Nat.eqb_eq in K.
    rewrite (cov_col0 _ _ _ _ _ X). destruct (lead_split c_backtick (A2 ++ fence ++ B)) as [Es _]. rewrite K in Es. cbn [repeat app] in Es.
    destruct A2 as [|a0 A2 _] using rev_ind; [congruence|]. rewrite app_assoc in EW. apply app_inj_tail in EW. destruct EW as [-> <-].
    assert (Q : exists y, A2 = fence ++ y).
    { clear - Es. destruct A2 as [|u A2]; [discriminate Es|]. injection Es as -> Es. destruct A2 as [|v A2]; [discriminate Es|]. injection Es as -> Es.
      destruct A2 as [|w A2]; [discriminate Es|]. injection Es as ->. exists A2. reflexivity. }
    destruct Q as (y & ->). destruct (Hf A1 y eq_refl) as (a' & u & -> & Hu). rewrite aft_app. cbn [aft]. unfold is_nl. rewrite Hu. apply andb_false_r.
  - apply (delim_run c_backtick Backtick 2); [reflexivity|discriminate|exact NB].
  - intros t K C0 L. unfold is_backtick3. rewrite K, C0, L, Ea. reflexivity.
  - reflexivity.
  - cbn [line_end] in F6. destruct (close_units s false n r2 B c F6 T) as (e & rest & G1 & G2 & G3).
    exists b, c, r2, (c :: e), rest. rewrite G1. split; [exact F1|]. split; [reflexivity|]. split; [rewrite F2, G2; reflexivity|]. split; [discriminate|]. auto.
Qed.

Lemma code_parses : forall n ul uc, absent c_nl ul -> absent c_backtick ul -> raw_at c_nl uc = false -> ~ ends c_nl uc -> fenced uc ->
  parses n (fence ++ ul ++ [raw c_nl] ++ uc ++ [raw c_nl] ++ fence) [YCode (chars ul) (trim_end c_nl (chars uc ++ [c_nl]))].
Proof.
  intros n ul uc A1 A2 Hn He Hfe s ts B fuel H T Hend Hfu. rewrite <- !app_assoc in H.
  assert (Ea : aft true (fence ++ ul ++ [raw c_nl] ++ uc ++ [raw c_nl] ++ fence) = false) by (rewrite !aft_app; reflexivity). rewrite Ea.
  assert (NB : raw_at c_backtick (ul ++ [raw c_nl] ++ uc ++ [raw c_nl] ++ fence ++ B) = false).
  { destruct ul as [|u ul]; [reflexivity|]. cbn [app raw_at]. apply (absent_raw_at c_backtick (u :: ul) A2). }
  destruct (cov_runs _ _ _ c_backtick Backtick 2 _ H eq_refl ltac:(left; discriminate) NB) as (t & ts' & -> & E1 & E2 & E3 & E4 & E5).
  change (aft true (repeat (raw c_backtick) 3)) with false in E5.
  assert (Bt : is_backtick3 t = true) by (unfold is_backtick3; rewrite E1, E2, E3; reflexivity).
  (* the part after the fence *)
  assert (X : exists o k1 r1 y W, ffence (t :: ts') = Some (o, if is_eol (last o (mk_token Literal 0 0 (mk_pos 0 0 0) false)) then r1 else ts')
      /\ (if negb (is_eol (last o (mk_token Literal 0 0 (mk_pos 0 0 0) false))) then opt_tree (fmodifier [] ts') ts' else ([], r1)) = (k1, r1)
      /\ ts' = y ++ r1 /\ (forall b, text_or_empty (child_text s NModifier (k1 ++ [Leaf b])) = chars ul) /\ (forall b, inner s (k1 ++ [Leaf b]) = ttexts s b)
      /\ (W = [] /\ uc = [] \/ W = uc ++ [raw c_nl]) /\ cov s true r1 (W ++ fence ++ B)).
  { destruct ul as [|u ul].
    - cbn [app] in E5. destruct uc as [|v uc].
      + cbn [app] in E5. destruct (cov_term _ _ _ _ E5) as (e & r1 & -> & F1 & F2 & F3 & F4).
        destruct (modifier_units s [] (e :: r1) [] [raw c_nl; raw c_nl] (fence ++ B) E5 ltac:(intros []) ltac:(right; reflexivity) ltac:(apply calm_none) eq_refl) as (b & c & r1' & G1 & G2 & G3 & G4).
        exists [t], [Node NModifier [] [Leaf b] [c]], r1', (b ++ [c]), []. cbn [last]. unfold is_eol at 1 2. rewrite E1. change (kind_eqb Backtick Eol) with false. cbn [negb].
        split; [|split; [rewrite G1; reflexivity|]].
        { unfold ffence. cbn [fseq]. rewrite Bt. unfold is_eol. rewrite F1. reflexivity. }
        split; [rewrite G2, <- app_assoc; reflexivity|]. split; [intros b'; cbn [app]; rewrite child_text_hd; cbn [text_or_empty inner flat_map]; rewrite app_nil_r; exact G3|].
        split; [intros b'; cbn [inner flat_map app]; rewrite app_nil_r; reflexivity|]. split; [left; auto|]. exact G4.
      + assert (Nv : raw_at c_nl ((v :: uc) ++ [raw c_nl] ++ fence ++ B) = false) by exact Hn.
        destruct (cov_eol _ _ _ _ E5 Nv) as (e & r1 & -> & F1 & F2 & F3 & F4).
        exists [t; e], [], r1, [e], ((v :: uc) ++ [raw c_nl]). unfold ffence. cbn [fseq last]. rewrite Bt. unfold is_eol. rewrite F1.
        repeat (split; [reflexivity|]). split; [intros b; cbn [inner flat_map app]; rewrite app_nil_r; reflexivity|]. split; [right; reflexivity|].
        rewrite <- app_assoc. exact F4.
    - assert (EX : exists E R W, (u :: ul) ++ [raw c_nl] ++ uc ++ [raw c_nl] ++ fence ++ B = (u :: ul) ++ E ++ R /\ eol_pat E R /\ R = W ++ fence ++ B /\ (W = [] /\ uc = [] \/ W = uc ++ [raw c_nl])).
      { destruct uc as [|v uc].
        - exists [raw c_nl; raw c_nl], (fence ++ B), []. split; [reflexivity|]. split; [right; reflexivity|]. split; [reflexivity|left; auto].
        - exists [raw c_nl], ((v :: uc) ++ [raw c_nl] ++ fence ++ B), ((v :: uc) ++ [raw c_nl]). split; [reflexivity|]. split; [left; split; [reflexivity|exact Hn]|]. split; [rewrite <- app_assoc; reflexivity|right; reflexivity]. }
      destruct EX as (E & R & W & EE & EP & ER & EW). rewrite EE in E5.
      destruct (modifier_units s [] ts' (u :: ul) E R E5 A1 EP ltac:(apply calm_none) ltac:(destruct EP as [[-> _]| ->]; reflexivity)) as (b & c & r1 & G1 & G2 & G3 & G4).
      exists [t], [Node NModifier [] [Leaf b] [c]], r1, (b ++ [c]), W. cbn [last]. unfold is_eol at 1 2. rewrite E1. change (kind_eqb Backtick Eol) with false. cbn [negb].
      split; [|split; [rewrite G1; reflexivity|]].
      + unfold ffence. cbn [fseq]. rewrite Bt. destruct (cov_cons_inv _ _ _ _ E5) as (w & ts2 & ->); [discriminate|]. destruct (no_line_end _ _ _ _ _ _ E5 ltac:(discriminate) A1) as [K1 _].
        replace (is_eol w) with false; [reflexivity|]. unfold is_eol. destruct (kind w); try reflexivity; congruence.
      + split; [rewrite G2, <- app_assoc; reflexivity|]. split; [intros b'; cbn [app]; rewrite child_text_hd; cbn [text_or_empty inner flat_map]; rewrite app_nil_r; exact G3|].
        split; [intros b'; cbn [inner flat_map app]; rewrite app_nil_r; reflexivity|]. split; [exact EW|]. rewrite <- ER. exact G4. }
  destruct X as (o & k1 & r1 & y & W & X1 & X2 & X3 & X4 & X5 & X6 & X7).
  destruct (code_body s n r1 uc W B X7 X6 He Hfe T) as (b & c & r2 & cl & rest & Y1 & Y2 & Y3 & Y4 & Y5 & Y6).
  exists (Node NCode o (k1 ++ [Leaf b]) cl), t, (y ++ b ++ cl), rest. unfold fblock, fcode. rewrite X1.
  destruct (is_eol (last o (mk_token Literal 0 0 (mk_pos 0 0 0) false))) eqn:Eo; cbn [negb] in *.
  - injection X2 as <-. rewrite Y1, Y2. split; [reflexivity|]. split; [rewrite X3, Y3, <- !app_assoc; reflexivity|]. split; [|exact Y6].
    cbn [blocks]. rewrite X4, X5, Y5. destruct X6 as [[-> ->]| ->]; [reflexivity|]. rewrite chars_app. reflexivity.
  - rewrite X2, Y1, Y2. split; [reflexivity|]. split; [rewrite X3, Y3, <- !app_assoc; reflexivity|]. split; [|exact Y6].
    cbn [blocks]. rewrite X4, X5, Y5. destruct X6 as [[-> ->]| ->]; [reflexivity|]. rewrite chars_app. reflexivity.
Qed.

(** *** Embeds *)

Lemma seam_rcurly : forall A B, ~ ends c_rcurly A -> ~ ends c_percent A -> seam A (raw c_rcurly :: B).
Proof.
  intros A B N1 N2. destruct A as [|a0 A0]; [left; reflexivity|]. destruct (@exists_last _ (a0 :: A0)) as (A1 & a & E); [discriminate|]. rewrite E in *. clear E a0 A0.
  right. right. exists A1, a, (raw c_rcurly), B. split; [reflexivity|]. split; [reflexivity|]. unfold joint. cbn [fst snd raw orb]. destruct (fst a) eqn:Fa; [reflexivity|].
  assert (Na : char_eqb (snd a) c_rcurly = false) by (apply N.eqb_neq; intros Ha; apply N1; exists A1; rewrite (raw_eq a c_rcurly Fa Ha); reflexivity).
  assert (Np : char_eqb (snd a) c_percent = false) by (apply N.eqb_neq; intros Ha; apply N2; exists A1; rewrite (raw_eq a c_percent Fa Ha); reflexivity).
  rewrite Na, Np. destruct (char_eqb (snd a) c_nl); [reflexivity|]. destruct (is_some (single_kind (snd a))); [reflexivity|]. destruct (is_some (run_kind (snd a)) && negb (char_eqb (snd a) c_space)); [|reflexivity].
  cbn [negb andb]. rewrite andb_false_r. reflexivity.
Qed.

Definition lcurly2 : list uchar := [raw c_lcurly; raw c_lcurly].
Definition rcurly2 : list uchar := [raw c_rcurly; raw c_rcurly].
Lemma embed_parses : forall n uk ua, absent c_pipe uk -> absent c_lcurly uk -> absent c_rcurly ua -> absent c_percent ua -> (n <> 0 -> nosub cpat uk) ->
  parses n (lcurly2 ++ uk ++ [raw c_pipe] ++ ua ++ rcurly2) [YEmbed (chars uk) (chars ua)].
Proof.
  intros n uk ua A1 A2 A3 A4 Hk s ts B fuel H T He Hfu. rewrite <- !app_assoc in H.
  assert (NB : raw_at c_rcurly B = false) by (apply (stail_not n); [exact T|discriminate]).
  assert (NK : raw_at c_lcurly (uk ++ [raw c_pipe] ++ ua ++ rcurly2 ++ B) = false).
  { destruct uk as [|u uk]; [reflexivity|]. cbn [app raw_at]. apply (absent_raw_at c_lcurly (u :: uk) A2). }
  destruct (cov_runs _ _ _ c_lcurly LeftCurlyBrace 1 _ H eq_refl ltac:(right; lia) NK) as (t & ts' & -> & E1 & E2 & E3 & E4 & E5).
  change (aft true (repeat (raw c_lcurly) 2)) with false in E5.
  destruct (until_close s (cst n) is_pipe uk false ts' [raw c_pipe] (ua ++ rcurly2 ++ B) Pipe E5) as (b1 & s1 & r1 & F1 & F2 & F3 & F4 & F5 & F6).
  - apply seam_special; try reflexivity; try discriminate. apply absent_ends. exact A1.
  - apply (calm_left _ uk _ [raw c_pipe] (ua ++ rcurly2 ++ B)). destruct n as [|n]; [apply calm_none|]. apply calm_cst1. apply calm_intro. intros X1 X2 EX NX.
    destruct X2 as [|x X2]; [congruence|]. cbn [ustop existsb fires app]. rewrite orb_false_r. apply orb_false_iff.
    assert (Q : forall Y1 Y2, uk ++ [raw c_pipe] = Y1 ++ Y2 -> raw2_at c_percent c_rcurly (Y2 ++ ua ++ rcurly2 ++ B) = true -> exists Y3, Y2 = raw c_percent :: raw c_rcurly :: Y3 ++ [raw c_pipe] /\ uk = Y1 ++ raw c_percent :: raw c_rcurly :: Y3).
    { intros Y1 Y2 EY R2. apply raw2_at_true in R2. destruct R2 as (r & R2). destruct Y2 as [|y Y2 _] using rev_ind.
      - exfalso. cbn [app] in R2. destruct ua as [|w ua]; [discriminate R2|]. injection R2 as -> _. apply A4. left. reflexivity.
      - rewrite app_assoc in EY. apply app_inj_tail in EY. destruct EY as [EY <-]. destruct Y2 as [|y1 Y2]; [discriminate R2|]. injection R2 as -> R2. destruct Y2 as [|y2 Y2]; [discriminate R2|]. injection R2 as -> R2.
        exists Y2. split; [reflexivity|exact EY]. }
    split.
    + destruct (aft false X1) eqn:Ea; [|reflexivity]. cbn [andb]. destruct (raw2_at c_percent c_rcurly (x :: X2 ++ ua ++ rcurly2 ++ B)) eqn:R2; [|reflexivity]. exfalso.
      destruct (Q X1 (x :: X2) EX R2) as (Y3 & _ & EK). apply aft_true in Ea. destruct Ea as [[_ Ea]|(r & ->)]; [discriminate|]. apply (Hk ltac:(discriminate) r Y3). rewrite EK, <- app_assoc. reflexivity.
    + destruct (is_nl x) eqn:Ex; [|reflexivity]. cbn [andb]. apply is_nl_raw in Ex. subst x. destruct (raw2_at c_percent c_rcurly (X2 ++ ua ++ rcurly2 ++ B)) eqn:R2; [|reflexivity]. exfalso.
      destruct (Q (X1 ++ [raw c_nl]) X2) as (Y3 & _ & EK); [rewrite EX, <- app_assoc; reflexivity|exact R2|]. apply (Hk ltac:(discriminate) X1 Y3). rewrite EK, <- app_assoc. reflexivity.
  - intros X1 X2 w ts2 -> NX C. apply absent_suffix in A1. exact (not_first _ _ _ _ _ _ Pipe 1 c_pipe C NX A1 eq_refl).
  - apply utok_single. reflexivity.
  - intros w K _ L. unfold is_pipe. rewrite K, L. reflexivity.
  - destruct n as [|n]; [reflexivity|]. rewrite cst_stop by discriminate. cbn. rewrite andb_false_r. reflexivity.
  - cbn [line_end] in F6.
    destruct (until_close s (cst n) is_right_curly2 ua false r1 rcurly2 B RightCurlyBrace F6) as (b2 & c2 & r2 & G1 & G2 & G3 & G4 & G5 & G6).
    + apply seam_rcurly; apply absent_ends; assumption.
    + destruct n as [|n]; [apply calm_none|]. apply calm_cst1. apply calm_intro. intros X1 X2 -> NX. apply absent_suffix in A4. destruct X2 as [|x X2]; [congruence|]. 
      assert (Q : forall Y, absent c_percent Y -> raw2_at c_percent c_rcurly (Y ++ rcurly2 ++ B) = false).
      { intros Y AY. destruct Y as [|y Y]; [reflexivity|]. destruct (raw2_at c_percent c_rcurly ((y :: Y) ++ rcurly2 ++ B)) eqn:R2; [|reflexivity]. apply raw2_at_true in R2. destruct R2 as (r & R2). injection R2 as -> _. exfalso. apply AY. left. reflexivity. }
      cbn [ustop existsb fires app]. rewrite orb_false_r. pose proof (Q (x :: X2) A4) as Q0. cbn [app] in Q0. rewrite Q0, andb_false_r. cbn [orb]. rewrite (Q X2), andb_false_r; [reflexivity|]. intros Hi. apply A4. right. exact Hi.
    + intros X1 X2 w ts2 -> NX C. apply absent_suffix in A3. exact (not_first _ _ _ _ _ _ RightCurlyBrace 2 c_rcurly C NX A3 eq_refl).
    + apply (delim_run c_rcurly RightCurlyBrace 1); [reflexivity|discriminate|exact NB].
    + intros w K _ L. unfold is_right_curly2. rewrite K, L. reflexivity.
    + destruct n as [|n]; [reflexivity|]. rewrite cst_stop by discriminate. cbn. rewrite andb_false_r. reflexivity.
    + cbn [line_end] in G6. destruct (close_units s false n r2 B c2 G6 T) as (e & rest & K1 & K2 & K3).
      eexists _, t, (b1 ++ s1 :: b2 ++ c2 :: e), rest. unfold fblock.
      rewrite (fcode_none _ _ _ _ _ _ H) by reflexivity. rewrite (fcoll_none _ _ _ _ _ _ _ H) by reflexivity.
      unfold forelse, fembed. replace (is_left_curly2 t) with true by (unfold is_left_curly2; rewrite E1, E2, E3; reflexivity). rewrite F1, G1, K1.
      split; [reflexivity|]. split; [rewrite F2, G2, K2; cbn; rewrite <- !app_assoc; cbn; rewrite <- !app_assoc; reflexivity|]. split.
      * cbn [blocks leaf_texts flat_map app value_at nth]. cbn. rewrite F3, G3. reflexivity.
      * rewrite !aft_app. exact K3.
Qed.
