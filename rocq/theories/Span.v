(** Tokens that cover known units, and what the units of written texts say about the texts. *)
From Coq Require Import String Bool.
From Verif Require Import Base Lexer LexSpec LexProofs LexFacts Ops Parser FParser TokFacts Ast AstSpec Tame Runs Units ULex Stops Inline LinkUnits AstUnits Calm.
From Verif Require RawTree.
Open Scope list_scope.

(** ** Cutting by the text of tokens *)

Lemma chars_len : forall us, List.length (chars us) = List.length us.
Proof. induction us as [|u us IH]; [reflexivity|]. cbn. rewrite IH. reflexivity. Qed.
Lemma prefix_units : forall U R g r x, U ++ R = g ++ r -> chars U = chars g ++ x -> exists U', U = g ++ U' /\ chars U' = x.
Proof.
  intros U R g. revert U. induction g as [|u g IH]; intros U r x E C; [exists U; auto|]. destruct U as [|v U]; [discriminate|]. cbn in E, C. injection E as -> E. injection C as C.
  destruct (IH U r x E C) as (U' & -> & F). exists U'. auto.
Qed.
Lemma span : forall s d b r U R, cov s b (d ++ r) (U ++ R) -> ttexts s d = chars U -> cov s (aft b U) r R.
Proof.
  intros s. induction d as [|t d IH]; intros b r U R H E.
  - cbn in E. destruct U; [exact H|discriminate].
  - rewrite ttexts_cons in E. assert (NE : U ++ R <> []).
    { intros X. inversion H as [|? ? ? ? g r0 _ Ut _ _ _ _]; subst. rewrite X in Ut. discriminate Ut. }
    destruct (cov_inv _ _ _ _ H NE) as (t' & ts' & g & r' & Et & U1 & Eg & Ng & G & C0 & T1 & _ & Cr). injection Et as <- <-.
    rewrite T1 in E. destruct (prefix_units U R g r' _ Eg (eq_sym E)) as (U' & -> & EU). rewrite <- app_assoc in Eg. apply app_inv_head in Eg. subst r'.
    rewrite aft_app, (group_aft _ _ b G Ng). apply IH; [exact Cr|symmetry; exact EU].
Qed.

(** ** The token at a line feed *)

Lemma group_nl : forall k g a c, group_ok k g -> g = a ++ raw c_nl :: c -> (k = Eol /\ a = [] /\ c = []) \/ (k = Terminator /\ (a = [] \/ a = [raw c_nl]) /\ a ++ c = [raw c_nl]).
Proof.
  intros k g a c G E.
  assert (Run : forall d n, kind_char k = Some d -> d <> c_nl -> g = repeat (raw d) (S n) -> False).
  { intros d n _ D X. assert (I : In (raw c_nl) (repeat (raw d) (S n))) by (rewrite <- X, E; apply in_or_app; right; left; reflexivity). apply repeat_spec in I. injection I as I. congruence. }
  destruct k; cbn in G; try (destruct G as (d & n & Kd & G); exfalso; apply (Run d n); [exact Kd|cbn in Kd; injection Kd as <-; discriminate|exact G]).
  all: try (exfalso; rewrite G in E; destruct a as [|v [|w [|? ?]]]; discriminate).
  all: try (exfalso; destruct G as (u & g' & -> & F & Hu); destruct a as [|v a];
    [injection E as -> E; destruct Hu as [Hu|Hu]; discriminate|injection E as -> ->; apply Forall_app in F; destruct F as [_ F]; inversion F as [|? ? [_ F1] _]; subst; discriminate F1]).
  all: rewrite G in E.
  - right. split; [reflexivity|]. destruct a as [|v [|w a]].
    + injection E as <-. auto.
    + injection E as <- <-. auto.
    + destruct a; discriminate.
  - left. destruct a as [|v a]; [injection E as <-; auto|]. destruct a; discriminate.
Qed.
(** A line ends before [V]. *)
Lemma cut_nl : forall s n U1 b ts V, List.length U1 <= n -> cov s b ts (U1 ++ raw c_nl :: V) -> raw_at c_nl V = false ->
  exists d1 d2 t, ts = (d1 ++ [t]) ++ d2 /\ line_end (kind t) = true /\ ttexts s (d1 ++ [t]) = chars (U1 ++ [raw c_nl]) /\ cov s true d2 V.
Proof.
  intros s. induction n as [|n IH]; intros U1 b ts V Hn H HV.
  - destruct U1; [|cbn in Hn; lia]. cbn [app] in *. pose proof (cov_fine _ _ _ _ H) as Hf. apply fine_cons in Hf.
    destruct (cov_step _ _ _ _ _ _ _ H (utok_eol V (proj2 Hf) HV)) as (t & ts' & -> & E1 & _ & E4 & _ & E5). exists [], ts', t. rewrite E1. split; [reflexivity|]. split; [reflexivity|].
    split; [cbn; rewrite app_nil_r, E4; reflexivity|]. exact E5.
  - destruct (cov_inv _ _ _ _ H) as (t & ts' & g & r & -> & U & Eg & Ng & G & _ & T1 & _ & Cr); [destruct U1; discriminate|].
    destruct (le_lt_dec (List.length g) (List.length U1)) as [L|L].
    + assert (X : exists U2, U1 = g ++ U2 /\ r = U2 ++ raw c_nl :: V).
      { clear - Eg L. revert U1 Eg L. induction g as [|u g IHg]; intros U1 Eg L; [exists U1; auto|]. destruct U1 as [|v U1]; [cbn in L; lia|]. injection Eg as -> Eg. cbn in L. destruct (IHg U1 Eg ltac:(lia)) as (U2 & -> & ->). exists U2. auto. }
      destruct X as (U2 & -> & ->). assert (Ln : List.length U2 <= n) by (rewrite app_length in Hn; destruct g; [congruence|]; cbn in Hn; lia).
      destruct (IH U2 _ ts' V Ln Cr HV) as (d1 & d2 & t2 & -> & K & Tx & Cv). exists (t :: d1), d2, t2. split; [reflexivity|]. split; [exact K|]. split; [|exact Cv].
      change ((t :: d1) ++ [t2]) with (t :: (d1 ++ [t2])). rewrite ttexts_cons, Tx, T1, <- app_assoc, !chars_app. reflexivity.
    + assert (X : exists c, g = U1 ++ raw c_nl :: c /\ V = c ++ r).
      { clear - Eg L. revert g Eg L. induction U1 as [|u U1 IHu]; intros g Eg L; (destruct g as [|v g]; [cbn in L; lia|]); cbn in Eg; injection Eg as <- Eg; [exists g; auto|]. cbn in L. destruct (IHu g Eg ltac:(lia)) as (c & -> & ->). exists c. auto. }
      destruct X as (c & Ec & EV). assert (c = []).
      { destruct (group_nl _ _ _ _ G Ec) as [(_ & _ & X)|(_ & X & Y)]; [exact X|]. destruct X as [->| ->]; [|injection Y as ->; reflexivity]. cbn in Y. subst c. rewrite EV in HV. discriminate HV. }
      subst c. cbn [app] in EV. subst r.
      assert (K : line_end (kind t) = true) by (destruct (group_nl _ _ _ _ G Ec) as [(X & _)|(X & _)]; rewrite X; reflexivity).
      exists [], ts', t. split; [reflexivity|]. split; [exact K|]. split; [cbn; rewrite app_nil_r, T1, Ec; reflexivity|]. rewrite K in Cr. exact Cr.
Qed.
(** A raw line feed is part of a line end. *)
Lemma in_nl : forall s d b r U R, cov s b (d ++ r) (U ++ R) -> ttexts s d = chars U -> In (raw c_nl) U -> exists t, In t d /\ line_end (kind t) = true.
Proof.
  intros s. induction d as [|t d IH]; intros b r U R H E I.
  - destruct U; [contradiction|discriminate].
  - assert (NE : U ++ R <> []) by (destruct U; [contradiction|discriminate]).
    destruct (cov_inv _ _ _ _ H NE) as (t' & ts' & g & r' & Et & U1 & Eg & Ng & G & C0 & T1 & _ & Cr). injection Et as <- <-.
    rewrite ttexts_cons, T1 in E. destruct (prefix_units U R g r' _ Eg (eq_sym E)) as (U' & -> & EU). rewrite <- app_assoc in Eg. apply app_inv_head in Eg. subst r'.
    apply in_app_or in I. destruct I as [I|I].
    + apply in_split in I. destruct I as (a & c & Ea). exists t. split; [left; reflexivity|]. destruct (group_nl _ _ _ _ G Ea) as [(X & _)|(X & _)]; rewrite X; reflexivity.
    + destruct (IH _ _ U' R Cr (eq_sym EU) I) as (t2 & I2 & K). exists t2. split; [right; exact I2|exact K].
Qed.
(** Two of them are a blank line. *)
Lemma in_term : forall s d b r U R, cov s b (d ++ r) (U ++ R) -> ttexts s d = chars U -> ~ no2 c_nl c_nl U -> exists t, In t d /\ kind t = Terminator.
Proof.
  intros s. induction d as [|t d IH]; intros b r U R H E I.
  - destruct U; [|discriminate]. exfalso. apply I. intros a c X. destruct a; discriminate.
  - destruct U as [|u U]; [exfalso; apply I; intros a c X; destruct a; discriminate|].
    destruct (cov_inv _ _ _ _ H ltac:(discriminate)) as (t' & ts' & g & r' & Et & U1 & Eg & Ng & G & C0 & T1 & _ & Cr). injection Et as <- <-.
    destruct (kind_eqb (kind t) Terminator) eqn:K; [exists t; split; [left; reflexivity|apply kind_eqb_eq; exact K]|].
    rewrite ttexts_cons, T1 in E. destruct (prefix_units (u :: U) R g r' _ Eg (eq_sym E)) as (U' & EU & EU'). rewrite EU in *. rewrite <- app_assoc in Eg. apply app_inv_head in Eg. subst r'.
    destruct (IH _ _ U' R Cr (eq_sym EU')) as (t2 & I2 & K2); [|exists t2; split; [right; exact I2|exact K2]].
    intros N. apply I. intros a c X. destruct (le_lt_dec (List.length g) (List.length a)) as [L|L].
    + assert (Y : exists a', a = g ++ a' /\ U' = a' ++ raw c_nl :: raw c_nl :: c).
      { clear - X L. revert a X L. induction g as [|v g IHg]; intros a X L; [exists a; auto|]. destruct a as [|w a]; [cbn in L; lia|]. injection X as -> X. cbn in L. destruct (IHg a X ltac:(lia)) as (a' & -> & ->). exists a'. auto. }
      destruct Y as (a' & _ & Y). exact (N a' c Y).
    + assert (Y : exists e, g = a ++ raw c_nl :: e /\ raw c_nl :: c = e ++ U').
      { clear - X L. revert g X L. induction a as [|w a IHa]; intros g X L; (destruct g as [|v g]; [cbn in L; lia|]); cbn in X; injection X as -> X; [exists g; auto|]. cbn in L. destruct (IHa g X ltac:(lia)) as (e & -> & Y). exists e. auto. }
      destruct Y as (e & Y1 & Y2). destruct (group_nl _ _ _ _ G Y1) as [(K1 & -> & ->)|(K1 & _)]; [|rewrite K1 in K; discriminate].
      rewrite Y1 in *. cbn [app] in *. subst U'.
      pose proof (eol_test _ _ _ _ _ H) as Et. rewrite K1 in Et. cbn [app] in Et. unfold raw2_at in Et. cbn in Et. discriminate Et.
Qed.
Lemma span_no2 : forall s st d b r U R, cov s b (d ++ r) (U ++ R) -> ttexts s d = chars U -> In StopTerminator st -> RawTree.quiet st d -> no2 c_nl c_nl U.
Proof.
  intros s st d b r U R H E I Q a c X. destruct (in_term s d b r U R H E) as (t & It & K); [intros N; exact (N a c X)|]. apply in_split in It. destruct It as (x & y & ->).
  specialize (Q x (t :: y) _ eq_refl I). cbn in Q. unfold is_terminator in Q. rewrite K in Q. discriminate.
Qed.
Lemma span_cpat : forall s st d b r U R, cov s b (d ++ r) (U ++ R) -> ttexts s d = chars U -> In StopCollapsibleEnd st -> RawTree.quiet st d -> nosub cpat U.
Proof.
  intros s st d b r U R H E I Q a c X. subst U. cbn [cpat app] in *.
  rewrite <- app_assoc in H. cbn [app] in H. destruct (cut_nl s _ a b _ (raw c_percent :: raw c_rcurly :: c ++ R) (le_n _) H eq_refl) as (d1 & d2 & t & Ed & K & Tx & Cv).
  set (e := d1 ++ [t]) in *. assert (Y : exists d3, d = e ++ d3 /\ d2 = d3 ++ r).
  { clearbody e. assert (L : ttexts s d = ttexts s e ++ c_percent :: c_rcurly :: chars c) by (rewrite E, Tx, !chars_app, <- app_assoc; reflexivity). clear - Ed L.
    revert e Ed L. induction d as [|w d IHd]; intros e Ed L.
    - exfalso. cbn in L. destruct (ttexts s e); discriminate.
    - destruct e as [|v e]; [cbn [app] in Ed; exists (w :: d); auto|]. cbn in Ed. injection Ed as <- Ed. rewrite !ttexts_cons, <- app_assoc in L. apply app_inv_head in L. destruct (IHd e Ed L) as (d3 & -> & ->). exists d3. auto. }
  destruct Y as (d3 & -> & ->). assert (N3 : d3 <> []).
  { intros ->. rewrite app_nil_r, Tx in E. apply (f_equal (@List.length _)) in E. rewrite !chars_len, !app_length in E. cbn in E. lia. }
  destruct d3 as [|w d3]; [congruence|]. specialize (Q e (w :: d3) _ eq_refl I).
  cbn [app] in Cv. pose proof (cend_test _ _ _ _ _ Cv) as Ct. pose proof Cv as Cv2. inversion Cv2 as [|? ? ? ? g0 r0 _ _ C0 _ _ _]; subst. cbn in Ct.
  assert (X : fmatches StopCollapsibleEnd (w :: d3) = true); [|congruence]. cbn. unfold is_collapsible_end. rewrite Ct, C0. reflexivity.
Qed.

(** ** Texts written with [nn] *)

Definition plain3 (us : list uchar) : Prop := forall c, In c [c_nl; c_percent; c_rcurly] -> ~ In (escd c) us.
Definition keep3 (C : char -> Prop) : Prop := forall c, In c [c_nl; c_percent; c_rcurly] -> ~ C c.

Lemma nn_pair : forall r, nn (raw c_nl :: raw c_nl :: r) = escd c_nl :: raw c_nl :: nn r.
Proof. reflexivity. Qed.
Lemma nn_single : forall r, raw_at c_nl r = false -> nn (raw c_nl :: r) = raw c_nl :: nn r.
Proof.
  intros r H. unfold nn. destruct r as [|[e c] r]; [reflexivity|].
  assert (U : umatch [escd c_nl; raw c_nl] (raw c_nl :: (e, c) :: r) = false).
  { unfold umatch. cbn [follows]. unfold raw_at in H. cbn [fst snd raw] in *. destruct e; [rewrite andb_false_r; reflexivity|]. destruct (char_eqb c_nl c) eqn:E; [|rewrite andb_false_r; reflexivity].
    apply char_eqb_eq in E. subst c. discriminate H. }
  change (umark [escd c_nl; raw c_nl] [] (raw c_nl :: (e, c) :: r)) with (if umatch [escd c_nl; raw c_nl] (raw c_nl :: (e, c) :: r) then escd c_nl :: umark [escd c_nl; raw c_nl] [raw c_nl] ((e, c) :: r) else raw c_nl :: umark [escd c_nl; raw c_nl] [] ((e, c) :: r)).
  rewrite U. reflexivity.
Qed.
Lemma nn_other : forall u r, snd u <> c_nl -> nn (u :: r) = u :: nn r.
Proof.
  intros [e c] r H. unfold nn. cbn [umark umatch snd escd]. replace (char_eqb c_nl c) with false; [reflexivity|]. destruct (char_eqb c_nl c) eqn:E; [|reflexivity]. apply char_eqb_eq in E. subst c. cbn in H. congruence.
Qed.
Lemma no2_cons : forall c d u us, no2 c d (u :: us) -> no2 c d us.
Proof. intros c d u us H a b E. apply (H (u :: a) b). rewrite E. reflexivity. Qed.

Lemma nn_runs : forall n us, List.length us <= n -> ~ In (escd c_nl) us ->
  (no2 c_nl c_nl (nn us) -> runsb 0 (chars us) = true)
  /\ (no2 c_nl c_nl (raw c_nl :: nn us) -> forall k, runsb (S (S (2 * k))) (chars us) = true).
Proof.
  assert (Ev : forall k, run_ok (S (S (2 * k))) = true) by (intros k; apply run_ok_iff; right; exists (S k); lia).
  induction n as [|n IH]; intros us Hn He.
  - destruct us; [|cbn in Hn; lia]. split; [reflexivity|]. intros _ k. apply Ev.
  - destruct us as [|[e c] us]; [split; [reflexivity|]; intros _ k; apply Ev|]. cbn in Hn.
    assert (He' : ~ In (escd c_nl) us) by (intros X; apply He; right; exact X). destruct (IH us ltac:(lia) He') as [I0 I2].
    destruct (char_eqb c c_nl) eqn:E.
    + apply char_eqb_eq in E. subst c. destruct e; [exfalso; apply He; left; reflexivity|]. change (false, c_nl) with (raw c_nl) in *.
      destruct (raw_at c_nl us) eqn:R.
      * apply raw_at_true in R. destruct R as (r & ->). rewrite nn_pair. cbn in Hn. assert (He2 : ~ In (escd c_nl) r) by (intros X; apply He'; right; exact X).
        destruct (IH r ltac:(lia) He2) as [_ J2]. cbn [chars snd raw runsb]. rewrite char_eqb_refl. split.
        -- intros N. apply no2_cons in N. exact (J2 N 0).
        -- intros N k. apply no2_cons, no2_cons in N. replace (S (S (S (S (2 * k))))) with (S (S (2 * (S k)))) by lia. exact (J2 N (S k)).
      * rewrite (nn_single _ R). cbn [chars snd raw runsb]. rewrite char_eqb_refl. split.
        -- intros N. apply no2_cons in N. specialize (I0 N). destruct us as [|[e c] us]; [reflexivity|]. cbn [chars snd runsb] in *. destruct (char_eqb c c_nl) eqn:E; [|apply andb_true_iff in I0; destruct I0 as [_ I0]; rewrite I0; reflexivity].
           exfalso. apply char_eqb_eq in E. subst c. destruct e; [apply He'; left; reflexivity|discriminate R].
        -- intros N. exfalso. apply (N [] (nn us)). reflexivity.
    + assert (Nc : c <> c_nl) by (intros X; subst c; rewrite char_eqb_refl in E; discriminate). rewrite (nn_other ((e, c) : uchar) us Nc : nn (@cons uchar (e, c) us) = _). cbn [chars snd runsb]. rewrite E. split.
      * intros N. apply no2_cons in N. rewrite (I0 N). reflexivity.
      * intros N k. apply no2_cons, no2_cons in N. rewrite (Ev k), (I0 N). reflexivity.
Qed.
Lemma nn_even_inv : forall us, ~ In (escd c_nl) us -> no2 c_nl c_nl (nn us) -> even_runs (chars us).
Proof. intros us He N. apply runsb_ok. apply (nn_runs _ us (le_n _) He). exact N. Qed.

(** [more] does not hide raw characters outside of [C]. *)
Lemma more_raws : forall C p a A, more C a A -> Forall (fun u => fst u = false /\ ~ C (snd u)) p -> nosub p A -> nosub p a.
Proof.
  intros C p a A M F N x y E. subst a. apply Forall2_app_inv_l in M. destruct M as (x' & q & M1 & M2 & ->). apply Forall2_app_inv_l in M2. destruct M2 as (p' & y' & M2 & M3 & ->).
  replace p' with p in N; [exact (N x' y' eq_refl)|]. clear - F M2. induction M2 as [|u v p p' (H1 & H2 & H3) M IH]; [reflexivity|]. inversion F as [|? ? [F1 F2] F3]; subst. f_equal; [|exact (IH F3)].
  destruct u as [e c], v as [e' c']. cbn in *. subst c' e. f_equal. destruct e'; [|reflexivity]. destruct (H3 eq_refl); [discriminate|contradiction].
Qed.
Lemma nosub_mid : forall p a b c, nosub p (a ++ b ++ c) -> nosub p b.
Proof. intros p a b c N x y ->. apply (N (a ++ x) (y ++ c)). rewrite <- !app_assoc. reflexivity. Qed.

(** The line feed before other characters stays raw. *)
Lemma nn_cpat_inv : forall us, plain3 us -> nosub cpat (nn us) -> ~ has [c_nl; c_percent; c_rcurly] (chars us).
Proof.
  assert (G : forall n us, List.length us <= n -> plain3 us -> nosub cpat (nn us) -> ~ has [c_nl; c_percent; c_rcurly] (chars us)).
  { induction n as [|n IH]; intros us Hn P N (a & b & E).
    - destruct us; [|cbn in Hn; lia]. destruct a; discriminate.
    - destruct us as [|[e c] us]; [destruct a; discriminate|]. cbn in Hn.
      assert (P' : plain3 us) by (intros d Hd X; apply (P d Hd); right; exact X).
      assert (Rest : forall v, nn (@cons uchar (e, c) us) = v :: nn us -> nosub cpat (nn us)) by (intros v X x y Z; rewrite X in N; apply (N (v :: x) y); rewrite Z; reflexivity).
      destruct (char_eqb c c_nl) eqn:D.
      + apply char_eqb_eq in D. subst c. assert (e = false) by (destruct e; [exfalso; apply (P c_nl); left; reflexivity|reflexivity]). subst e. change (false, c_nl) with (raw c_nl) in *.
        destruct (raw_at c_nl us) eqn:R.
        * apply raw_at_true in R. destruct R as (r & ->). destruct a as [|x [|x2 a]].
          -- discriminate E.
          -- (* the second line feed of the pair *) injection E as _ E. destruct r as [|[e1 c1] [|[e2 c2] r]]; try discriminate E. cbn in E. injection E as -> -> _.
             assert (e1 = false) by (destruct e1; [exfalso; apply (P c_percent); [right; left; reflexivity|right; right; left; reflexivity]|reflexivity]).
             assert (e2 = false) by (destruct e2; [exfalso; apply (P c_rcurly); [right; right; left; reflexivity|right; right; right; left; reflexivity]|reflexivity]). subst e1 e2.
             apply (N [escd c_nl] (nn r)). reflexivity.
          -- injection E as _ _ E. cbn in Hn. apply (IH r); [lia| | |exists a, b; exact E].
             ++ intros d Hd X. apply (P' d Hd). right. exact X.
             ++ intros x' y' Z. apply (N (escd c_nl :: raw c_nl :: x') y'). rewrite nn_pair, Z. reflexivity.
        * destruct a as [|x a].
          -- injection E as E. destruct us as [|[e1 c1] [|[e2 c2] r]]; try discriminate E. cbn in E. injection E as -> -> _.
             assert (e1 = false) by (destruct e1; [exfalso; apply (P c_percent); [right; left; reflexivity|right; left; reflexivity]|reflexivity]).
             assert (e2 = false) by (destruct e2; [exfalso; apply (P c_rcurly); [right; right; left; reflexivity|right; right; left; reflexivity]|reflexivity]). subst e1 e2.
             apply (N [] (nn r)). reflexivity.
          -- injection E as _ E. apply (IH us); [lia|exact P'|apply (Rest (raw c_nl)), nn_single; exact R|exists a, b; exact E].
      + assert (Nc : c <> c_nl) by (intros X; subst c; rewrite char_eqb_refl in D; discriminate). destruct a as [|x a]; [cbn in E; injection E as E _; contradiction|]. injection E as _ E.
        apply (IH us); [lia|exact P'|apply (Rest (e, c)), nn_other; exact Nc|exists a, b; exact E]. }
  intros us. apply (G _ us (le_n _)).
Qed.

(** What the units of a written text show about the text. *)
Definition shows (us : list uchar) : Prop := (no2 c_nl c_nl us -> even_runs (chars us)) /\ (nosub cpat us -> ~ has [c_nl; c_percent; c_rcurly] (chars us)).
Lemma nn_shows : forall C w us, plain3 w -> keep3 C -> more C (nn w) us -> shows us.
Proof.
  intros C w us P K M.
  assert (Ew : chars (nn w) = chars w) by (apply umark_chars). unfold shows. rewrite (more_chars _ _ _ M), Ew. split; intros N.
  - apply nn_even_inv; [apply P; left; reflexivity|]. apply no2_nosub. apply no2_nosub in N. eapply more_raws; [exact M| |exact N]. repeat constructor; apply K; left; reflexivity.
  - apply nn_cpat_inv; [exact P|]. eapply more_raws; [exact M| |exact N]. repeat constructor; apply K; cbn; auto.
Qed.
Lemma plain3_u0 : forall x, plain3 (u0 x).
Proof.
  intros x c Hc H. unfold u0 in H. apply (more_escd _ _ _ _ (esc_more _ _)) in H. destruct H as [H|H].
  - clear - H. induction x as [|d x IH]; [destruct H|]. destruct H as [H|H]; [discriminate|exact (IH H)].
  - cbn in Hc. subst c. destruct Hc as [X|[X|[X|[]]]]; discriminate X.
Qed.
Lemma plain3_esc : forall c us, ~ In c [c_nl; c_percent; c_rcurly] -> plain3 us -> plain3 (esc c us).
Proof. intros c us Hc P d Hd H. apply (more_escd _ _ _ _ (esc_more _ _)) in H. destruct H as [H|H]; [exact (P d Hd H)|]. subst d. contradiction. Qed.
