(** Stop conditions of the parser as conditions on units, and walking over a part of the units
    in which nothing stops. *)
From Coq Require Import String.
From Verif Require Import Base Lexer LexSpec LexProofs LexFacts Ops Parser FParser TokFacts Ast Units ULex.

Definition is_nl (u : uchar) : bool := negb (fst u) && char_eqb (snd u) c_nl.
(** Are we at the start of a line after [A]? *)
Fixpoint aft (b : bool) (A : list uchar) : bool := match A with [] => b | u :: r => aft (is_nl u) r end.

Lemma aft_app : forall A B b, aft b (A ++ B) = aft (aft b A) B.
Proof. induction A as [|u A IH]; intros B b; [reflexivity|]. apply IH. Qed.

Lemma group_aft : forall k g b, group_ok k g -> g <> [] -> aft b g = line_end k.
Proof.
  assert (R : forall c n b, char_eqb c c_nl = false -> aft b (repeat (raw c) (S n)) = false).
  { intros c n b H. revert b. induction n as [|n IH]; intros b; [exact H|]. exact (IH (is_nl (raw c))). }
  assert (F : forall g b, b = false -> Forall (fun v : uchar => fst v = false /\ special (snd v) = false) g -> aft b g = false).
  { intros g b Hb H. revert b Hb. induction H as [|v g [H1 H2] H IH]; intros b Hb; [exact Hb|]. cbn [aft]. apply IH. unfold is_nl. rewrite H1.
    apply (nonspecial_neq _ c_nl H2 eq_refl). }
  intros k g b G NE. destruct k; cbn in G; try (destruct G as (c & n & G1 & ->); injection G1 as <-; apply R; reflexivity); try (subst g; reflexivity).
  destruct G as (u & g' & -> & H & [H1|H1]); cbn [aft]; apply F; auto; unfold is_nl; [rewrite H1; reflexivity|].
  rewrite (nonspecial_neq _ c_nl H1 eq_refl). apply andb_false_r.
Qed.

Lemma cov_run : forall s b t ts us c k n, cov s b (t :: ts) us -> run_kind c = Some k -> lead c us = S n -> (c <> c_lcurly \/ 1 <= n) ->
  kind t = k /\ col0 t = b /\ tlen t = S n /\ ttext s t = repeat c (S n) /\ cov s false ts (skipn (S n) us).
Proof.
  intros s b t ts us c k n H K L Hc.
  assert (U : utok us = Some (k, repeat (raw c) (S n), skipn (S n) us)).
  { apply utok_lead; [exact K|exact L|]. intros -> ->. destruct Hc as [Hc|Hc]; [congruence|lia]. }
  destruct (cov_step _ _ _ _ _ _ _ H U) as (t' & ts' & E & E1 & E2 & E3 & E4 & E5). injection E as <- <-.
  rewrite (byte_len_repeat c (S n) (run_ascii _ _ K)) in E4.
  assert (Ec : forall m, chars (repeat (raw c) m) = repeat c m) by (induction m as [|m IH]; [reflexivity|cbn; rewrite IH; reflexivity]).
  rewrite Ec in E3. repeat (split; [assumption|]).
  destruct (run_kind_char _ _ K) as (_ & K2 & K3 & K4 & K5). replace (line_end k) with false in E5; [exact E5|]. destruct k; try reflexivity; congruence.
Qed.

(** ** Stops *)

Definition umarker (k : option list_kind) (us : list uchar) : bool :=
  match k with
  | None => (lead c_minus us =? 1) || (lead c_plus us =? 1)
  | Some Unordered => lead c_minus us =? 1
  | Some Ordered => lead c_plus us =? 1
  end.
Definition uboundary (level : nat) (k : option list_kind) (us : list uchar) : bool :=
  ((level =? 0) || (lead c_space us =? level)) && umarker k (skipn level us) && (lead c_space (skipn (S level) us) =? 1).
Definition fires (b : bool) (us : list uchar) (c : stop_condition) : bool :=
  match c with
  | StopTerminator => raw2_at c_nl c_nl us
  | StopCollapsibleEnd =>
      b && raw2_at c_percent c_rcurly us
      || match us with u :: r => is_nl u && raw2_at c_percent c_rcurly r | [] => false end
  | StopHighlightEnd => b && (lead c_bang us =? 2)
  | StopListBoundary cur k =>
      b && existsb (fun level => uboundary level (if level =? cur then Some k else None) us) (seq 0 (S (cur + 1)))
  end.
Definition ustop (st : list stop_condition) (b : bool) (us : list uchar) : bool :=
  match us with [] => true | _ => existsb (fires b us) st end.

Lemma minus_plus : forall us n m, lead c_minus us = S n -> lead c_plus us = S m -> False.
Proof.
  intros [|u us] n m H1 H2; [discriminate|]. cbn in *. destruct (negb (fst u) && char_eqb (snd u) c_minus) eqn:E; [|discriminate].
  apply andb_true_iff in E. destruct E as [_ E]. apply char_eqb_eq in E. rewrite E in H2. rewrite andb_comm in H2. discriminate.
Qed.

Lemma marker_test : forall s b t ts us k, cov s b (t :: ts) us -> is_list_marker k t = umarker k us.
Proof.
  intros s b t ts us k H. unfold is_list_marker, list_kind_of.
  rewrite (run_test _ _ _ _ _ c_minus Minus 1 H eq_refl ltac:(lia) ltac:(left; discriminate)).
  rewrite (run_test _ _ _ _ _ c_plus Plus 1 H eq_refl ltac:(lia) ltac:(left; discriminate)).
  unfold umarker. destruct (lead c_minus us =? 1) eqn:E1.
  - apply Nat.eqb_eq in E1. destruct (lead c_plus us =? 1) eqn:E2; [apply Nat.eqb_eq in E2; exfalso; eapply minus_plus; eassumption|].
    destruct k as [[]|]; reflexivity.
  - destruct (lead c_plus us =? 1); destruct k as [[]|]; reflexivity.
Qed.
Lemma space1_test : forall s b t ts us, cov s b (t :: ts) us -> is_space_1 t = (lead c_space us =? 1).
Proof. intros s b t ts us H. apply (run_test _ _ _ _ _ c_space Space 1 H eq_refl ltac:(lia) ltac:(left; discriminate)). Qed.
Lemma indent_test : forall s b t ts us n, cov s b (t :: ts) us -> is_indent (S n) t = (lead c_space us =? S n).
Proof. intros s b t ts us n H. apply (run_test _ _ _ _ _ c_space Space (S n) H eq_refl ltac:(lia) ltac:(left; discriminate)). Qed.

Lemma nth_is_nil : forall i f, nth_is i f [] = false.
Proof. intros [|i] f; reflexivity. Qed.

(** A list marker and a space. *)
Lemma marker_space : forall s b ts us k, cov s b ts us ->
  nth_is 0 (is_list_marker k) ts && nth_is 1 is_space_1 ts = umarker k us && (lead c_space (skipn 1 us) =? 1).
Proof.
  intros s b ts us k H. destruct ts as [|t ts]; [inversion H; subst; destruct k as [[]|]; reflexivity|].
  change (nth_is 0 (is_list_marker k) (t :: ts)) with (is_list_marker k t). rewrite (marker_test _ _ _ _ _ _ H).
  change (nth_is 1 is_space_1 (t :: ts)) with (nth_is 0 is_space_1 ts).
  destruct (umarker k us) eqn:E; [|reflexivity]. cbn [andb].
  assert (C : cov s false ts (skipn 1 us)).
  { assert (X : lead c_minus us = 1 \/ lead c_plus us = 1).
    { unfold umarker in E. destruct k as [[]|]; try (apply orb_true_iff in E; destruct E as [E|E]); apply Nat.eqb_eq in E; auto. }
    destruct X as [X|X]; [apply (cov_run _ _ _ _ _ c_minus Minus 0 H eq_refl X)|apply (cov_run _ _ _ _ _ c_plus Plus 0 H eq_refl X)]; left; discriminate. }
  destruct ts as [|t2 ts]; [remember (skipn 1 us) as w; inversion C; reflexivity|].
  change (nth_is 0 is_space_1 (t2 :: ts)) with (is_space_1 t2). apply (space1_test _ _ _ _ _ C).
Qed.

Lemma skipn_skipn1 : forall (us : list uchar) n, skipn 1 (skipn n us) = skipn (S n) us.
Proof. induction us as [|u us IH]; intros [|n]; try reflexivity. exact (IH n). Qed.

Lemma boundary_units : forall s b ts us level k, cov s b ts us -> us <> [] -> boundary_at level k ts = b && uboundary level k us.
Proof.
  intros s b ts us level k H NE. destruct (cov_inv _ _ _ _ H NE) as (t & ts' & g & r & -> & U & E & NG & G & Cb & Ct & Cl & Cr).
  unfold boundary_at, uboundary. destruct level as [|n]; cbn [Nat.eqb].
  - rewrite (marker_space _ _ _ _ k H). change (nth_is 0 col0 (t :: ts')) with (col0 t). rewrite Cb. reflexivity.
  - change (nth_is 0 col0 (t :: ts')) with (col0 t). change (nth_is 0 (is_indent (S n)) (t :: ts')) with (is_indent (S n) t).
    change (nth_is 1 (is_list_marker k) (t :: ts')) with (nth_is 0 (is_list_marker k) ts'). change (nth_is 2 is_space_1 (t :: ts')) with (nth_is 1 is_space_1 ts').
    rewrite Cb, (indent_test _ _ _ _ _ _ H). cbn [orb]. destruct (lead c_space us =? S n) eqn:L; [|reflexivity]. cbn [andb].
    apply Nat.eqb_eq in L. destruct (cov_run _ _ _ _ _ c_space Space n H eq_refl L) as (_ & _ & _ & _ & C); [left; discriminate|].
    rewrite (marker_space _ _ _ _ k C), skipn_skipn1. reflexivity.
Qed.

Lemma fires_units : forall s b ts us c, cov s b ts us -> us <> [] -> fmatches c ts = fires b us c.
Proof.
  intros s b ts us c H NE. destruct (cov_inv _ _ _ _ H NE) as (t & ts' & g & r & -> & U & E & NG & G & Cb & Ct & Cl & Cr).
  destruct c as [| | |cur k]; cbn [fmatches fires].
  - apply (term_test _ _ _ _ _ H).
  - change (nth_is 0 is_collapsible_end (t :: ts')) with (kind_eqb (kind t) CollapsibleEnd && col0 t).
    rewrite (cend_test _ _ _ _ _ H), Cb, andb_comm. f_equal.
    change (nth_is 0 is_eol (t :: ts')) with (kind_eqb (kind t) Eol). change (nth_is 1 is_collapsible_end (t :: ts')) with (nth_is 0 is_collapsible_end ts').
    rewrite (eol_test _ _ _ _ _ H). destruct us as [|u us]; [congruence|]. change (raw_at c_nl (u :: us)) with (is_nl u).
    change (raw2_at c_nl c_nl (u :: us)) with (is_nl u && raw_at c_nl us). destruct (is_nl u) eqn:Nu; [|reflexivity]. cbn [andb].
    destruct u as [[] x]; [discriminate|]. apply char_eqb_eq in Nu. cbn in Nu. subst x.
    destruct (raw_at c_nl us) eqn:R2.
    { cbn. apply raw_at_true in R2. destruct R2 as (y & ->). reflexivity. }
    cbn [negb andb]. pose proof (cov_fine _ _ _ _ H) as Hf. apply fine_cons in Hf.
    change ((false, c_nl) :: us) with (raw c_nl :: us) in *. rewrite (utok_eol us (proj2 Hf) R2) in U. injection U as U1 U2 U3. subst r. rewrite <- U1 in Cr. cbn in Cr.
    destruct ts' as [|t2 ts2].
    { inversion Cr; subst. reflexivity. }
    change (nth_is 0 is_collapsible_end (t2 :: ts2)) with (kind_eqb (kind t2) CollapsibleEnd && col0 t2).
    rewrite (cend_test _ _ _ _ _ Cr). inversion Cr as [|? ? ? ? ? ? _ _ Cb2]. rewrite Cb2. apply andb_true_r.
  - change (nth_is 0 is_two_bangs (t :: ts')) with (kind_eqb (kind t) Bang && col0 t && (tlen t =? 2)). rewrite Cb.
    rewrite <- (run_test _ _ _ _ _ c_bang Bang 2 H eq_refl ltac:(lia) ltac:(left; discriminate)). destruct b, (kind_eqb (kind t) Bang); reflexivity.
  - change (nth_is 0 col0 (t :: ts')) with (col0 t). rewrite Cb. destruct b; [|reflexivity]. cbn [andb].
    apply eq_true_iff_eq. rewrite !existsb_exists. split; intros (l & Hl & X); exists l; (split; [exact Hl|]);
      rewrite (boundary_units _ _ _ _ l _ H NE) in *; exact X.
Qed.

Lemma stopped_units : forall s b ts us st, cov s b ts us -> stopped st ts = ustop st b us.
Proof.
  intros s b ts us st H. destruct us as [|u us].
  - inversion H as [| ? ? ? ? ? ? _ U]; subst; [reflexivity|discriminate].
  - destruct (cov_inv _ _ _ _ H) as (t & ts' & g & r & E & _); [discriminate|]. subst ts.
    change (stopped st (t :: ts')) with (existsb (fun c => fmatches c (t :: ts')) st). unfold ustop.
    induction st as [|c st IH]; [reflexivity|]. cbn [existsb]. rewrite IH. f_equal. apply (fires_units _ _ _ _ _ H). discriminate.
Qed.

(** ** Calm parts *)

(** No stop at any place in [A], when [B] follows. *)
Fixpoint calm (st : list stop_condition) (b : bool) (A B : list uchar) : Prop :=
  match A with
  | [] => True
  | u :: r => ustop st b (A ++ B) = false /\ calm st (is_nl u) r B
  end.

Lemma calm_app : forall st A1 A2 b B, calm st b (A1 ++ A2) B <-> calm st b A1 (A2 ++ B) /\ calm st (aft b A1) A2 B.
Proof.
  intros st A1. induction A1 as [|u A1 IH]; intros A2 b B; cbn [app calm aft]; [tauto|].
  rewrite IH, <- app_assoc. tauto.
Qed.
Lemma calm_at : forall st b A1 A2 B, calm st b (A1 ++ A2) B -> A2 <> [] -> ustop st (aft b A1) (A2 ++ B) = false.
Proof. intros st b A1 A2 B H NE. apply calm_app in H. destruct H as [_ H]. destruct A2; [congruence|]. apply H. Qed.

(** ** Walking over a part *)

Lemma ttexts_cons : forall s t ts, ttexts s (t :: ts) = ttext s t ++ ttexts s ts.
Proof. reflexivity. Qed.
Lemma ttexts_app : forall s a b, ttexts s (a ++ b) = ttexts s a ++ ttexts s b.
Proof. intros. apply flat_map_app. Qed.

Lemma cov_in : forall s b ts A B, cov s b ts (A ++ B) -> seam A B -> A <> [] -> exists t ts' g r,
  ts = t :: ts' /\ A = g ++ r /\ g <> [] /\ utok (A ++ B) = Some (kind t, g, r ++ B) /\ group_ok (kind t) g /\ col0 t = b /\ ttext s t = chars g
  /\ tlen t = byte_len (chars g) /\ cov s (aft b g) ts' (r ++ B) /\ seam r B.
Proof.
  intros s b ts A B H Hs NE. pose proof (cov_fine _ _ _ _ H) as Hf. destruct (utok_app A B NE Hs Hf) as (k & g & r & U1 & U2 & E).
  destruct (cov_step _ _ _ _ _ _ _ H U2) as (t & ts' & -> & E1 & E2 & E3 & E4 & E5). subst k.
  apply fine_app in Hf. destruct Hf as [Hf _]. destruct (utok_ok _ _ _ _ Hf U1) as (_ & NG & G).
  exists t, ts', g, r. repeat (split; [assumption || reflexivity|]). rewrite (group_aft (kind t) g b G NG). split; [exact E5|].
  rewrite E in Hs. destruct (seam_tail _ _ _ Hs) as [->|X]; [left; reflexivity|exact X].
Qed.

(** The tokens of the front part, with what is ahead at each of them. *)
Lemma cov_split : forall s A b ts B, cov s b ts (A ++ B) -> seam A B -> exists ts1 ts2,
  ts = ts1 ++ ts2 /\ ttexts s ts1 = chars A /\ cov s (aft b A) ts2 B /\ (A <> [] -> ts1 <> [])
  /\ (forall x t y, ts1 = x ++ t :: y -> exists A1 A2, A = A1 ++ A2 /\ A2 <> [] /\ cov s (aft b A1) (t :: y ++ ts2) (A2 ++ B) /\ seam A2 B).
Proof.
  intros s A. remember (List.length A) as n eqn:En. assert (L : List.length A <= n) by lia. clear En. revert A L.
  induction n as [|n IH]; intros A L b ts B H Hs.
  { destruct A; [|cbn in L; lia]. exists [], ts. repeat split; [exact H|congruence|]. intros [|? ?] ? ? E; discriminate. }
  destruct A as [|u A]. { exists [], ts. repeat split; [exact H|congruence|]. intros [|? ?] ? ? E; discriminate. }
  destruct (cov_in _ _ _ _ _ H Hs) as (t & ts' & g & r & Et & E & NG & U & G & Cb & Ct & Cl & Cr & Hr); [discriminate|].
  assert (Lr : List.length r <= n) by (pose proof (f_equal (@List.length _) E) as X; rewrite app_length in X; destruct g; [congruence|cbn in *; lia]).
  destruct (IH r Lr _ _ _ Cr Hr) as (ts1 & ts2 & E1 & E2 & E3 & _ & E4). exists (t :: ts1), ts2. rewrite Et, E1 in *.
  split; [reflexivity|]. split; [rewrite ttexts_cons, Ct, E2, E, chars_app; reflexivity|]. split; [rewrite E, aft_app; exact E3|]. split; [discriminate|].
  intros [|x0 x] t0 y Ex.
  - injection Ex as <- <-. exists [], (u :: A). repeat split; [discriminate|exact H|exact Hs].
  - injection Ex as <- Ex. destruct (E4 x t0 y Ex) as (A1 & A2 & F1 & F2 & F3 & F4). exists (g ++ A1), A2. rewrite <- app_assoc, <- F1, aft_app. auto.
Qed.

(** The first unit of a token with a kind that has a character. *)
Lemma kind_first : forall s b t ts us c, cov s b (t :: ts) us -> kind_char (kind t) = Some c -> exists r, us = raw c :: r.
Proof.
  intros s b t ts us c H K. pose proof (cov_fine _ _ _ _ H) as Hf. inversion H as [|? ? ? ? g r _ U Cb Ct Cl Cr]; subst.
  destruct (utok_ok _ _ _ _ Hf U) as (-> & _ & G).
  destruct (kind t); cbn in K, G; try discriminate; destruct G as (c' & n & G1 & ->); injection G1 as <-; injection K as <-; eexists; reflexivity.
Qed.
Lemma first_in : forall s b t ts A B c, cov s b (t :: ts) (A ++ B) -> A <> [] -> absent c A -> kind_char (kind t) <> Some c.
Proof.
  intros s b t ts A B c H NE Ab K. destruct (kind_first _ _ _ _ _ _ H K) as (r & E). destruct A; [congruence|]. injection E as -> _. apply Ab. left. reflexivity.
Qed.

(** ** [until] *)

Lemma until_walk : forall st m ts1 ts2, (forall x t y, ts1 = x ++ t :: y -> stopped st (t :: y ++ ts2) = false /\ m t = false) ->
  until st m (ts1 ++ ts2) = match until st m ts2 with Some (b, c, r) => Some (ts1 ++ b, c, r) | None => None end.
Proof.
  intros st m ts1. induction ts1 as [|t ts1 IH]; intros ts2 H.
  - cbn [app]. destruct (until st m ts2) as [[[? ?] ?]|]; reflexivity.
  - destruct (H [] t ts1 eq_refl) as [H1 H2]. change ((t :: ts1) ++ ts2) with (t :: ts1 ++ ts2). cbn [until]. rewrite H1, H2.
    rewrite IH by (intros x u y E; apply (H (t :: x)); rewrite E; reflexivity).
    destruct (until st m ts2) as [[[? ?] ?]|]; reflexivity.
Qed.

Lemma until_units : forall s st m A b ts B, cov s b ts (A ++ B) -> seam A B -> calm st b A B ->
  (forall A1 A2 t ts', A = A1 ++ A2 -> A2 <> [] -> cov s (aft b A1) (t :: ts') (A2 ++ B) -> m t = false) ->
  exists ts1 ts2, ts = ts1 ++ ts2 /\ ttexts s ts1 = chars A /\ cov s (aft b A) ts2 B
    /\ until st m ts = match until st m ts2 with Some (b, c, r) => Some (ts1 ++ b, c, r) | None => None end.
Proof.
  intros s st m A b ts B H Hs Hc Hm. destruct (cov_split _ _ _ _ _ H Hs) as (ts1 & ts2 & -> & E2 & E3 & _ & E4).
  exists ts1, ts2. repeat (split; [assumption || reflexivity|]). apply until_walk. intros x t y E.
  destruct (E4 x t y E) as (A1 & A2 & F1 & F2 & F3 & F4). split; [|eapply Hm; eassumption].
  rewrite (stopped_units _ _ _ _ st F3). subst A. eapply calm_at; eassumption.
Qed.

(** The closing token. *)
Lemma until_close : forall s st m A b ts cl B k, cov s b ts (A ++ cl ++ B) -> seam A (cl ++ B) -> calm st b A (cl ++ B) ->
  (forall A1 A2 t ts', A = A1 ++ A2 -> A2 <> [] -> cov s (aft b A1) (t :: ts') (A2 ++ cl ++ B) -> m t = false) ->
  utok (cl ++ B) = Some (k, cl, B) ->
  (forall t, kind t = k -> col0 t = aft b A -> tlen t = byte_len (chars cl) -> m t = true) ->
  ustop st (aft b A) (cl ++ B) = false ->
  exists ts1 t ts2, until st m ts = Some (ts1, t, ts2) /\ ts = ts1 ++ t :: ts2 /\ ttexts s ts1 = chars A /\ ttext s t = chars cl /\ kind t = k
    /\ cov s (line_end k) ts2 B.
Proof.
  intros s st m A b ts cl B k H Hs Hc Hm U Hcl Hst. destruct (until_units _ _ _ _ _ _ _ H Hs Hc Hm) as (ts1 & ts2 & -> & E2 & E3 & E4).
  destruct (cov_step _ _ _ _ _ _ _ E3 U) as (t & ts' & -> & F1 & F2 & F3 & F4 & F5). exists ts1, t, ts'.
  rewrite E4. cbn [until]. rewrite (stopped_units _ _ _ _ st E3), Hst, (Hcl t F1 F2 F4). rewrite app_nil_r. auto 10.
Qed.
