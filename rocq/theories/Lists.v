(** Lists on units: the parser reads a list back from its text. *)
From Coq Require Import String.
From Verif Require Import Base Lexer LexSpec LexProofs LexFacts Ops Parser FParser TokFacts ToYamd TreeAst Ast Tame Units ULex Stops Inline AstUnits Calm Blocks Docs Highlight.

Definition lk (ty : list_type) : list_kind := match ty with LUnordered => Unordered | LOrdered => Ordered end.
(** The escapes that the enclosing lists, innermost first, add to a text. *)
Definition marks (cs : list char) (us : list uchar) : list uchar := fold_left (fun u c => markers c u) cs us.
Fixpoint ujoin1 (l : list (list uchar)) : list uchar :=
  match l with [] => [] | a :: r => a ++ match r with [] => [] | _ => raw c_nl :: ujoin1 r end end.
Definition indent (L : nat) : list uchar := repeat (raw c_space) L.

Fixpoint u_list (outer : list char) (l : ylist) : list uchar :=
  match l with
  | YList ty L items =>
      ujoin1 (map (fun it =>
        match it with
        | YItem t nested =>
            indent L ++ raw (mchar ty) :: raw c_space :: marks (mchar ty :: outer) (u_pars t)
            ++ match nested with Some l' => raw c_nl :: u_list (mchar ty :: outer) l' | None => [] end
        end) items)
  end.
Definition u_item (outer : list char) (ty : list_type) (L : nat) (it : yitem) : list uchar :=
  match it with
  | YItem t nested =>
      indent L ++ raw (mchar ty) :: raw c_space :: marks (mchar ty :: outer) (u_pars t)
      ++ match nested with Some l' => raw c_nl :: u_list (mchar ty :: outer) l' | None => [] end
  end.
Lemma u_list_eq : forall outer ty L items, u_list outer (YList ty L items) = ujoin1 (map (u_item outer ty L) items).
Proof. reflexivity. Qed.

(** ** Boundaries *)

Lemma lead_off : forall c A R, raw_at c R = false -> lead c (A ++ R) = lead c A.
Proof.
  intros c A R H. induction A as [|u A IH]; [apply lead_0; exact H|]. cbn [app lead]. destruct (negb (fst u) && char_eqb (snd u) c); [rewrite IH; reflexivity|reflexivity].
Qed.
Definition inert (R : list uchar) : Prop := raw_at c_space R = false /\ raw_at c_minus R = false /\ raw_at c_plus R = false.
Lemma umarker_off : forall k A R, inert R -> umarker k (A ++ R) = umarker k A.
Proof. intros k A R (_ & H2 & H3). unfold umarker. destruct k as [[]|]; rewrite ?(lead_off c_minus), ?(lead_off c_plus) by assumption; reflexivity. Qed.
Lemma umarker_nil : forall k, umarker k [] = false.
Proof. intros [[]|]; reflexivity. Qed.
Lemma uboundary0_off : forall k A R, inert R -> umarker k (A ++ R) && (lead c_space (skipn 1 (A ++ R)) =? 1) = umarker k A && (lead c_space (skipn 1 A) =? 1).
Proof.
  intros k A R H. rewrite umarker_off by exact H. destruct A as [|a A]; [rewrite umarker_nil; reflexivity|]. cbn [app skipn]. rewrite lead_off by apply H. reflexivity.
Qed.
Lemma uboundary_off : forall level k A R, inert R -> uboundary level k (A ++ R) = uboundary level k A.
Proof.
  intros level k A R H. unfold uboundary. rewrite <- !(skipn_skipn1 _ level). destruct level as [|m].
  - cbn [Nat.eqb orb andb skipn]. exact (uboundary0_off k A R H).
  - cbn [Nat.eqb orb]. rewrite lead_off by apply H. destruct (lead c_space A =? S m) eqn:E; [|reflexivity]. apply Nat.eqb_eq in E. cbn [andb].
    destruct (lead_split c_space A) as [Es _]. rewrite E in Es. rewrite Es at 1 2. rewrite <- app_assoc, skipn_repeat. apply uboundary0_off. exact H.
Qed.

(** The start of an item: indentation, marker and one space. *)
Definition item_start (j : nat) (ty : list_type) (N : list uchar) : Prop :=
  exists V, N = indent j ++ raw (mchar ty) :: raw c_space :: V /\ raw_at c_space V = false.
Lemma item_start_lead : forall j ty N, item_start j ty N -> lead c_space N = j.
Proof. intros j ty N (V & -> & _). apply lead_repeat. destruct ty; reflexivity. Qed.
Lemma item_start_ne : forall j ty N, item_start j ty N -> N <> [].
Proof. intros j ty N (V & -> & _). destruct j; discriminate. Qed.
Lemma umarker_self : forall ko ty V, raw_at (mchar ty) V = false -> (ko = None \/ ko = Some (lk ty)) -> umarker ko (raw (mchar ty) :: V) = true.
Proof.
  intros ko ty V H K. assert (L : lead (mchar ty) (raw (mchar ty) :: V) = 1) by exact (lead_repeat (mchar ty) 1 V H). 
  destruct K as [->| ->]; destruct ty; cbn [umarker lk mchar] in *; rewrite L; reflexivity || apply orb_true_r.
Qed.
Lemma item_start_bound : forall j ty N ko, item_start j ty N -> (ko = None \/ ko = Some (lk ty)) -> uboundary j ko N = true.
Proof.
  intros j ty N ko H K. pose proof (item_start_lead _ _ _ H) as L. destruct H as (V & -> & HV). unfold uboundary. rewrite L, Nat.eqb_refl, orb_true_r. cbn [andb]. rewrite <- skipn_skipn1. unfold indent. rewrite skipn_repeat.
  rewrite umarker_self by (exact K || (destruct ty; reflexivity)). cbn [skipn andb]. rewrite (lead_repeat c_space 1 V HV : lead c_space (raw c_space :: V) = 1). reflexivity.
Qed.
Lemma item_start_raw : forall j ty N c, item_start j ty N -> c <> c_space -> c <> c_minus -> c <> c_plus -> raw_at c N = false.
Proof. intros j ty N c (V & -> & _) H1 H2 H3. destruct j; cbn [indent repeat app raw_at]; [destruct ty|]; apply N.eqb_neq; intros X; symmetry in X; auto. Qed.
Lemma item_start_raw2 : forall j ty N c d, item_start j ty N -> c <> c_space -> c <> c_minus -> c <> c_plus -> raw2_at c d N = false.
Proof.
  intros j ty N c d H H1 H2 H3. pose proof (item_start_raw j ty N c H H1 H2 H3) as X. destruct (raw2_at c d N) eqn:E; [|reflexivity]. apply raw2_at_true in E. destruct E as (r & E). rewrite E in X. rewrite raw_at_raw in X. discriminate.
Qed.

(** ** The text of an item *)

Definition text_ok (n L : nat) (k : list_kind) (T : list uchar) (t : list par_node) : Prop :=
  exists l, uflats l = T /\ ugoods l /\ map uerase l = t /\ trim_ok l /\ ~ ends c_nl T /\ raw_at c_space T = false /\ tame_at n false T
    /\ forall A1 A2, T = A1 ++ A2 -> ends c_nl A1 -> forall j, j <= S L -> uboundary j (if j =? L then Some k else None) A2 = false.
Definition istop (n L : nat) (k : list_kind) : list stop_condition := StopListBoundary L k :: StopTerminator :: cst n.

Lemma fires_list : forall L k us, fires true us (StopListBoundary L k) = existsb (fun level => uboundary level (if level =? L then Some k else None) us) (seq 0 (S (S L))).
Proof. intros. cbn [fires andb]. replace (S (L + 1)) with (S (S L)) by lia. reflexivity. Qed.
Lemma fires_list_false : forall L k us, (forall j, j <= S L -> uboundary j (if j =? L then Some k else None) us = false) -> forall b, fires b us (StopListBoundary L k) = false.
Proof.
  intros L k us H b. destruct b; [|reflexivity]. rewrite fires_list. destruct (existsb _ _) eqn:E; [|reflexivity]. apply existsb_exists in E. destruct E as (j & Hj & E). apply in_seq in Hj. rewrite H in E by lia. discriminate.
Qed.
Lemma fires_list_true : forall L k us j, j <= S L -> uboundary j (if j =? L then Some k else None) us = true -> fires true us (StopListBoundary L k) = true.
Proof. intros L k us j Hj H. rewrite fires_list. apply existsb_exists. exists j. split; [apply in_seq; lia|exact H]. Qed.

Lemma calm_list : forall L k T R, (forall A1 A2, T = A1 ++ A2 -> ends c_nl A1 -> forall j, j <= S L -> uboundary j (if j =? L then Some k else None) A2 = false) -> inert R ->
  calm [StopListBoundary L k] false T R.
Proof.
  intros L k T R H HR. apply calm_intro. intros A1 A2 E NE. assert (NE' : A2 ++ R <> []) by (destruct A2; [congruence|discriminate]).
  unfold ustop. destruct (A2 ++ R) as [|w W] eqn:EW; [congruence|]. cbn [existsb]. rewrite orb_false_r, <- EW.
  destruct (aft false A1) eqn:Ea; [|reflexivity]. apply aft_true in Ea. destruct Ea as [[_ X]|Ea]; [discriminate|].
  apply fires_list_false. intros j Hj. rewrite uboundary_off by exact HR. exact (H A1 A2 E Ea j Hj).
Qed.

Lemma inert_nl : forall R, inert (raw c_nl :: R).
Proof. intros R. repeat split. Qed.
Lemma stail_inert : forall n B, stail n B -> inert B.
Proof. intros n B T. repeat split; apply (stail_not n); (exact T || discriminate). Qed.
Lemma aft_not : forall T, ~ ends c_nl T -> aft false T = false.
Proof. intros T H. destruct (aft false T) eqn:E; [|reflexivity]. apply aft_true in E. destruct E as [[_ X]|X]; [discriminate|contradiction]. Qed.

(** The text before a blank line or the end. *)
Lemma text_last : forall s n L k ts T t B, cov s false ts (T ++ B) -> text_ok n L k T t -> stail n B ->
  exists kk y r, fparagraph (istop n L k) ts = (Node NParagraph [] kk [], r) /\ trimmed s (Node NParagraph [] kk []) = [t] /\ ts = y ++ r /\ cov s false r B.
Proof.
  intros s n L k ts T t B H (l & El & G & Et & Tr & He & Hs & [Ta Tb] & Hb) TB. subst T.
  destruct (paragraph_units s (istop n L k) false ts l B H G) as (kk & ts1 & ts2 & E1 & E2 & E3 & E4).
  - apply (stail_seam n); [exact TB|]. intros X. contradiction.
  - unfold istop. apply calm_cons; [apply calm_list; [exact Hb|exact (stail_inert _ _ TB)]|]. apply stail_calm; auto. intros X. contradiction.
  - pose proof (stail_stop n (aft false (uflats l)) B TB) as X. unfold ustop in *. destruct B as [|b B]; [reflexivity|]. unfold istop. cbn [existsb] in *. rewrite X. apply orb_true_r.
  - rewrite aft_not in E3 by exact He. exists kk, ts1, ts2. split; [exact E1|]. split; [cbn [trimmed paragraph_of map]; rewrite E2, trim_same, Et by assumption; reflexivity|]. auto.
Qed.

Lemma swallow0 : forall l, ugoods l -> trim_ok l ->
  exists l', ugoods l' /\ uflats l' = uflats l ++ [raw c_nl] /\ trim_trailing_newline_from_text (map uerase l') = map uerase l.
Proof.
  intros l G T. destruct l as [|x l]; [|apply swallow; [exact G|discriminate|exact T]]. exists [UText [raw c_nl]]. split; [split|split; reflexivity].
  - constructor; [|constructor]. cbn. split; [discriminate|]. repeat split; intros [Y|[]]; discriminate Y.
  - cbn. auto.
Qed.

(** The text before another item. *)
Lemma text_mid : forall s n L ty ts T t N j ty', cov s false ts (T ++ raw c_nl :: N) -> text_ok n L (lk ty) T t -> item_start j ty' N -> j <= S L -> (j = L -> ty' = ty) ->
  exists kk y r, fparagraph (istop n L (lk ty)) ts = (Node NParagraph [] kk [], r) /\ trimmed s (Node NParagraph [] kk []) = [t] /\ ts = y ++ r /\ cov s true r N.
Proof.
  intros s n L ty ts T t N j ty' H (l & El & G & Et & Tr & He & Hs & [Ta Tb] & Hb) HN Hj Hty. subst T. destruct (swallow0 l G Tr) as (l' & G' & E' & T').
  change (raw c_nl :: N) with ([raw c_nl] ++ N) in H. rewrite app_assoc, <- E' in H.
  assert (Ea : forall b, aft b (uflats l') = true) by (intros b; rewrite E', aft_app; reflexivity).
  assert (RN : raw_at c_nl N = false) by (apply (item_start_raw _ _ _ _ HN); discriminate).
  destruct (paragraph_units s (istop n L (lk ty)) false ts l' N H G') as (kk & ts1 & ts2 & E1 & E2 & E3 & E4).
  - destruct HN as (V & -> & _). rewrite E'. right. right. destruct j; cbn [indent repeat app]; exists (uflats l), (raw c_nl); eexists _, _; (split; [reflexivity|]); (split; [reflexivity|]); [destruct ty'|]; reflexivity.
  - rewrite E'. unfold istop. apply calm_cons; [|apply calm_cons; [apply calm_term|apply calm_cend2]].
    + apply calm_intro. intros A1 A2 E NE. destruct A2 as [|u A2 _] using rev_ind; [congruence|]. rewrite app_assoc in E. apply app_inj_tail in E. destruct E as [E <-].
      rewrite <- app_assoc. unfold ustop. destruct (A2 ++ [raw c_nl] ++ N) as [|w W] eqn:EW; [destruct A2; discriminate|]. cbn [existsb]. rewrite orb_false_r, <- EW.
      destruct (aft false A1) eqn:Eaf; [|reflexivity]. apply aft_true in Eaf. destruct Eaf as [[_ X]|Eaf]; [discriminate|].
      apply fires_list_false. intros i Hi. rewrite uboundary_off by apply inert_nl. exact (Hb A1 A2 E Eaf i Hi).
    + intros a b X. destruct b as [|u b _] using rev_ind.
      * rewrite app_nil_r in X. change (a ++ [raw c_nl; raw c_nl]) with (a ++ [raw c_nl] ++ [raw c_nl]) in X. rewrite app_assoc in X. apply app_inj_tail in X. destruct X as [X _]. apply He. exists a. exact X.
      * rewrite !app_assoc in X. apply app_inj_tail in X. destruct X as [X _]. rewrite <- app_assoc in X. exact (Ta a b X).
    + intros _. exact RN.
    + intros Hn. destruct (Tb Hn) as [T1 T2]. split; [discriminate|].
      intros a b X. destruct b as [|u b _] using rev_ind.
      * rewrite app_nil_r in X. unfold cpat in X. change (a ++ [raw c_nl; raw c_percent; raw c_rcurly]) with (a ++ [raw c_nl; raw c_percent] ++ [raw c_rcurly]) in X. rewrite app_assoc in X. apply app_inj_tail in X. destruct X as [_ X]. discriminate X.
      * rewrite !app_assoc in X. apply app_inj_tail in X. destruct X as [X _]. rewrite <- app_assoc in X. exact (T2 a b X).
    + intros _. split; [apply (item_start_raw _ _ _ _ HN); discriminate|]. intros _. apply (item_start_raw2 _ _ _ _ _ HN); discriminate.
  - rewrite Ea. pose proof (item_start_ne _ _ _ HN) as NE. unfold ustop. destruct N as [|w W] eqn:EN; [congruence|]. rewrite <- EN in *. unfold istop. cbn [existsb].
    rewrite (fires_list_true L (lk ty) N j Hj); [reflexivity|]. destruct (j =? L) eqn:Ej; [apply Nat.eqb_eq in Ej; rewrite <- (Hty Ej)|]; apply (item_start_bound _ _ _ _ HN); auto.
  - rewrite Ea in E3. exists kk, ts1, ts2. split; [exact E1|]. split; [cbn [trimmed paragraph_of map]; rewrite E2, T', Et; reflexivity|]. auto.
Qed.

(** ** Items and lists *)

Inductive list_ok (n : nat) : nat -> list char -> ylist -> Prop :=
| list_ok_intro : forall L outer ty items, items <> [] -> Forall (item_ok n L outer ty) items -> list_ok n L outer (YList ty L items)
with item_ok (n : nat) : nat -> list char -> list_type -> yitem -> Prop :=
| item_ok_intro : forall L outer ty t nested, text_ok n L (lk ty) (marks (mchar ty :: outer) (u_pars t)) t ->
    (forall l, nested = Some l -> list_ok n (S L) (mchar ty :: outer) l) -> item_ok n L outer ty (YItem t nested).

Lemma head_units : forall s ts L ty V ko, cov s true ts (indent L ++ raw (mchar ty) :: raw c_space :: V) -> raw_at c_space V = false -> (ko = None \/ ko = Some (lk ty)) ->
  exists o r m, nth_is 0 col0 ts = true /\ nth_error ts (if L =? 0 then 0 else 1) = Some m /\ list_kind_of m = Some (lk ty) /\ fseq (marker_preds L ko) ts = Some (o, r)
    /\ ts = o ++ r /\ 2 <= List.length o /\ cov s false r V.
Proof.
  intros s ts L ty V ko H HV K.
  assert (M : forall b ts, cov s b ts (raw (mchar ty) :: raw c_space :: V) -> exists m t2 r, ts = m :: t2 :: r /\ col0 m = b /\ list_kind_of m = Some (lk ty) /\ is_list_marker ko m = true /\ is_space_1 t2 = true /\ cov s false r V).
  { intros b ts' C. assert (R0 : raw_at (mchar ty) (raw c_space :: V) = false) by (destruct ty; reflexivity).
    assert (X : exists K, run_kind (mchar ty) = Some K) by (destruct ty; eexists; reflexivity). destruct X as (KK & X).
    assert (Nc : mchar ty <> c_lcurly) by (destruct ty; discriminate).
    destruct (cov_runs s b ts' (mchar ty) KK 0 _ C X ltac:(left; exact Nc) R0) as (m & r0 & -> & E1 & E2 & E3 & E4 & E5).
    replace (aft b (repeat (raw (mchar ty)) 1)) with false in E5 by (destruct ty; reflexivity).
    destruct (cov_runs s false r0 c_space Space 0 V E5 eq_refl ltac:(left; discriminate) HV) as (t2 & r & -> & F1 & F2 & F3 & F4 & F5).
    exists m, t2, r. split; [reflexivity|]. split; [exact E2|].
    assert (LK : list_kind_of m = Some (lk ty)) by (unfold list_kind_of; rewrite E1, E3; destruct ty; cbn [mchar] in X; injection X as <-; reflexivity).
    split; [exact LK|]. split; [unfold is_list_marker; rewrite LK; destruct K as [->| ->]; [reflexivity|destruct ty; reflexivity]|]. split; [unfold is_space_1; rewrite F1, F3; reflexivity|exact F5]. }
  destruct L as [|l].
  - destruct (M true ts H) as (m & t2 & r & -> & E1 & E2 & E3 & E4 & E5). exists [m; t2], r, m. unfold marker_preds. cbn [Nat.eqb nth_error fseq]. rewrite E3, E4. repeat split; auto.
  - unfold indent in H. assert (R0 : raw_at c_space (raw (mchar ty) :: raw c_space :: V) = false) by (destruct ty; reflexivity).
    destruct (cov_runs s true ts c_space Space l _ H eq_refl ltac:(left; discriminate) R0) as (t & r0 & -> & F1 & F2 & F3 & F4 & F5).
    destruct (M _ _ F5) as (m & t2 & r & -> & E1 & E2 & E3 & E4 & E5). exists [t; m; t2], r, m. unfold marker_preds. cbn [Nat.eqb nth_error fseq].
    replace (is_indent (S l) t) with true by (unfold is_indent; rewrite F1, F3; cbn [andb kind_eqb]; symmetry; apply Nat.eqb_refl). rewrite E3, E4. repeat split; auto; cbn [List.length]; lia.
Qed.

Lemma fitem_none : forall s b ts N fuel l ko st, cov s b ts N -> lead c_space N <> S l -> fitem fuel (S l) ko st ts = None.
Proof.
  intros s b ts N fuel l ko st H Hl. destruct fuel as [|f]; [reflexivity|]. cbn [fitem]. destruct (nth_is 0 col0 ts); [cbn [negb]|reflexivity].
  destruct (nth_error ts (if S l =? 0 then 0 else 1)) as [m|]; [|reflexivity]. destruct (list_kind_of m); [|reflexivity]. unfold marker_preds. cbn [Nat.eqb].
  destruct ts as [|t ts]; [reflexivity|]. rewrite fseq_first; [reflexivity|]. rewrite (indent_test _ _ _ _ _ _ H). apply Nat.eqb_neq. exact Hl.
Qed.
Lemma fitem_col : forall s ts R fuel L ko st, cov s false ts R -> fitem fuel L ko st ts = None.
Proof.
  intros s ts R fuel L ko st H. destruct fuel as [|f]; [reflexivity|]. cbn [fitem]. destruct ts as [|t ts]; [reflexivity|]. change (nth_is 0 col0 (t :: ts)) with (col0 t). rewrite (cov_col0 _ _ _ _ _ H). reflexivity.
Qed.
Lemma flist_of_none : forall fuel L st ts, (forall f, fitem f L None st ts = None) -> flist fuel L st ts = None.
Proof. intros [|f] L st ts H; [reflexivity|]. cbn [flist]. rewrite H. reflexivity. Qed.

(** What comes after a list of level [L], or after an item of it. *)
Definition lfollow (n L : nat) (R : list uchar) : Prop :=
  stail n R \/ exists j ty N, R = raw c_nl :: N /\ item_start j ty N /\ j < L.
Definition ifollow (n L : nat) (ty : list_type) (R : list uchar) : Prop :=
  stail n R \/ exists j ty' N, R = raw c_nl :: N /\ item_start j ty' N /\ j <= L /\ (j = L -> ty' = ty).
(** The line feed before the next item is consumed. *)
Definition ldone (s : str) (n : nat) (R : list uchar) (r : list token) : Prop :=
  (stail n R /\ cov s false r R) \/ exists j ty N, R = raw c_nl :: N /\ item_start j ty N /\ cov s true r N.
Definition reads (s : str) (n m : nat) : Prop :=
  forall ty L items outer ts R fuel, list_ok n L outer (YList ty L items) -> cov s true ts (u_list outer (YList ty L items) ++ R) -> lfollow n L R ->
  List.length ts <= m -> List.length ts + 2 <= fuel ->
  exists x y r, flist fuel L (StopTerminator :: cst n) ts = Some (lk ty, x, r) /\ list_of s L x = YList ty L items /\ ts = y ++ r /\ 2 <= List.length y /\ ldone s n R r.

Lemma u_item_start : forall n L outer ty it R, item_ok n L outer ty it -> ifollow n L ty R \/ (exists N, R = raw c_nl :: N) -> item_start L ty (u_item outer ty L it ++ R).
Proof.
  intros n L outer ty it R H HR. inversion H as [? ? ? t nested T _]; subst. cbn [u_item]. rewrite <- !app_assoc. cbn [app]. eexists. split; [reflexivity|].
  destruct T as (l & E1 & _ & _ & _ & _ & Hs & _). destruct (marks (mchar ty :: outer) (u_pars t)) as [|u T]; [|exact Hs]. destruct nested; [reflexivity|]. cbn [app].
  destruct HR as [[T|(j & ty' & N & -> & _)]|(N & ->)]; [|reflexivity|reflexivity]. apply (stail_not n); [exact T|discriminate].
Qed.
Lemma u_list_start : forall n L outer l R, list_ok n L outer l -> lfollow n L R -> exists ty items, l = YList ty L items /\ item_start L ty (u_list outer l ++ R).
Proof.
  intros n L outer l R H HR. inversion H as [? ? ty items NE F]; subst. exists ty, items. split; [reflexivity|]. rewrite u_list_eq. destruct items as [|it items]; [congruence|]. inversion F as [|? ? Fi _]; subst.
  cbn [map ujoin1]. rewrite <- app_assoc. apply (u_item_start n); [exact Fi|]. destruct items as [|it2 items]; cbn [map app].
  - left. destruct HR as [T|(j & ty' & N & -> & HN & Hj)]; [left; exact T|right; exists j, ty', N; repeat split; [exact HN|lia|intros; lia]].
  - right. eauto.
Qed.

Lemma not_stopped : forall n j ty N, item_start j ty N -> ustop (StopTerminator :: cst n) true N = false.
Proof.
  intros n j ty N H. pose proof (item_start_ne _ _ _ H) as NE. pose proof (cst_stop_false n true N NE) as X. unfold ustop in *. destruct N as [|u N]; [congruence|]. cbn [existsb].
  assert (E : forall c d, c <> c_space -> c <> c_minus -> c <> c_plus -> raw2_at c d (u :: N) = false) by (intros; eapply item_start_raw2; eassumption).
  change (fires true (u :: N) StopTerminator) with (raw2_at c_nl c_nl (u :: N)). rewrite E by discriminate. cbn [orb]. apply X. cbn [fires]. rewrite E by discriminate. cbn [andb orb].
  pose proof (item_start_raw _ _ _ c_nl H ltac:(discriminate) ltac:(discriminate) ltac:(discriminate)) as Y. change (raw_at c_nl (u :: N)) with (is_nl u) in Y. rewrite Y. reflexivity.
Qed.

Lemma item_units : forall s n m L outer ty it ts R ko fuel, reads s n m -> item_ok n L outer ty it -> cov s true ts (u_item outer ty L it ++ R) -> ifollow n L ty R ->
  (ko = None \/ ko = Some (lk ty)) -> List.length ts <= S m -> List.length ts + 1 <= fuel ->
  exists o p kk y r, fitem fuel L ko (StopTerminator :: cst n) ts = Some (lk ty, Node NListItem o (p :: kk) [], r)
    /\ YItem (concat (trimmed s p)) match kk with l :: _ => Some (list_of s (S L) l) | [] => None end = it /\ ts = y ++ r /\ 2 <= List.length y /\ ldone s n R r.
Proof.
  intros s n m L outer ty it ts R ko fuel IH Hit H HR K Hm Hf. pose proof (u_item_start n L outer ty it R Hit ltac:(left; exact HR)) as St.
  inversion Hit as [? ? ? t nested T Hn]; subst. cbn [u_item] in H, St. rewrite <- !app_assoc in H, St. cbn [app] in H, St. destruct St as (V & EV & HV).
  assert (EV' : V = marks (mchar ty :: outer) (u_pars t) ++ match nested with Some l' => raw c_nl :: u_list (mchar ty :: outer) l' | None => [] end ++ R).
  { apply app_inv_head in EV. injection EV as EV. rewrite <- EV, <- app_assoc. reflexivity. }
  rewrite <- app_assoc in H. rewrite <- EV' in H. destruct (head_units s ts L ty V ko H HV K) as (o & r0 & mt & E1 & E2 & E3 & E4 & -> & E6 & E7).
  destruct fuel as [|fuel]; [lia|]. cbn [fitem]. rewrite E1, E2, E3, E4. cbn [negb]. rewrite app_length in Hm, Hf. rewrite EV' in E7. clear EV EV' HV H.
  destruct nested as [l'|].
  - specialize (Hn l' eq_refl). cbn [app] in E7.
    assert (LF : lfollow n (S L) R) by (destruct HR as [B|(j & ty' & N & -> & HN & Hj & _)]; [left; exact B|right; exists j, ty', N; repeat split; [exact HN|lia]]).
    destruct (u_list_start n (S L) _ l' R Hn LF) as (ty' & items & -> & St). 
    destruct (text_mid s n L ty r0 _ t _ (S L) ty' E7 T St ltac:(lia) ltac:(lia)) as (kk & y & r & F1 & F2 & -> & F4).
    unfold istop in F1. rewrite F1. rewrite (stopped_units _ _ _ _ _ F4), (not_stopped _ _ _ _ St). cbn [negb]. replace (L + 1) with (S L) by lia. rewrite app_length in Hm, Hf.
    destruct (IH ty' (S L) items _ r R fuel Hn F4 LF ltac:(lia) ltac:(lia)) as (x & y2 & r2 & G1 & G2 & -> & G4 & G5).
    rewrite G1. exists o, (Node NParagraph [] kk []), [x], (o ++ y ++ y2), r2. split; [reflexivity|]. rewrite F2, G2. cbn [concat]. rewrite app_nil_r. split; [reflexivity|]. split; [rewrite <- !app_assoc; reflexivity|]. split; [rewrite !app_length; lia|exact G5].
  - cbn [app] in E7. destruct HR as [B|(j & ty' & N & -> & HN & Hj & Hty)].
    + destruct (text_last s n L (lk ty) r0 _ t R E7 T B) as (kk & y & r & F1 & F2 & -> & F4). unfold istop in F1. rewrite F1.
      rewrite (stopped_units _ _ _ _ _ F4), (stail_stop n false R B). cbn [negb]. exists o, (Node NParagraph [] kk []), [], (o ++ y), r. split; [reflexivity|]. rewrite F2. cbn [concat]. rewrite app_nil_r.
      split; [reflexivity|]. split; [rewrite <- app_assoc; reflexivity|]. split; [rewrite app_length; lia|left; auto].
    + destruct (text_mid s n L ty r0 _ t N j ty' E7 T HN ltac:(lia) Hty) as (kk & y & r & F1 & F2 & -> & F4). unfold istop in F1. rewrite F1.
      rewrite (stopped_units _ _ _ _ _ F4), (not_stopped _ _ _ _ HN). cbn [negb]. replace (L + 1) with (S L) by lia.
      rewrite flist_of_none by (intros f; eapply fitem_none; [exact F4|]; rewrite (item_start_lead _ _ _ HN); lia).
      exists o, (Node NParagraph [] kk []), [], (o ++ y), r. split; [reflexivity|]. rewrite F2. cbn [concat]. rewrite app_nil_r.
      split; [reflexivity|]. split; [rewrite <- app_assoc; reflexivity|]. split; [rewrite app_length; lia|right; eauto 6].
Qed.

Definition read_item (s : str) (L : nat) (it : tree) : list yitem :=
  match it with
  | Node NListItem _ (p :: r) _ => [YItem (concat (trimmed s p)) match r with l :: _ => Some (list_of s (S L) l) | [] => None end]
  | _ => []
  end.
Lemma list_of_eq : forall s L n o k c, list_of s L (Node n o k c) = YList (type_of n) L (flat_map (read_item s L) k).
Proof. reflexivity. Qed.

Lemma items_units : forall s n m L outer ty items ts R fuel, reads s n m -> Forall (item_ok n L outer ty) items -> lfollow n L R ->
  match items with [] => ldone s n R ts | _ => cov s true ts (u_list outer (YList ty L items) ++ R) end -> List.length ts <= S m -> List.length ts + 2 <= fuel ->
  exists k y r, flist_items fuel L (lk ty) (StopTerminator :: cst n) ts = (k, r) /\ flat_map (read_item s L) k = items /\ ts = y ++ r /\ ldone s n R r.
Proof.
  intros s n m L outer ty items. induction items as [|it items IHl]; intros ts R fuel IH F HR H Hm Hf; (destruct fuel as [|fuel]; [lia|]); cbn [flist_items].
  - assert (E : fitem fuel L (Some (lk ty)) (StopTerminator :: cst n) ts = None).
    { destruct H as [[_ H]|(j & ty' & N & E & HN & H)].
      - eapply fitem_col. exact H.
      - destruct HR as [B|(j2 & ty2 & N2 & E2 & HN2 & Hj)].
        + exfalso. subst R. destruct B as [X|[(Q & X)|(_ & Q & X)]]; try discriminate X; injection X as X.
          * pose proof (item_start_raw _ _ _ c_nl HN ltac:(discriminate) ltac:(discriminate) ltac:(discriminate)) as Y. rewrite X in Y. discriminate.
          * pose proof (item_start_raw _ _ _ c_percent HN ltac:(discriminate) ltac:(discriminate) ltac:(discriminate)) as Y. rewrite X in Y. discriminate.
        + rewrite E in E2. injection E2 as <-. destruct L as [|l]; [lia|]. eapply fitem_none; [exact H|]. rewrite (item_start_lead _ _ _ HN2). lia. }
    rewrite E. exists [], [], ts. auto.
  - inversion F as [|? ? Fi Fl]; subst. rewrite u_list_eq in H. cbn [map ujoin1] in H. rewrite <- app_assoc in H.
    set (R1 := match map (u_item outer ty L) items with [] => [] | _ :: _ => raw c_nl :: ujoin1 (map (u_item outer ty L) items) end ++ R) in *.
    assert (X : ifollow n L ty R1 /\ forall r, ldone s n R1 r -> match items with [] => ldone s n R r | _ => cov s true r (u_list outer (YList ty L items) ++ R) end).
    { unfold R1. destruct items as [|it2 items]; cbn [map app].
      - split; [|auto]. destruct HR as [B|(j & ty' & N & -> & HN & Hj)]; [left; exact B|right; exists j, ty', N; repeat split; [exact HN|lia|intros; lia]].
      - change (ujoin1 (u_item outer ty L it2 :: map (u_item outer ty L) items)) with (u_list outer (YList ty L (it2 :: items))).
        assert (LO : list_ok n L outer (YList ty L (it2 :: items))) by (constructor; [discriminate|exact Fl]). destruct (u_list_start n L outer _ R LO HR) as (ty' & its & Q & St). injection Q as <- _. split.
        + right. exists L, ty, (u_list outer (YList ty L (it2 :: items)) ++ R). repeat split; [exact St|lia].
        + intros r [[B _]|(j & ty' & N & E & HN & C)].
          * exfalso. destruct B as [X|[(Q & X)|(_ & Q & X)]]; try discriminate X; injection X as X.
            -- pose proof (item_start_raw _ _ _ c_nl (eq_ind _ (item_start L ty) St _ X) ltac:(discriminate) ltac:(discriminate) ltac:(discriminate)) as Y. discriminate Y.
            -- pose proof (item_start_raw _ _ _ c_percent (eq_ind _ (item_start L ty) St _ X) ltac:(discriminate) ltac:(discriminate) ltac:(discriminate)) as Y. discriminate Y.
          * injection E as <-. exact C. }
    destruct X as [X1 X2].
    destruct (item_units s n m L outer ty it ts R1 (Some (lk ty)) fuel IH Fi H X1 ltac:(auto) Hm ltac:(lia)) as (o & p & kk & y & r & E1 & E2 & -> & E4 & E5).
    rewrite E1. rewrite app_length in Hm, Hf. destruct (IHl r R fuel IH Fl HR (X2 r E5) ltac:(lia) ltac:(lia)) as (k & y2 & r2 & G1 & G2 & -> & G4). rewrite G1.
    exists (Node NListItem o (p :: kk) [] :: k), (y ++ y2), r2. split; [reflexivity|]. split; [cbn [flat_map read_item app]; rewrite E2, G2; reflexivity|]. split; [rewrite <- app_assoc; reflexivity|exact G4].
Qed.

Lemma reads_all : forall s n m, reads s n m.
Proof.
  intros s n. induction m as [|m IH]; intros ty L items outer ts R fuel Hl H HR Hm Hf.
  - destruct ts; [|cbn in Hm; lia]. exfalso. destruct (u_list_start n L outer _ R Hl HR) as (ty' & its & _ & St). apply cov_nil_r in H. rewrite H in St. exact (item_start_ne _ _ _ St eq_refl).
  - inversion Hl as [? ? ? ? NE F]; subst. destruct items as [|it items]; [congruence|]. inversion F as [|? ? Fi Fl]; subst.
    destruct fuel as [|fuel]; [lia|]. cbn [flist]. rewrite u_list_eq in H. cbn [map ujoin1] in H. rewrite <- app_assoc in H.
    set (R1 := match map (u_item outer ty L) items with [] => [] | _ :: _ => raw c_nl :: ujoin1 (map (u_item outer ty L) items) end ++ R) in *.
    assert (X : ifollow n L ty R1 /\ forall r, ldone s n R1 r -> match items with [] => ldone s n R r | _ => cov s true r (u_list outer (YList ty L items) ++ R) end).
    { unfold R1. destruct items as [|it2 items]; cbn [map app].
      - split; [|auto]. destruct HR as [B|(j & ty' & N & -> & HN & Hj)]; [left; exact B|right; exists j, ty', N; repeat split; [exact HN|lia|intros; lia]].
      - change (ujoin1 (u_item outer ty L it2 :: map (u_item outer ty L) items)) with (u_list outer (YList ty L (it2 :: items))).
        assert (LO : list_ok n L outer (YList ty L (it2 :: items))) by (constructor; [discriminate|exact Fl]). destruct (u_list_start n L outer _ R LO HR) as (ty' & its & Q & St). injection Q as <- _. split.
        + right. exists L, ty, (u_list outer (YList ty L (it2 :: items)) ++ R). repeat split; [exact St|lia].
        + intros r [[B _]|(j & ty' & N & E & HN & C)].
          * exfalso. destruct B as [X|[(Q & X)|(_ & Q & X)]]; try discriminate X; injection X as X.
            -- pose proof (item_start_raw _ _ _ c_nl (eq_ind _ (item_start L ty) St _ X) ltac:(discriminate) ltac:(discriminate) ltac:(discriminate)) as Y. discriminate Y.
            -- pose proof (item_start_raw _ _ _ c_percent (eq_ind _ (item_start L ty) St _ X) ltac:(discriminate) ltac:(discriminate) ltac:(discriminate)) as Y. discriminate Y.
          * injection E as <-. exact C. }
    destruct X as [X1 X2].
    destruct (item_units s n m L outer ty it ts R1 None fuel IH Fi H X1 ltac:(auto) Hm ltac:(lia)) as (o & p & kk & y & r & E1 & E2 & -> & E4 & E5).
    rewrite E1. rewrite app_length in Hm, Hf. destruct (items_units s n m L outer ty items r R fuel IH Fl HR (X2 r E5) ltac:(lia) ltac:(lia)) as (k & y2 & r2 & G1 & G2 & -> & G4). rewrite G1.
    eexists _, (y ++ y2), r2. split; [reflexivity|]. split.
    { rewrite list_of_eq. cbn [flat_map read_item app]. rewrite E2, G2. destruct ty; reflexivity. }
    split; [rewrite <- app_assoc; reflexivity|]. split; [rewrite app_length; lia|exact G4].
Qed.

Lemma list_parses : forall n l, list_ok n 0 [] l -> parses n (u_list [] l) [YListNode l].
Proof.
  intros n l Hl s ts B fuel H T He Hf. assert (LF : lfollow n 0 B) by (left; exact T). destruct (u_list_start n 0 [] l B Hl LF) as (ty & items & -> & St).
  pose proof St as (V & EV & HV). assert (Q : forall c, c <> c_space -> c <> c_minus -> c <> c_plus -> raw_at c (u_list [] (YList ty 0 items) ++ B) = false) by (intros; eapply item_start_raw; eassumption).
  destruct (cov_cons_inv _ _ _ _ H (item_start_ne _ _ _ St)) as (t & ts' & ->).
  rewrite (fblock_simple _ _ _ _ _ _ _ H) by (first [apply Q; discriminate | rewrite (proj1 (lead_0 _ _) (Q c_backtick ltac:(discriminate) ltac:(discriminate) ltac:(discriminate))); reflexivity | rewrite (proj1 (lead_0 _ _) (Q c_bang ltac:(discriminate) ltac:(discriminate) ltac:(discriminate))); reflexivity]).
  unfold fsimple, forelse, flist0. destruct (reads_all s n _ ty 0 items [] (t :: ts') B (2 * List.length (t :: ts') + 3) Hl H LF (le_n _) ltac:(lia)) as (x & y & r & E1 & E2 & E3 & E4 & E5). rewrite E1.
  destruct y as [|t1 y]; [cbn in E4; lia|]. injection E3 as <- E3. exists x, t, y, r. split; [reflexivity|]. split; [rewrite E3; reflexivity|].
  assert (X : blocks s x = [YListNode (list_of s 0 x)]).
  { clear - E1. destruct (2 * List.length (t :: ts') + 3) as [|f]; [discriminate|]. cbn [flist] in E1. destruct (fitem f 0 None (StopTerminator :: cst n) (t :: ts')) as [[[k1 x1] r1]|]; [|discriminate].
    destruct (flist_items f 0 k1 (StopTerminator :: cst n) r1) as [k2 r2]. injection E1 as _ <- _. destruct k1; reflexivity. }
  rewrite X, E2. split; [reflexivity|].
  destruct E5 as [[_ C]|(j & ty' & N & EB & HN & C)].
  - left. destruct B as [|b B]; [apply cov_nil_inv in C; subst r; constructor|].
    destruct (aft true (u_list [] (YList ty 0 items))) eqn:Ea; [|exact C]. exfalso. apply aft_true in Ea. destruct Ea as [[Ea _]|Ea]; [|specialize (He Ea); discriminate].
    rewrite Ea in St. cbn [app] in St. pose proof (stail_inert _ _ T) as (Y1 & Y2 & Y3). destruct St as (W & EW & _). rewrite EW in Y2, Y3. destruct ty; discriminate.
  - exfalso. destruct (stail_head _ _ T) as [X1|X1]; [subst B; discriminate|]. destruct T as [X2|[(Q1 & X2)|(_ & Q1 & X2)]]; rewrite X2 in EB; try discriminate EB; injection EB as EB.
    + pose proof (item_start_raw _ _ _ c_nl HN ltac:(discriminate) ltac:(discriminate) ltac:(discriminate)) as Y. rewrite <- EB in Y. discriminate.
    + pose proof (item_start_raw _ _ _ c_percent HN ltac:(discriminate) ltac:(discriminate) ltac:(discriminate)) as Y. rewrite <- EB in Y. discriminate.
Qed.
