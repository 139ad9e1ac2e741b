(** Lists in which every character of a text is escaped: the parser reads the list back.  The proofs
    follow Lists.v, with other texts of the items. *)
From Coq Require Import String.
From Verif Require Import Base Lexer LexSpec LexProofs LexFacts Ops Parser FParser TokFacts ToYamd TreeAst Ast AstSpec NormalSpec Tame Units ULex Stops Inline AstUnits Calm Blocks Docs Highlight Lists ImageInline.

Fixpoint e_list (l : ylist) : list uchar :=
  match l with
  | YList ty L items =>
      ujoin1 (map (fun it =>
        match it with
        | YItem t nested =>
            indent L ++ raw (mchar ty) :: raw c_space :: uflats (eps t)
            ++ match nested with Some l' => raw c_nl :: e_list l' | None => [] end
        end) items)
  end.
Definition e_item (ty : list_type) (L : nat) (it : yitem) : list uchar :=
  match it with
  | YItem t nested =>
      indent L ++ raw (mchar ty) :: raw c_space :: uflats (eps t)
      ++ match nested with Some l' => raw c_nl :: e_list l' | None => [] end
  end.
Lemma e_list_eq : forall ty L items, e_list (YList ty L items) = ujoin1 (map (e_item ty L) items).
Proof. reflexivity. Qed.

Inductive elist_ok (n : nat) : nat -> ylist -> Prop :=
| elist_ok_intro : forall L ty items, items <> [] -> Forall (eitem_ok n L ty) items -> elist_ok n L (YList ty L items)
with eitem_ok (n : nat) : nat -> list_type -> yitem -> Prop :=
| eitem_ok_intro : forall L ty t nested, text_ok n L (lk ty) (uflats (eps t)) t ->
    (forall l, nested = Some l -> elist_ok n (S L) l) -> eitem_ok n L ty (YItem t nested).

Definition ereads (s : str) (n m : nat) : Prop :=
  forall ty L items ts R fuel, elist_ok n L (YList ty L items) -> cov s true ts (e_list (YList ty L items) ++ R) -> lfollow n L R ->
  List.length ts <= m -> List.length ts + 2 <= fuel ->
  exists x y r, flist fuel L (StopTerminator :: cst n) ts = Some (lk ty, x, r) /\ list_of s L x = YList ty L items /\ ts = y ++ r /\ 2 <= List.length y /\ ldone s n R r.

Lemma e_item_start : forall n L ty it R, eitem_ok n L ty it -> ifollow n L ty R \/ (exists N, R = raw c_nl :: N) -> item_start L ty (e_item ty L it ++ R).
Proof.
  intros n L ty it R H HR. inversion H as [? ? t nested T _]; subst. cbn [e_item]. rewrite <- !app_assoc. cbn [app]. eexists. split; [reflexivity|].
  destruct T as (l & E1 & _ & _ & _ & _ & Hs & _). destruct (uflats (eps t)) as [|u T]; [|exact Hs]. destruct nested; [reflexivity|]. cbn [app].
  destruct HR as [[T|(j & ty' & N & -> & _)]|(N & ->)]; [|reflexivity|reflexivity]. apply (stail_not n); [exact T|discriminate].
Qed.
Lemma e_list_start : forall n L l R, elist_ok n L l -> lfollow n L R -> exists ty items, l = YList ty L items /\ item_start L ty (e_list l ++ R).
Proof.
  intros n L l R H HR. inversion H as [? ty items NE F]; subst. exists ty, items. split; [reflexivity|]. rewrite e_list_eq. destruct items as [|it items]; [congruence|]. inversion F as [|? ? Fi _]; subst.
  cbn [map ujoin1]. rewrite <- app_assoc. apply (e_item_start n); [exact Fi|]. destruct items as [|it2 items]; cbn [map app].
  - left. destruct HR as [T|(j & ty' & N & -> & HN & Hj)]; [left; exact T|right; exists j, ty', N; repeat split; [exact HN|lia|intros; lia]].
  - right. eauto.
Qed.

Lemma eitem_units : forall s n m L ty it ts R ko fuel, ereads s n m -> eitem_ok n L ty it -> cov s true ts (e_item ty L it ++ R) -> ifollow n L ty R ->
  (ko = None \/ ko = Some (lk ty)) -> List.length ts <= S m -> List.length ts + 1 <= fuel ->
  exists o p kk y r, fitem fuel L ko (StopTerminator :: cst n) ts = Some (lk ty, Node NListItem o (p :: kk) [], r)
    /\ YItem (concat (trimmed s p)) match kk with l :: _ => Some (list_of s (S L) l) | [] => None end = it /\ ts = y ++ r /\ 2 <= List.length y /\ ldone s n R r.
Proof.
  intros s n m L ty it ts R ko fuel IH Hit H HR K Hm Hf. pose proof (e_item_start n L ty it R Hit ltac:(left; exact HR)) as St.
  inversion Hit as [? ? t nested T Hn]; subst. cbn [e_item] in H, St. rewrite <- !app_assoc in H, St. cbn [app] in H, St. destruct St as (V & EV & HV).
  assert (EV' : V = uflats (eps t) ++ match nested with Some l' => raw c_nl :: e_list l' | None => [] end ++ R).
  { apply app_inv_head in EV. injection EV as EV. rewrite <- EV, <- app_assoc. reflexivity. }
  rewrite <- app_assoc in H. rewrite <- EV' in H. destruct (head_units s ts L ty V ko H HV K) as (o & r0 & mt & E1 & E2 & E3 & E4 & -> & E6 & E7).
  destruct fuel as [|fuel]; [lia|]. cbn [fitem]. rewrite E1, E2, E3, E4. cbn [negb]. rewrite app_length in Hm, Hf. rewrite EV' in E7. clear EV EV' HV H.
  destruct nested as [l'|].
  - specialize (Hn l' eq_refl). cbn [app] in E7.
    assert (LF : lfollow n (S L) R) by (destruct HR as [B|(j & ty' & N & -> & HN & Hj & _)]; [left; exact B|right; exists j, ty', N; repeat split; [exact HN|lia]]).
    destruct (e_list_start n (S L) l' R Hn LF) as (ty' & items & -> & St). 
    destruct (text_mid s n L ty r0 _ t _ (S L) ty' E7 T St ltac:(lia) ltac:(lia)) as (kk & y & r & F1 & F2 & -> & F4).
    unfold istop in F1. rewrite F1. rewrite (stopped_units _ _ _ _ _ F4), (not_stopped _ _ _ _ St). cbn [negb]. replace (L + 1) with (S L) by lia. rewrite app_length in Hm, Hf.
    destruct (IH ty' (S L) items r R fuel Hn F4 LF ltac:(lia) ltac:(lia)) as (x & y2 & r2 & G1 & G2 & -> & G4 & G5).
    rewrite G1. exists o, (Node NParagraph [] kk []), [x], (o ++ y ++ y2), r2. split; [reflexivity|]. rewrite F2, G2. cbn [concat]. rewrite app_nil_r. split; [reflexivity|]. split; [rewrite <- !app_assoc; reflexivity|]. split; [rewrite !app_length; lia|exact G5].
  - cbn [app] in E7. destruct HR as [B|(j & ty' & N & -> & HN & Hj & Hty)].
    + destruct (text_last s n L (lk ty) r0 _ t R E7 T B) as (kk & y & r & F1 & F2 & -> & F4). unfold istop in F1. rewrite F1.
      rewrite (stopped_units _ _ _ _ _ F4), (stail_stop n false R B). cbn [negb]. exists o, (Node NParagraph [] kk []), [], (o ++ y), r. split; [reflexivity|]. rewrite F2. cbn [concat]. rewrite app_nil_r.
      split; [reflexivity|]. split; [rewrite <- app_assoc; reflexivity|]. split; [rewrite app_length; lia|left; auto].
    + destruct (text_mid s n L ty r0 _ t N j ty' E7 T HN ltac:(lia) Hty) as (kk & y & r & F1 & F2 & -> & F4). unfold istop in F1. rewrite F1.
      rewrite (stopped_units _ _ _ _ _ F4), (not_stopped _ _ _ _ HN). cbn [negb]. replace (L + 1) with (S L) by lia.
      rewrite flist_of_none by (intros f; eapply fitem_none; [exact F4|]; rewrite (item_start_lead _ _ _ HN); lia).
      exists o, (Node NParagraph [] kk []), [], (o ++ y), r. split; [reflexivity|]. rewrite F2. cbn [concat]. rewrite app_nil_r.
      split; [reflexivity|]. split; [rewrite <- app_assoc; reflexivity|]. split; [rewrite app_length; lia|right; eauto 6].
Qed.

Lemma eitems_units : forall s n m L ty items ts R fuel, ereads s n m -> Forall (eitem_ok n L ty) items -> lfollow n L R ->
  match items with [] => ldone s n R ts | _ => cov s true ts (e_list (YList ty L items) ++ R) end -> List.length ts <= S m -> List.length ts + 2 <= fuel ->
  exists k y r, flist_items fuel L (lk ty) (StopTerminator :: cst n) ts = (k, r) /\ flat_map (read_item s L) k = items /\ ts = y ++ r /\ ldone s n R r.
Proof.
  intros s n m L ty items. induction items as [|it items IHl]; intros ts R fuel IH F HR H Hm Hf; (destruct fuel as [|fuel]; [lia|]); cbn [flist_items].
  - assert (E : fitem fuel L (Some (lk ty)) (StopTerminator :: cst n) ts = None).
    { destruct H as [[_ H]|(j & ty' & N & E & HN & H)].
      - eapply fitem_col. exact H.
      - destruct HR as [B|(j2 & ty2 & N2 & E2 & HN2 & Hj)].
        + exfalso. subst R. destruct B as [X|[(Q & X)|(_ & Q & X)]]; try discriminate X; injection X as X.
          * pose proof (item_start_raw _ _ _ c_nl HN ltac:(discriminate) ltac:(discriminate) ltac:(discriminate)) as Y. rewrite X in Y. discriminate.
          * pose proof (item_start_raw _ _ _ c_percent HN ltac:(discriminate) ltac:(discriminate) ltac:(discriminate)) as Y. rewrite X in Y. discriminate.
        + rewrite E in E2. injection E2 as <-. destruct L as [|l]; [lia|]. eapply fitem_none; [exact H|]. rewrite (item_start_lead _ _ _ HN2). lia. }
    rewrite E. exists [], [], ts. auto.
  - inversion F as [|? ? Fi Fl]; subst. rewrite e_list_eq in H. cbn [map ujoin1] in H. rewrite <- app_assoc in H.
    set (R1 := match map (e_item ty L) items with [] => [] | _ :: _ => raw c_nl :: ujoin1 (map (e_item ty L) items) end ++ R) in *.
    assert (X : ifollow n L ty R1 /\ forall r, ldone s n R1 r -> match items with [] => ldone s n R r | _ => cov s true r (e_list (YList ty L items) ++ R) end).
    { unfold R1. destruct items as [|it2 items]; cbn [map app].
      - split; [|auto]. destruct HR as [B|(j & ty' & N & -> & HN & Hj)]; [left; exact B|right; exists j, ty', N; repeat split; [exact HN|lia|intros; lia]].
      - change (ujoin1 (e_item ty L it2 :: map (e_item ty L) items)) with (e_list (YList ty L (it2 :: items))).
        assert (LO : elist_ok n L (YList ty L (it2 :: items))) by (constructor; [discriminate|exact Fl]). destruct (e_list_start n L _ R LO HR) as (ty' & its & Q & St). injection Q as <- _. split.
        + right. exists L, ty, (e_list (YList ty L (it2 :: items)) ++ R). repeat split; [exact St|lia].
        + intros r [[B _]|(j & ty' & N & E & HN & C)].
          * exfalso. destruct B as [X|[(Q & X)|(_ & Q & X)]]; try discriminate X; injection X as X.
            -- pose proof (item_start_raw _ _ _ c_nl (eq_ind _ (item_start L ty) St _ X) ltac:(discriminate) ltac:(discriminate) ltac:(discriminate)) as Y. discriminate Y.
            -- pose proof (item_start_raw _ _ _ c_percent (eq_ind _ (item_start L ty) St _ X) ltac:(discriminate) ltac:(discriminate) ltac:(discriminate)) as Y. discriminate Y.
          * injection E as <-. exact C. }
    destruct X as [X1 X2].
    destruct (eitem_units s n m L ty it ts R1 (Some (lk ty)) fuel IH Fi H X1 ltac:(auto) Hm ltac:(lia)) as (o & p & kk & y & r & E1 & E2 & -> & E4 & E5).
    rewrite E1. rewrite app_length in Hm, Hf. destruct (IHl r R fuel IH Fl HR (X2 r E5) ltac:(lia) ltac:(lia)) as (k & y2 & r2 & G1 & G2 & -> & G4). rewrite G1.
    exists (Node NListItem o (p :: kk) [] :: k), (y ++ y2), r2. split; [reflexivity|]. split; [cbn [flat_map read_item app]; rewrite E2, G2; reflexivity|]. split; [rewrite <- app_assoc; reflexivity|exact G4].
Qed.

Lemma ereads_all : forall s n m, ereads s n m.
Proof.
  intros s n. induction m as [|m IH]; intros ty L items ts R fuel Hl H HR Hm Hf.
  - destruct ts; [|cbn in Hm; lia]. exfalso. destruct (e_list_start n L _ R Hl HR) as (ty' & its & _ & St). apply cov_nil_r in H. rewrite H in St. exact (item_start_ne _ _ _ St eq_refl).
  - inversion Hl as [? ? ? NE F]; subst. destruct items as [|it items]; [congruence|]. inversion F as [|? ? Fi Fl]; subst.
    destruct fuel as [|fuel]; [lia|]. cbn [flist]. rewrite e_list_eq in H. cbn [map ujoin1] in H. rewrite <- app_assoc in H.
    set (R1 := match map (e_item ty L) items with [] => [] | _ :: _ => raw c_nl :: ujoin1 (map (e_item ty L) items) end ++ R) in *.
    assert (X : ifollow n L ty R1 /\ forall r, ldone s n R1 r -> match items with [] => ldone s n R r | _ => cov s true r (e_list (YList ty L items) ++ R) end).
    { unfold R1. destruct items as [|it2 items]; cbn [map app].
      - split; [|auto]. destruct HR as [B|(j & ty' & N & -> & HN & Hj)]; [left; exact B|right; exists j, ty', N; repeat split; [exact HN|lia|intros; lia]].
      - change (ujoin1 (e_item ty L it2 :: map (e_item ty L) items)) with (e_list (YList ty L (it2 :: items))).
        assert (LO : elist_ok n L (YList ty L (it2 :: items))) by (constructor; [discriminate|exact Fl]). destruct (e_list_start n L _ R LO HR) as (ty' & its & Q & St). injection Q as <- _. split.
        + right. exists L, ty, (e_list (YList ty L (it2 :: items)) ++ R). repeat split; [exact St|lia].
        + intros r [[B _]|(j & ty' & N & E & HN & C)].
          * exfalso. destruct B as [X|[(Q & X)|(_ & Q & X)]]; try discriminate X; injection X as X.
            -- pose proof (item_start_raw _ _ _ c_nl (eq_ind _ (item_start L ty) St _ X) ltac:(discriminate) ltac:(discriminate) ltac:(discriminate)) as Y. discriminate Y.
            -- pose proof (item_start_raw _ _ _ c_percent (eq_ind _ (item_start L ty) St _ X) ltac:(discriminate) ltac:(discriminate) ltac:(discriminate)) as Y. discriminate Y.
          * injection E as <-. exact C. }
    destruct X as [X1 X2].
    destruct (eitem_units s n m L ty it ts R1 None fuel IH Fi H X1 ltac:(auto) Hm ltac:(lia)) as (o & p & kk & y & r & E1 & E2 & -> & E4 & E5).
    rewrite E1. rewrite app_length in Hm, Hf. destruct (eitems_units s n m L ty items r R fuel IH Fl HR (X2 r E5) ltac:(lia) ltac:(lia)) as (k & y2 & r2 & G1 & G2 & -> & G4). rewrite G1.
    eexists _, (y ++ y2), r2. split; [reflexivity|]. split.
    { rewrite list_of_eq. cbn [flat_map read_item app]. rewrite E2, G2. destruct ty; reflexivity. }
    split; [rewrite <- app_assoc; reflexivity|]. split; [rewrite app_length; lia|exact G4].
Qed.

Lemma elist_parses : forall n l, elist_ok n 0 l -> parses n (e_list l) [YListNode l].
Proof.
  intros n l Hl s ts B fuel H T He Hf. assert (LF : lfollow n 0 B) by (left; exact T). destruct (e_list_start n 0 l B Hl LF) as (ty & items & -> & St).
  pose proof St as (V & EV & HV). assert (Q : forall c, c <> c_space -> c <> c_minus -> c <> c_plus -> raw_at c (e_list (YList ty 0 items) ++ B) = false) by (intros; eapply item_start_raw; eassumption).
  destruct (cov_cons_inv _ _ _ _ H (item_start_ne _ _ _ St)) as (t & ts' & ->).
  rewrite (fblock_simple _ _ _ _ _ _ _ H) by (first [apply Q; discriminate | rewrite (proj1 (lead_0 _ _) (Q c_backtick ltac:(discriminate) ltac:(discriminate) ltac:(discriminate))); reflexivity | rewrite (proj1 (lead_0 _ _) (Q c_bang ltac:(discriminate) ltac:(discriminate) ltac:(discriminate))); reflexivity]).
  unfold fsimple, forelse, flist0. destruct (ereads_all s n _ ty 0 items (t :: ts') B (2 * List.length (t :: ts') + 3) Hl H LF (le_n _) ltac:(lia)) as (x & y & r & E1 & E2 & E3 & E4 & E5). rewrite E1.
  destruct y as [|t1 y]; [cbn in E4; lia|]. injection E3 as <- E3. exists x, t, y, r. split; [reflexivity|]. split; [rewrite E3; reflexivity|].
  assert (X : blocks s x = [YListNode (list_of s 0 x)]).
  { clear - E1. destruct (2 * List.length (t :: ts') + 3) as [|f]; [discriminate|]. cbn [flist] in E1. destruct (fitem f 0 None (StopTerminator :: cst n) (t :: ts')) as [[[k1 x1] r1]|]; [|discriminate].
    destruct (flist_items f 0 k1 (StopTerminator :: cst n) r1) as [k2 r2]. injection E1 as _ <- _. destruct k1; reflexivity. }
  rewrite X, E2. split; [reflexivity|].
  destruct E5 as [[_ C]|(j & ty' & N & EB & HN & C)].
  - left. destruct B as [|b B]; [apply cov_nil_inv in C; subst r; constructor|].
    destruct (aft true (e_list (YList ty 0 items))) eqn:Ea; [|exact C]. exfalso. apply aft_true in Ea. destruct Ea as [[Ea _]|Ea]; [|specialize (He Ea); discriminate].
    rewrite Ea in St. cbn [app] in St. pose proof (stail_inert _ _ T) as (Y1 & Y2 & Y3). destruct St as (W & EW & _). rewrite EW in Y2, Y3. destruct ty; discriminate.
  - exfalso. destruct (stail_head _ _ T) as [X1|X1]; [subst B; discriminate|]. destruct T as [X2|[(Q1 & X2)|(_ & Q1 & X2)]]; rewrite X2 in EB; try discriminate EB; injection EB as EB.
    + pose proof (item_start_raw _ _ _ c_nl HN ltac:(discriminate) ltac:(discriminate) ltac:(discriminate)) as Y. rewrite <- EB in Y. discriminate.
    + pose proof (item_start_raw _ _ _ c_percent HN ltac:(discriminate) ltac:(discriminate) ltac:(discriminate)) as Y. rewrite <- EB in Y. discriminate.
Qed.

(** ** Normal lists *)

Lemma clean_space : forall us, clean us -> raw_at c_space us = false.
Proof. intros us H. apply absent_raw_at, clean_absent; [exact H|nodelim]. Qed.
Lemma clean_tame : forall n b us, clean us -> tame_at n b us.
Proof.
  intros n b us H. assert (A : absent c_nl us) by (apply clean_absent; [exact H|nodelim]). split; [|intros _; split].
  - apply (nosub_absent _ (raw c_nl)); [left; reflexivity|exact A].
  - intros _. destruct (raw2_at c_percent c_rcurly us) eqn:E; [|reflexivity]. apply raw2_at_true in E. destruct E as (r & ->). exfalso.
    assert (P : absent c_percent (raw c_percent :: raw c_rcurly :: r)) by (apply clean_absent; [exact H|nodelim]). apply P. left. reflexivity.
  - apply (nosub_absent _ (raw c_nl)); [left; reflexivity|exact A].
Qed.
Lemma clean_ends : forall us, clean us -> ~ ends c_nl us.
Proof. intros us H. apply absent_ends, clean_absent; [exact H|nodelim]. Qed.

Lemma eps_text_ok : forall n L k t, normal_line t -> text_ok n L k (uflats (eps t)) t.
Proof.
  intros n L k t [N T]. pose proof (clean_eps t) as C. exists (eps t). split; [reflexivity|]. split; [apply eps_good; exact N|]. split; [apply eps_erase|]. split; [apply eps_trim; exact T|].
  split; [apply clean_ends; exact C|]. split; [apply clean_space; exact C|]. split; [apply clean_tame; exact C|].
  intros A1 A2 E (r & ->) j _. exfalso. apply (clean_absent _ c_nl C); [nodelim|]. rewrite E. rewrite <- app_assoc. apply in_or_app. right. left. reflexivity.
Qed.
Lemma normal_list_ok : forall n l L, levels_ok L l -> Forall normal_line (item_bodies l) -> elist_ok n L l.
Proof.
  intros n. fix IH 1. intros [ty L0 items] L H F. cbn [levels_ok item_bodies] in H, F. destruct H as (-> & NE & H). constructor; [exact NE|]. clear NE.
  induction items as [|[t nested] items IHl]; [constructor|]. cbn [map fold_right flat_map] in H, F. destruct H as [H1 H2]. apply Forall_app in F. destruct F as [F1 F2]. inversion F1 as [|? ? Ft Fn]; subst.
  constructor; [|apply IHl; assumption]. constructor; [apply eps_text_ok; exact Ft|]. intros l' E. destruct nested as [l|]; [|discriminate E]. injection E as <-. apply IH; assumption.
Qed.

Lemma marker_render : forall ty V, render (raw (mchar ty) :: raw c_space :: V) = ((match ty with LUnordered => s_ "- " | LOrdered => s_ "+ " end) ++ render V)%list.
Proof. intros [] V; reflexivity. Qed.
Lemma raws_render : forall c k, render (repeat (raw c) k) = repeat c k.
Proof. intros c k. induction k as [|k IH]; [reflexivity|]. cbn [repeat]. change (render (raw c :: repeat (raw c) k)) with (c :: render (repeat (raw c) k)). rewrite IH. reflexivity. Qed.
Lemma join1_render : forall l, render (ujoin1 l) = between nl (map render l).
Proof.
  induction l as [|a l IH]; [reflexivity|]. cbn [ujoin1 map between]. rewrite render_app. f_equal. destruct l as [|b l]; [reflexivity|]. cbn [map].
  change (render (raw c_nl :: ujoin1 (b :: l))) with (nl ++ render (ujoin1 (b :: l)))%list. rewrite IH. reflexivity.
Qed.
Lemma e_list_render : forall l, render (e_list l) = src_list l.
Proof.
  fix IH 1. intros [ty L items]. rewrite e_list_eq. cbn [src_list]. rewrite join1_render. f_equal. induction items as [|[t nested] items IHl]; [reflexivity|]. cbn [map]. rewrite IHl. f_equal. clear IHl.
  cbn [e_item]. rewrite render_app, marker_render, render_app, eps_render. unfold indent. rewrite raws_render. do 3 f_equal. destruct nested as [l|]; [|reflexivity].
  change (render (raw c_nl :: e_list l)) with (nl ++ render (e_list l))%list. rewrite IH. reflexivity.
Qed.
